(** Calls of torch functions with literal arguments, the meaning of the torch functions concerned, and the meaning
    of the calls that may stand for them (specification side: documented semantics of python and torch, over the
    reals; no code of the quantizer). *)
From Coq Require Import String List Arith ZArith Bool Reals.
From Verif Require Import Tensor ConvSpec EltSpec MoveSpec PoolSpec LayoutSpec CatSpec FuseModel QatSpec.
Import ListNotations.
Local Open Scope R_scope.

(** ** Python: literals, printed numbers, binding of arguments *)

(** the text of an argument: an integer, a number with a dot, with an exponent and no dot ([1e-05]), with both,
    an infinity ([float('inf')]), [None], [True]/[False], a string *)
Inductive lit := LInt (z : Z) | LDot (r : R) | LExp (r : R) | LDotExp (r : R) | LInf (neg : bool) | LNone
               | LBool (b : bool) | LStr (s : string).
(** the number a literal stands for *)
Definition lit_val (l : lit) : option R :=
  match l with LInt z => Some (IZR z) | LDot r | LExp r | LDotExp r => Some r | _ => None end.
(** python's [float(text)] and [int(text)] *)
Definition py_float (l : lit) : option R := lit_val l.
Definition py_int (l : lit) : option Z := match l with LInt z => Some z | _ => None end.
(** does the text contain a dot, an "e" ([None], [True], [False] do) *)
Definition has_dot (l : lit) : bool := match l with LDot _ | LDotExp _ => true | _ => false end.
Definition has_e (l : lit) : bool := match l with LExp _ | LDotExp _ | LNone | LBool _ => true | _ => false end.
(** a value printed with [str] and read again: an infinity prints as the unknown name [inf] *)
Definition reread (l : lit) : option lit := match l with LInf _ => None | _ => Some l end.

(** the arguments of a call behind the tensor: positional ones, and keywords *)
Record args := mkA { a_pos : list lit; a_kw : list (string * lit) }.
Fixpoint keyword (n : string) (l : list (string * lit)) : option lit :=
  match l with [] => None | (k, v) :: l' => if String.eqb k n then Some v else keyword n l' end.
(** parameter number [i], called [n] *)
Definition param (i : nat) (n : string) (a : args) : option lit :=
  match nth_error (a_pos a) i with Some l => Some l | None => keyword n (a_kw a) end.
(** a call that python accepts for a function with the parameters [ps]: every keyword names a parameter that is not
    given by position, once *)
Definition accepted (ps : list string) (a : args) : Prop :=
  (length (a_pos a) <= length ps)%nat /\ NoDup (map fst (a_kw a)) /\
  Forall (fun kv => In (fst kv) (skipn (length (a_pos a)) ps)) (a_kw a).

(** ** Torch: arithmetic *)

Definition torch_neg (x : tensor R) : tensor R := tmap Ropp x.
(** [torch.div(x, other)] for a number that is not zero, without rounding *)
Definition torch_div (a : args) (x : tensor R) : option (tensor R) :=
  match param 0 "other"%string a, param 1 "rounding_mode"%string a with
  | Some l, (None | Some LNone) =>
      match lit_val l with Some c => if Req_EM_T c 0 then None else Some (tmap (fun v => v / c) x) | None => None end
  | _, _ => None
  end.
(** the multiplier of the second operand of [torch.sub] *)
Definition alpha_of (a : args) : option R :=
  match keyword "alpha"%string (a_kw a) with None => Some 1 | Some l => lit_val l end.
(** [torch.sub(x, other, alpha=...)] for a number *)
Definition torch_sub_scalar (a : args) (x : tensor R) : option (tensor R) :=
  match param 0 "other"%string a, alpha_of a with
  | Some l, Some al => match lit_val l with Some c => Some (tmap (fun v => v - al * c) x) | None => None end
  | _, _ => None
  end.
(** [c - x] *)
Definition torch_rsub_scalar (a : args) (x : tensor R) : option (tensor R) :=
  match param 0 "other"%string a with
  | Some l => match lit_val l with Some c => Some (tmap (fun v => c - v) x) | None => None end
  | None => None
  end.
(** [torch.sub(x, y, alpha=...)], and [x.__rsub__(y)] *)
Definition torch_sub (a : args) (x y : tensor R) : option (tensor R) :=
  match alpha_of a with Some al => binop (fun u v => u - al * v) x y | None => None end.
Definition torch_rsub (x y : tensor R) : option (tensor R) := binop (fun u v => v - u) x y.

(** calls of [torch.nn.quantized.FloatFunctional] *)
Inductive acode := AArg (i : nat) | AMulScalar (e : acode) (c : R) | AAddScalar (e : acode) (c : R) | AAdd (e f : acode).
Fixpoint arun (xs : list (tensor R)) (e : acode) : option (tensor R) :=
  match e with
  | AArg i => nth_error xs i
  | AMulScalar e c => option_map (tmap (fun v => v * c)) (arun xs e)
  | AAddScalar e c => option_map (tmap (fun v => v + c)) (arun xs e)
  | AAdd e f => match arun xs e, arun xs f with Some u, Some v => binop Rplus u v | _, _ => None end
  end.

(** the same result: both raise, or both give equal tensors *)
Definition same_result {A} (a b : option (tensor A)) : Prop :=
  match a, b with Some x, Some y => teq x y | None, None => True | _, _ => False end.

(** ** Torch: stacking *)

(** [torch.unsqueeze(t, dim)], [torch.cat(ts, dim)], [torch.stack(ts, dim)] with a possibly negative axis *)
Definition torch_unsqueeze {A} (dim : Z) (t : tensor A) : tensor A :=
  let ax := axis_of (S (length (tshape t))) dim in
  mkT (insert_at ax 1%nat (tshape t)) (fun idx => tget t (remove_at ax idx)).
Definition rank_of {A} (ts : list (tensor A)) : nat := match ts with [] => 0%nat | t :: _ => length (tshape t) end.
Definition torch_cat {A} (d : A) (dim : Z) (ts : list (tensor A)) : tensor A :=
  concatenation d (axis_of (rank_of ts) dim) ts.
Definition torch_stack {A} (d : A) (dim : Z) (ts : list (tensor A)) : tensor A :=
  stack d (axis_of (S (rank_of ts)) dim) ts.
(** the axis of a call of [torch.stack], which takes [axis] for [dim] *)
Definition stack_dim (a : args) : option Z :=
  match param 0 "dim"%string a with
  | Some (LInt z) => Some z
  | Some _ => None
  | None => match keyword "axis"%string (a_kw a) with Some (LInt z) => Some z | Some _ => None | None => Some 0%Z end
  end.

(** ** Torch: clamping *)

(** a bound: absent, a number, or the infinity on its own side *)
Definition bound (neg : bool) (o : option lit) : option (option R) :=
  match o with
  | None | Some LNone => Some None
  | Some (LInf n) => if Bool.eqb n neg then Some None else None
  | Some l => option_map Some (lit_val l)
  end.
Definition given (o : option lit) : bool := match o with None | Some LNone => false | _ => true end.
(** [torch.clamp(x, min=None, max=None)]: one of the bounds is given *)
Definition clamp_call (a : args) : option (R -> R) :=
  let lo := param 0 "min"%string a in let hi := param 1 "max"%string a in
  match bound true lo, bound false hi with
  | Some l, Some h => if given lo || given hi then Some (torch_clamp l h) else None
  | _, _ => None
  end.
Definition clamp_min_call (a : args) : option (R -> R) :=
  match param 0 "min"%string a with
  | Some l => if given (Some l) then option_map (fun b => torch_clamp b None) (bound true (Some l)) else None
  | None => None
  end.
(** no bound is an infinity *)
Definition finite_bounds (a : args) : Prop :=
  forall n, param 0 "min"%string a <> Some (LInf n) /\ param 1 "max"%string a <> Some (LInf n).
(** the calls that may stand for a clamp; the bounds are texts *)
Inductive ccode := KRelu | KRelu6 | KClampMin (l : lit) | KClampMax (l : lit) | KClampBoth (lo hi : lit).
Definition crun (c : ccode) : option (R -> R) :=
  match c with
  | KRelu => Some (fun v => Rmax v 0)
  | KRelu6 => Some relu6
  | KClampMin l => match reread l with Some (LNone) | None => None
                                     | Some l => option_map (fun b => torch_clamp b None) (bound true (Some l)) end
  | KClampMax h => match reread h with Some (LNone) | None => None
                                     | Some h => option_map (fun b => torch_clamp None b) (bound false (Some h)) end
  | KClampBoth l h => match reread l, reread h with
                      | Some l, Some h => clamp_call (mkA [l; h] [])
                      | _, _ => None
                      end
  end.

(** ** Torch: functions with a module of the same meaning *)

Definition leaky (slope v : R) : R := if Rle_dec 0 v then v else slope * v.
Definition elu (alpha v : R) : R := if Rle_dec 0 v then v else alpha * (exp v - 1).
(** a number given for a parameter, or its default *)
Definition num_param (i : nat) (n : string) (default : R) (a : args) : option R :=
  match param i n a with None => Some default | Some l => lit_val l end.
(** [F.leaky_relu(x, negative_slope=0.01, inplace=False)], [F.elu(x, alpha=1.0, inplace=False)] *)
Definition leaky_call (a : args) : option (R -> R) := option_map leaky (num_param 0 "negative_slope"%string (1 / 100) a).
Definition elu_call (a : args) : option (R -> R) := option_map elu (num_param 0 "alpha"%string 1 a).
(** the first parameter is given by position, or nothing is given *)
Definition by_position (a : args) : Prop := a_pos a <> [] \/ a = mkA [] [].
(** [F.glu(x, dim=-1)]: the axis *)
Definition glu_dim (a : args) : option Z :=
  match param 0 "dim"%string a with None => Some (-1)%Z | Some (LInt z) => Some z | Some _ => None end.
(** [F.dropout(x, p=0.5, training=True, inplace=False)] with the elements that are kept, drawn from outside *)
Definition dropped (keep : list nat -> bool) (p : R) (on : bool) (x : tensor R) : tensor R :=
  if on then mkT (tshape x) (fun idx => if keep idx then tget x idx / (1 - p) else 0) else x.
Definition dropout_call (a : args) : option (R * bool) :=
  match num_param 0 "p"%string (1 / 2) a, param 1 "training"%string a with
  | Some p, None => Some (p, true)
  | Some p, Some (LBool t) => Some (p, t)
  | _, _ => None
  end.

(** ** Torch: pools, slices, batch normalisation *)

(** a size per axis, or one for all of them; [None]: the size of the kernel *)
Inductive sizes := SOne (n : nat) | SList (l : list nat).
Definition per_axis (k : nat) (s : sizes) : list nat :=
  match s with SOne n => repeat n k | SList [n] => repeat n k | SList l => l end.
(** a stride as torch takes it for [k] axes, one number for each axis or one for all *)
Definition stride_ok (k : nat) (stride : option sizes) : Prop :=
  match stride with None => True | Some (SOne s) => (0 < s)%nat | Some (SList l) => length l = k /\ Forall (lt 0%nat) l end.
(** [k] pooled axes behind the batch (if there is one) and the channels *)
Definition batched {B} (k : nat) (op : tensor R -> tensor B) (x : tensor R) : option (tensor B) :=
  if (length (tshape x) =? k + 2)%nat then Some (op x)
  else if (length (tshape x) =? k + 1)%nat then
    let y := op (reshape (1%nat :: tshape x) x) in Some (reshape (skipn 1 (tshape y)) y)
  else None.
(** pooling of windows with one element, without padding: the greatest element and the mean of the element *)
Definition torch_max_pool (k : nat) (stride : option sizes) (ceil : bool) (x : tensor R) : option (tensor (option R)) :=
  batched k (max_pool ceil (repeat 1%nat k) (match stride with Some s => per_axis k s | None => repeat 1%nat k end)
                      (repeat 0%nat k)) x.
Definition torch_avg_pool (k : nat) (stride : option sizes) (ceil include : bool) (override : option nat)
  (x : tensor R) : option (tensor R) :=
  batched k (avg_pool include override ceil (repeat 1%nat k)
                      (match stride with Some s => per_axis k s | None => repeat 1%nat k end) (repeat 0%nat k)) x.
(** [x[slices]]: a step for each of the leading axes, [1] for [:]; the other axes are kept.  More slices than axes
    raise. *)
Definition getitem {A} (steps : list nat) (x : tensor A) : option (tensor A) :=
  if (length (tshape x) <? length steps)%nat then None
  else let st := steps ++ repeat 1%nat (length (tshape x) - length steps) in
       Some (strided_slice (map (fun _ => 0%nat) (tshape x)) (tshape x) st x).
(** [nn.BatchNorm1d] takes operands of rank 2 and 3, [nn.BatchNorm2d] of rank 4 *)
Definition batch_norm_1d (training : bool) (p : bn_params) (x : tensor R) : option (tensor R) :=
  match length (tshape x) with 2%nat | 3%nat => Some (torch_batch_norm training p x) | _ => None end.
Definition batch_norm_2d (training : bool) (p : bn_params) (x : tensor R) : option (tensor R) :=
  match length (tshape x) with 4%nat => Some (torch_batch_norm training p x) | _ => None end.
(** [torch.squeeze(x, dim)]: the axis goes if it has one element *)
Definition torch_squeeze {A} (ax : nat) (x : tensor A) : tensor A :=
  if (nth ax (tshape x) 0 =? 1)%nat then unpack ax 0 x else x.
(** [torch.flatten(x, 1)] *)
Definition flatten1 {A} (x : tensor A) : tensor A := reshape [nth 0 (tshape x) 0%nat; prod (skipn 1 (tshape x))] x.
(** [x[..., None, None]] *)
Definition two_axes {A} (x : tensor A) : tensor A := reshape (tshape x ++ [1%nat; 1%nat]) x.
Definition bias_fn (b : option (list R)) (o : nat) : R := match b with Some l => nth o l 0 | None => 0 end.
(** [nn.Linear] and a [nn.Conv2d] with the defaults (stride, dilation 1, no padding, one group) *)
Definition torch_linear (w : tensor R) (b : option (list R)) (x : tensor R) : tensor R := fc x w (bias_fn b).
Definition torch_conv2d (w : tensor R) (b : option (list R)) (x : tensor R) : tensor R :=
  conv (mkCA [1; 1]%nat [1; 1]%nat [0; 0]%nat [0; 0]%nat 1) x w (bias_fn b).

(** ** Torch: broadcasting *)
Definition torch_expand_as {A} (x y : tensor A) : option (tensor A) :=
  match bshape (tshape x) (tshape y) with
  | Some s => if list_eq_dec Nat.eq_dec s (tshape y) then Some (expand s x) else None
  | None => None
  end.
Definition torch_broadcast {A} (x y : tensor A) : option (tensor A * tensor A) :=
  match bshape (tshape x) (tshape y) with Some s => Some (expand s x, expand s y) | None => None end.
