(** Model of the rewriting of single operators in [rewrite_quantize_graph]
    ([tinynn/graph/quantization/quantizer.py] 1529-2987), over the reals: what is called in place of a function.
    [None] stands for a python exception during the rewriting.  How the calls are put into the graph is not part of
    this file, nor are the conditions on data types and on [layerwise_config]. *)
From Coq Require Import String List Arith ZArith Bool Reals.
From Verif Require Import Tensor ConvSpec EltSpec MoveSpec LayoutSpec FuseModel QRewriteSpec.
Import ListNotations.
Local Open Scope R_scope.

(** the number in [args_string_no_self]: [float(...)] if there is a dot in the text (or an "e", if that is looked
    for), else [int(...)] (quantizer.py 1749-1752, 1786-1789, 1817-1820).  With a keyword or more than one argument
    neither can read the text; without any there is no such attribute (tracer.py 704-709). *)
Definition py_number (look_for_e : bool) (a : args) : option R :=
  match a_pos a, a_kw a with
  | [l], [] => if has_dot l || (look_for_e && has_e l) then py_float l else option_map IZR (py_int l)
  | _, _ => None
  end.

(** neg (quantizer.py 1698-1709, 1909-1936): [mul_scalar(x, -1.0)] *)
Definition rewrite_neg : acode := AMulScalar (AArg 0) (-1).
(** div (quantizer.py 1727-1755, 1909-1936): [mul_scalar(x, 1.0 / c)] *)
Definition rewrite_div (a : args) : option acode :=
  match py_number false a with
  | Some c => if Req_EM_T c 0 then None else Some (AMulScalar (AArg 0) (1 / c))
  | None => None
  end.
(** sub (quantizer.py 1768-1834, 1909-1936): [r] is the test for [__rsub__], [n] the number of tensors *)
Definition rewrite_sub (r : bool) (n : nat) (a : args) : option acode :=
  if (n =? 1)%nat && negb r then option_map (fun c => AAddScalar (AArg 0) (- c)) (py_number true a)
  else if (n =? 2)%nat then Some (AAdd (AArg 0) (AMulScalar (AArg 1) (-1)))
  else option_map (fun c => AAddScalar (AMulScalar (AArg 0) (-1)) c) (py_number false a).

(** stack (quantizer.py 1851-1884): the axis, then [cat] of the unsqueezed operands with the same axis *)
Definition rewrite_stack_dim (a : args) : option Z :=
  match a_pos a, a_kw a with
  | [], [] => Some 0%Z
  | [l], [] => py_int l
  | [], [(k, v)] => if String.eqb k "axis"%string || String.eqb k "dim"%string then py_int v else None
  | _, _ => None
  end.
Definition rewrite_stack {A} (d : A) (a : args) (ts : list (tensor A)) : option (tensor A) :=
  option_map (fun dim => torch_cat d dim (map (torch_unsqueeze dim) ts)) (rewrite_stack_dim a).

(** [==] of python between an argument and a number *)
Definition py_eq (o : option lit) (r : R) : bool :=
  match o with
  | Some (LBool b) => if Req_EM_T (if b then 1 else 0) r then true else false
  | Some l => match lit_val l with Some v => if Req_EM_T v r then true else false | None => false end
  | None => false
  end.
Definition is_none (o : option lit) : bool := match o with None | Some LNone => true | _ => false end.
Definition text (o : option lit) : lit := match o with Some l => l | None => LNone end.
(** clamp (quantizer.py 2026-2077); a clamp that is not fused later becomes [torch.clamp] again (2881-2897) *)
Definition rewrite_clamp (a : args) : ccode :=
  let lo := param 0 "min"%string a in let hi := param 1 "max"%string a in
  if py_eq lo 0 && is_none hi then KRelu
  else if py_eq lo 0 && py_eq hi 6 then KRelu6
  else if is_none hi then KClampMin (text lo)
  else if is_none lo then KClampMax (text hi)
  else KClampBoth (text lo) (text hi).
(** clamp_min (quantizer.py 1989-2011): only with the bound 0, as a clamp; [Some None]: unchanged *)
Definition rewrite_clamp_min (a : args) : option (option ccode) :=
  match param 0 "min"%string a with
  | None => None
  | Some l => if py_eq (Some l) 0 then Some (Some (rewrite_clamp (mkA [l] []))) else Some None
  end.

(** are there arguments behind the tensor (tracer.py 704-709) *)
Definition no_args (a : args) : bool := match a_pos a, a_kw a with [], [] => true | _, _ => false end.
(** leaky_relu and elu as modules (quantizer.py 2192-2209): both read a parameter called [alpha] *)
Definition rewrite_leaky (a : args) : option (R -> R) :=
  if no_args a then Some (leaky (1 / 100)) else option_map leaky (num_param 0 "alpha"%string 1 a).
Definition rewrite_elu (a : args) : option (R -> R) :=
  if no_args a then Some (elu 1) else option_map elu (num_param 0 "alpha"%string 1 a).
(** glu as a module (quantizer.py 2245-2255, 2277-2281): the axis *)
Definition rewrite_glu_dim (a : args) : option Z :=
  if no_args a then Some (-1)%Z
  else match param 0 "dim"%string a with None => Some (-1)%Z | Some (LInt z) => Some z | Some _ => None end.
(** dropout as [nn.Dropout(p)] (quantizer.py 2297-2315), called in a model that is in training or not *)
Definition rewrite_dropout (mode : bool) (keep : list nat -> bool) (a : args) (x : tensor R) : option (tensor R) :=
  option_map (fun p => dropped keep p mode x) (num_param 0 "p"%string (1 / 2) a).

(** pools with windows of one element (quantizer.py 2396-2415): the steps of the slices *)
Definition pool_steps (rank : nat) (stride : option sizes) : list nat :=
  [1; 1]%nat ++ match stride with
                | Some (SList l) => l
                | Some (SOne s) => repeat s (rank - 2)
                | None => repeat 1%nat (rank - 2)
                end.
Definition rewrite_pool {A} (stride : option sizes) (x : tensor A) : option (tensor A) :=
  getitem (pool_steps (length (tshape x)) stride) x.

(** Linear and BatchNorm1d (quantizer.py 2431-2489): [x[..., None, None]], a convolution with the reshaped weight,
    BatchNorm2d with the same state, [flatten(1)]; operands that are not of rank 2 are left alone *)
Definition rewrite_linear_bn (training : bool) (w : tensor R) (b : option (list R)) (p : bn_params) (x : tensor R)
  : option (tensor R) :=
  if (length (tshape x) =? 2)%nat
  then let w4 := reshape [nth 0 (tshape w) 0; nth 1 (tshape w) 0; 1; 1]%nat w in
       option_map flatten1 (batch_norm_2d training p (torch_conv2d w4 b (two_axes x)))
  else batch_norm_1d training p (torch_linear w b x).
(** BatchNorm1d (quantizer.py 2510-2543): [unsqueeze(2)], BatchNorm2d with the same state, [squeeze(2)] *)
Definition rewrite_bn1d (training : bool) (p : bn_params) (x : tensor R) : option (tensor R) :=
  option_map (torch_squeeze 2) (batch_norm_2d training p (torch_unsqueeze 2 x)).

(** broadcasting of the operands of add and mul (quantizer.py 2918-2966): [-1] as [Some None] *)
Definition ref := option (option nat).   (* None: not set; Some None: -1; Some (Some i): operand i *)
Definition ref_in (i : nat) (r : ref) : bool :=
  match r with None => true | Some (Some j) => (j =? i)%nat | Some None => false end.
(** the loop over the axes (quantizer.py 2929-2941) *)
Fixpoint ref_loop (l r : list nat) (ri : ref) : ref :=
  match l, r with
  | a :: l', b :: r' =>
      if (b <? a)%nat then (if ref_in 0 ri && (b =? 1)%nat then ref_loop l' r' (Some (Some 0%nat)) else Some None)
      else if (a <? b)%nat then (if ref_in 1 ri && (a =? 1)%nat then ref_loop l' r' (Some (Some 1%nat)) else Some None)
      else ref_loop l' r' ri
  | _, _ => ri
  end.
(** quantizer.py 2918-2941 *)
Definition ref_index (l r : list nat) : ref :=
  if (length r <? length l)%nat then ref_loop l (repeat 1%nat (length l - length r) ++ r) (Some (Some 0%nat))
  else if (length l <? length r)%nat then ref_loop (repeat 1%nat (length r - length l) ++ l) r (Some (Some 1%nat))
  else ref_loop l r None.
(** the two operands afterwards (quantizer.py 2908-2912, 2943-2966); [None]: comparing [None] with 0 raises, as does
    an [expand_as] that does not fit *)
Definition rewrite_broadcast {A} (x y : tensor A) : option (tensor A * tensor A) :=
  if list_eq_dec Nat.eq_dec (tshape x) (tshape y) then Some (x, y)
  else match ref_index (tshape x) (tshape y) with
       | None => None
       | Some None => torch_broadcast x y
       | Some (Some O) => option_map (fun y' => (x, y')) (torch_expand_as y x)
       | Some (Some _) => option_map (fun x' => (x', y)) (torch_expand_as x y)
       end.
