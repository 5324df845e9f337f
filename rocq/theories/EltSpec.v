(** What the elementwise operators mean.  Numbers are reals; a type says which numbers a tensor may hold.
    The widths of integers and the rounding of floats are left out, except for [Where]ing in IEEE arithmetic
    (last part), where rounding, infinities and NaN are the point. *)
From Coq Require Import List Arith Bool Reals ZArith.
From Flocq Require Import Core BinarySingleNaN.
From Verif Require Import Tensor ConvSpec QuantSpec.
Import ListNotations.
Local Open Scope R_scope.

(** ** Types *)
Inductive dty := DB | DI | DF.
Definition holds (d : dty) (v : R) : Prop :=
  match d with DB => v = 0 \/ v = 1 | DI => exists z, v = IZR z | DF => True end.
Definition has_dty (d : dty) (x : tensor R) : Prop := forall idx, valid (tshape x) idx -> holds d (tget x idx).

(** ** Binary operators of PyTorch, on numbers; truth values are 0 and 1 *)
Inductive bop := BAdd | BSub | BRsub | BMul | BDiv | BRem | BFloorDiv | BMax | BMin | BGt | BLt | BGe | BLe | BEq | BNe.
Definition b2r (b : bool) : R := if b then 1 else 0.
Definition dec2b {P : Prop} (d : {P} + {~ P}) : bool := if d then true else false.
Definition Rgeb (a b : R) : bool := dec2b (Rle_dec b a).
Definition Rgtb (a b : R) : bool := dec2b (Rlt_dec b a).
Definition Reqb (a b : R) : bool := dec2b (Req_EM_T a b).
Definition num (op : bop) (a b : R) : R :=
  match op with
  | BAdd => a + b | BSub => a - b | BRsub => b - a | BMul => a * b
  | BDiv => a / b
  | BRem => a - b * IZR (Int_part (a / b))
  | BFloorDiv => IZR (Int_part (a / b))
  | BMax => Rmax a b | BMin => Rmin a b
  | BGt => b2r (Rgtb a b) | BLt => b2r (Rgtb b a) | BGe => b2r (Rgeb a b) | BLe => b2r (Rgeb b a)
  | BEq => b2r (Reqb a b) | BNe => b2r (negb (Reqb a b))
  end.
Definition torch_binary (op : bop) (x y : tensor R) : option (tensor R) := binop (num op) x y.
Definition torch_binary_scalar (op : bop) (x : tensor R) (c : R) : tensor R := tmap (fun v => num op v c) x.

(** ** TFLite kernels: SUB has no reversed form; DIV of integers drops the fraction; arithmetic on booleans is
    refused *)
Inductive kop := KAdd | KSub | KMul | KDiv | KFloorMod | KFloorDiv | KMax | KMin | KGt | KLt | KGe | KLe | KEq | KNe.
Definition Rtrunc (r : R) : Z := if Rle_dec 0 r then Int_part r else (- Int_part (- r))%Z.
Definition accepts (k : kop) (d : dty) : bool :=
  match d, k with DB, KEq => true | DB, KNe => true | DB, _ => false | _, _ => true end.
Definition kern (k : kop) (d : dty) (a b : R) : R :=
  match k with
  | KAdd => a + b | KSub => a - b | KMul => a * b
  | KDiv => match d with DF => a / b | _ => IZR (Rtrunc (a / b)) end
  | KFloorMod => a - b * IZR (Int_part (a / b))
  | KFloorDiv => IZR (Int_part (a / b))
  | KMax => Rmax a b | KMin => Rmin a b
  | KGt => b2r (Rgtb a b) | KLt => b2r (Rgtb b a) | KGe => b2r (Rgeb a b) | KLe => b2r (Rgeb b a)
  | KEq => b2r (Reqb a b) | KNe => b2r (negb (Reqb a b))
  end.

(** ** Clamping *)
Definition torch_clamp (lo hi : option R) (v : R) : R :=
  let w := match lo with Some l => Rmax v l | None => v end in
  match hi with Some h => Rmin w h | None => w end.
(** A quantized number: [q] between the bounds of its type stands for [s * (q - z)]. *)
Definition deq (s : R) (z q : Z) : R := s * (IZR q - IZR z).
(** [q] is a nearest representable value of [v] *)
Definition nearest_q (tmin tmax : Z) (s : R) (z q : Z) (v : R) : Prop :=
  (tmin <= q <= tmax)%Z /\ forall q', (tmin <= q' <= tmax)%Z -> Rabs (deq s z q - v) <= Rabs (deq s z q' - v).
(** PyTorch's quantization of a number *)
Definition torch_quantize (tmin tmax : Z) (s : R) (z : Z) (v : R) : Z := clampZ tmin tmax (rne (v / s) + z).

(** ** Activations *)
Definition sigmoid (x : R) : R := 1 / (1 + exp (- x)).
Definition relu6 (x : R) : R := Rmin (Rmax x 0) 6.
Definition torch_softplus (threshold x : R) : R := if Rlt_dec threshold x then x else ln (1 + exp x).
Definition torch_mish (x : R) : R := x * tanh (ln (1 + exp x)).
Definition torch_silu (x : R) : R := x * sigmoid x.
Definition torch_hardsigmoid (x : R) : R :=
  if Rle_dec x (- 3) then 0 else if Rle_dec 3 x then 1 else x / 6 + 1 / 2.
Inductive gelu_kind := GNone | GTanh.

(** PReLU: one slope for all channels or one per channel, the channel being axis 1 *)
Definition torch_prelu (alpha x : tensor R) : tensor R :=
  mkT (tshape x) (fun idx =>
    let a := tget alpha [if (prod (tshape alpha) =? 1)%nat then 0%nat else nth 1 idx 0%nat] in
    if Rle_dec 0 (tget x idx) then tget x idx else a * tget x idx).
Definition prelu_kernel (x a : R) : R := if Rle_dec 0 x then x else a * x.

(** ** IEEE binary32, round to nearest even *)
Definition f32 := binary_float 24 128.
#[global] Instance f32_prec : Prec_gt_0 24 := eq_refl.
#[global] Instance f32_emax : Prec_lt_emax 24 128 := eq_refl.
Definition fadd (a b : f32) : f32 := Bplus mode_NE a b.
Definition fsub (a b : f32) : f32 := Bminus mode_NE a b.
Definition fmul (a b : f32) : f32 := Bmult mode_NE a b.
Definition fone : f32 := Bone.
Definition fzero : f32 := B754_zero false.
Definition finf (s : bool) : f32 := B754_infinity s.
Definition fmax : f32 := Bmax_float.
(** torch.where(mask, v, x) and x.masked_fill(mask, v), operands of any shapes that broadcast *)
Definition torch_where (m : tensor bool) (v x : tensor f32) (s : list nat) : tensor f32 :=
  mkT s (fun idx => if tget m (bidx (tshape m) idx) then tget v (bidx (tshape v) idx) else tget x (bidx (tshape x) idx)).
(** the same finite number; a zero may have either sign *)
Definition fsame (a b : f32) : Prop := is_finite a = true /\ is_finite b = true /\ B2R a = B2R b.

(** ** Conditions under which the theorems speak *)
(** the operator on operands of this type is arithmetic that both sides define alike: no booleans except for equality,
    division of floats only *)
Definition arith_ok (op : bop) (d : dty) : Prop := d <> DB /\ (op <> BDiv \/ d = DF) \/ (op = BEq \/ op = BNe).
(** the bounds are numbers of the type of the tensor *)
Definition bounds_fit (dx : dty) (lo hi : option R) : Prop :=
  (match lo with Some l => holds dx l | None => True end) /\ (match hi with Some h => holds dx h | None => True end).
(** the pairs that become RELU or RELU6 *)
Definition relu_case (lo hi : option R) : Prop := lo = Some 0 /\ (hi = None \/ hi = Some 6).
Definition all_finite (t : tensor f32) : Prop := forall idx, valid (tshape t) idx -> is_finite (tget t idx) = true.
(** [v] is the finite number that stands for [c]: [c] itself, or for an infinity the largest or
    smallest of all finite numbers. *)
Definition stands_for (v c : f32) : Prop :=
  is_finite v = true /\ (is_finite c = true -> v = c) /\
  (c = finf false -> forall f : f32, is_finite f = true -> B2R f <= B2R v) /\
  (c = finf true -> forall f : f32, is_finite f = true -> B2R v <= B2R f).
