(** Meaning of quantized layers: what torch computes and what the TFLite kernels compute.

    Specification side: follows the documented semantics of torch and of the TFLite kernels and does not cite code of
    the project. *)
From Coq Require Import List Arith ZArith Bool Reals.
From Verif Require Import Tensor ConvSpec QuantSpec.
Import ListNotations.
Local Open Scope R_scope.

Definition rsum (l : list R) : R := fold_right Rplus 0 l.
Definition zsum (l : list Z) : Z := fold_right Z.add 0%Z l.

(** One output element of a convolution, transposed convolution or linear layer is a sum over pairs of an input element
    and a weight element, plus the bias of its channel.  Elements of the padding are zero and left out. *)
Definition tap : Type := (list nat * list nat)%type.
(** torch: the real number that is quantized *)
Definition torch_dot (px : tqpar) (x : tensor Z) (pw : tqpar) (w : tensor Z) (taps : list tap) (b : R) : R :=
  rsum (map (fun t => tget (treal px x) (fst t) * tget (treal pw w) (snd t)) taps) + b.
(** TFLite: the integer accumulator, and its requantization with the scales of the three tensors; [relu] raises the
    lower bound to the integer that stands for zero *)
Definition tfl_acc (zx zw : Z) (x w : tensor Z) (taps : list tap) (bq : Z) : Z :=
  (zsum (map (fun t => (tget x (fst t) - zx) * (tget w (snd t) - zw)) taps) + bq)%Z.
Definition tfl_requant (relu : bool) (ty : ity) (m : R) (zy acc : Z) : Z :=
  clampZ (if relu then Z.max (ity_lo ty) zy else ity_lo ty) (ity_hi ty) (zy + rha (m * IZR acc)).
(** TFLite MUL and ADD on quantized operands *)
Definition tfl_mul_q (ty : ity) (s1 : R) (z1 q1 : Z) (s2 : R) (z2 q2 : Z) (so : R) (zo : Z) : Z :=
  clampZ (ity_lo ty) (ity_hi ty) (zo + rha (s1 * s2 / so * IZR ((q1 - z1) * (q2 - z2)))).
Definition tfl_add_q (ty : ity) (s1 : R) (z1 q1 : Z) (s2 : R) (z2 q2 : Z) (so : R) (zo : Z) : Z :=
  clampZ (ity_lo ty) (ity_hi ty) (zo + rha ((s1 * IZR (q1 - z1) + s2 * IZR (q2 - z2)) / so)).

(** torch [quantized::mul_scalar] on [quint8]: parameters and integer of the result *)
Definition torch_mul_scalar (s : R) (z : Z) (v : R) (q : Z) : R * Z * Z :=
  if Rlt_dec 0 v then (v * s, z, q)
  else if Rlt_dec v 0 then (- v * s, (255 - z)%Z, (255 - q)%Z)
  else (1, 0%Z, 0%Z).
(** torch [quantized::add_scalar] on [quint8]: the zero point moves; if it would leave the range, the scale grows *)
Definition torch_add_scalar (s : R) (z : Z) (v : R) (q : Z) : R * Z * Z :=
  let c := rne (v / s) in
  let requant s' z' := torch_quant 0 255 s' z' (s * IZR (q - (z - c))) in
  if (z - c <? 0)%Z then let s' := IZR (255 - (z - c)) / 255 * s in (s', 0%Z, requant s' 0%Z)
  else if (255 <? z - c)%Z then let s' := IZR (z - c) / 255 * s in (s', 255%Z, requant s' 255%Z)
  else (s, (z - c)%Z, q).

(** the storage type of the model keeps the zero point [z] of a [quint8] tensor *)
Definition zero_kept (qt : ity) (asym : bool) (z : Z) : Prop :=
  match qt with U8 => True | S8 => asym = true \/ z = 128%Z | S16 => z = 128%Z end.
(** scale and zero point of a stored [quint8] tensor: 16 bit tensors are 256 times finer *)
Definition fine (qt : ity) (s : R) : R := match qt with S16 => s / 256 | _ => s end.
Definition shifted (qt : ity) (z : Z) : Z := match qt with U8 => z | _ => (z - 128)%Z end.
(** scale of channel [c] of a torch weight, and the weight elements of that channel *)
Definition tscale (p : tqpar) (c : nat) : R := match p with TPerTensor s _ => s | TPerChannel s _ _ => nth c s 0 end.
Definition of_channel (p : tqpar) (rank c : nat) (idx : list nat) : Prop :=
  match p with TPerTensor _ _ => True | TPerChannel _ _ ax => nth (py_axis rank ax) idx 0%nat = c end.
(** bias of channel [c], zero if there is none *)
Definition bias_at (bias : option (list R)) (c : nat) : R := match bias with Some b => nth c b 0 | None => 0 end.
Definition bias_has (bias : option (list R)) (c : nat) : Prop := match bias with Some b => (c < length b)%nat | None => True end.
(** the pairs of elements that make up one output element of channel [c] *)
Definition taps_ok (pw : tqpar) (x w : tensor Z) (c : nat) (taps : list tap) : Prop :=
  forall t, In t taps -> valid (tshape x) (fst t) /\ valid (tshape w) (snd t) /\ of_channel pw (length (tshape w)) c (snd t).
