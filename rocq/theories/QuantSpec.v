(** Meaning of quantized tensors, rounding and integer storage.

    Specification side: follows the documented semantics of torch, numpy and TFLite and
    does not cite code of the project. *)
From Coq Require Import List Arith ZArith Bool Reals Lia Lra.
From Verif Require Import Tensor ConvSpec.
Import ListNotations.
Local Open Scope R_scope.

(* ------------------------------------------------------------------ *)
(** * Rounding *)

(** Round to the nearest integer, ties to even ([torch.round], [np.round], [nearbyint]). *)
Definition rne (x : R) : Z :=
  let f := Int_part x in
  let d := x - IZR f in
  if Rlt_dec d (1 / 2) then f
  else if Rlt_dec (1 / 2) d then (f + 1)%Z
  else if Z.even f then f else (f + 1)%Z.

(** Round to the nearest integer, ties away from zero ([std::round], TFLite). *)
Definition rha (x : R) : Z :=
  if Rle_dec 0 x then Int_part (x + 1 / 2) else (- Int_part (- x + 1 / 2))%Z.

Definition clampZ (lo hi z : Z) : Z := Z.min hi (Z.max lo z).

Lemma Int_part_bound x : IZR (Int_part x) <= x < IZR (Int_part x) + 1.
Proof. pose proof (base_Int_part x) as [H1 H2]. split; lra. Qed.

Lemma Int_part_unique x n : IZR n <= x < IZR n + 1 -> Int_part x = n.
Proof.
  intros [H1 H2]. pose proof (Int_part_bound x) as [H3 H4].
  assert (IZR n < IZR (Int_part x + 1)) by (rewrite plus_IZR; lra).
  assert (IZR (Int_part x) < IZR (n + 1)) by (rewrite plus_IZR; lra).
  apply lt_IZR in H. apply lt_IZR in H0. lia.
Qed.

Lemma Rabs_between x a : Rabs x <= a -> - a <= x <= a.
Proof.
  intro H. pose proof (Rle_abs x) as H1. pose proof (Rle_abs (- x)) as H2. rewrite Rabs_Ropp in H2. lra.
Qed.

Lemma rne_half x : Rabs (x - IZR (rne x)) <= 1 / 2.
Proof.
  unfold rne. pose proof (Int_part_bound x) as [H1 H2].
  destruct (Rlt_dec _ _); [|destruct (Rlt_dec _ _); [|destruct (Z.even _)]];
    rewrite ?plus_IZR; apply Rabs_le; lra.
Qed.

Lemma rne_unique x n : Rabs (x - IZR n) < 1 / 2 -> rne x = n.
Proof.
  intro H. pose proof (rne_half x) as H1.
  apply Rabs_def2 in H. destruct H as [Ha Hb].
  apply Rabs_between in H1.
  assert (IZR n < IZR (rne x + 1)) by (rewrite plus_IZR; lra).
  assert (IZR (rne x) < IZR (n + 1)) by (rewrite plus_IZR; lra).
  apply lt_IZR in H. apply lt_IZR in H0. lia.
Qed.

Lemma rne_IZR n : rne (IZR n) = n.
Proof. apply rne_unique. replace (IZR n - IZR n) with 0 by ring. rewrite Rabs_R0. lra. Qed.

Lemma rne_bounds x n : Rabs x <= IZR n -> (- n <= rne x <= n)%Z.
Proof.
  intro H. pose proof (rne_half x) as H1.
  apply Rabs_between in H.
  apply Rabs_between in H1.
  split.
  - assert (IZR (- n) < IZR (rne x + 1)) by (rewrite plus_IZR, opp_IZR; lra).
    apply lt_IZR in H0. lia.
  - assert (IZR (rne x) < IZR (n + 1)) by (rewrite plus_IZR; lra). apply lt_IZR in H0. lia.
Qed.

Lemma rha_IZR n : rha (IZR n) = n.
Proof.
  unfold rha. destruct (Rle_dec 0 (IZR n)).
  - apply Int_part_unique. lra.
  - rewrite (Int_part_unique _ (- n)%Z); [lia|]. rewrite opp_IZR. lra.
Qed.

(* ------------------------------------------------------------------ *)
(** * Integer storage *)

Inductive ity := U8 | S8 | S16.
Definition ity_eqb (a b : ity) : bool :=
  match a, b with U8, U8 | S8, S8 | S16, S16 => true | _, _ => false end.
Definition ity_lo (t : ity) : Z := match t with U8 => 0 | S8 => -128 | S16 => -32768 end.
Definition ity_hi (t : ity) : Z := match t with U8 => 255 | S8 => 127 | S16 => 32767 end.
Definition in_ity (t : ity) (z : Z) : Prop := (ity_lo t <= z <= ity_hi t)%Z.
(** two's complement wrap-around of a conversion (numpy [astype] between integer types) *)
Definition wrap (t : ity) (z : Z) : Z :=
  let n := (ity_hi t - ity_lo t + 1)%Z in ((z - ity_lo t) mod n + ity_lo t)%Z.

Lemma wrap_in t z : in_ity t (wrap t z).
Proof.
  unfold in_ity, wrap. destruct t; cbn [ity_lo ity_hi];
    match goal with |- context [(?a mod ?b)%Z] => pose proof (Z.mod_pos_bound a b ltac:(lia)) end; lia.
Qed.
Lemma wrap_id t z : in_ity t z -> wrap t z = z.
Proof. unfold in_ity, wrap. destruct t; cbn [ity_lo ity_hi]; intro H; rewrite Z.mod_small; lia. Qed.

(* ------------------------------------------------------------------ *)
(** * Quantization parameters *)

(** TFLite: one scale and zero point, or one per channel along [quantized_dimension]. *)
Inductive qpar := PerTensor (s : R) (z : Z) | PerChannel (s : list R) (z : list Z) (axis : nat).
Definition qscale (p : qpar) (idx : list nat) : R :=
  match p with PerTensor s _ => s | PerChannel s _ ax => nth (nth ax idx 0%nat) s 0 end.
Definition qzero (p : qpar) (idx : list nat) : Z :=
  match p with PerTensor _ z => z | PerChannel _ z ax => nth (nth ax idx 0%nat) z 0%Z end.
(** the real tensor denoted by stored integers *)
Definition qreal (p : qpar) (t : tensor Z) : tensor R :=
  mkT (tshape t) (fun idx => qscale p idx * IZR (tget t idx - qzero p idx)).

(** torch: the axis may be counted from the end. *)
Definition py_axis (rank : nat) (ax : Z) : nat := Z.to_nat (if (ax <? 0)%Z then ax + Z.of_nat rank else ax)%Z.
Inductive tqpar := TPerTensor (s : R) (z : Z) | TPerChannel (s : list R) (z : list Z) (axis : Z).
Definition treal (p : tqpar) (t : tensor Z) : tensor R :=
  mkT (tshape t) (fun idx =>
    match p with
    | TPerTensor s z => s * IZR (tget t idx - z)
    | TPerChannel s z ax => let c := nth (py_axis (length (tshape t)) ax) idx 0%nat in
                            nth c s 0 * IZR (tget t idx - nth c z 0%Z)
    end).

(** QUANTIZE between two quantized tensors (TFLite requantization). *)
Definition requantize (d : ity) (s1 : R) (z1 : Z) (s2 : R) (z2 : Z) (q : Z) : Z :=
  clampZ (ity_lo d) (ity_hi d) (rha (s1 * IZR (q - z1) / s2) + z2).

(** torch [quantize_per_tensor] / [quantize_per_channel] of one element *)
Definition torch_quant (lo hi : Z) (s : R) (z : Z) (x : R) : Z := clampZ lo hi (z + rne (x / s)).
(** torch [fake_quantize_per_tensor_affine] of one element *)
Definition torch_fake_quant (lo hi : Z) (s : R) (z : Z) (x : R) : R := s * IZR (torch_quant lo hi s z x - z).
(** quantization by the TFLite runtime: ties away from zero *)
Definition tflite_quant (lo hi : Z) (s : R) (z : Z) (x : R) : Z := clampZ lo hi (z + rha (x / s)).

(** maximum and minimum of a non-empty list *)
Definition is_max (m : R) (l : list R) : Prop := In m l /\ forall x, In x l -> x <= m.
