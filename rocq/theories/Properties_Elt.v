(** Elementwise operators are lowered faithfully (C82-C87), and where they are not. *)
From Coq Require Import List Arith Bool Reals ZArith Lia Lra.
From Flocq Require Import Core BinarySingleNaN.
From Verif Require Import Tensor ConvSpec QuantSpec EltSpec AtenEltModel AtenEltProofs.
Import ListNotations.
Local Open Scope R_scope.

(** C82: arithmetic and comparisons of tensors of any types, after promotion; division needs a float *)
Theorem C82_tensors_partial : forall op dx x dy y z,
  has_dty dx x -> has_dty dy y -> arith_ok op (promote dx dy) -> torch_binary op x y = Some z ->
  exists z', aten_binary op 1 dx x (OTensor dy y) = Some z' /\ teq z' z.
Proof. exact aten_binary_tensor. Qed.
Print Assumptions C82_tensors_partial.

Example C82_tensors_ex :
  has_dty DI (mkT [2; 1]%nat (fun idx => IZR (Z.of_nat (nth 0 idx 0%nat)))) /\ has_dty DF (mkT [3]%nat (fun _ => 1 / 2)) /\
  arith_ok BRsub (promote DI DF) /\
  exists z, torch_binary BRsub (mkT [2; 1]%nat (fun idx => IZR (Z.of_nat (nth 0 idx 0%nat)))) (mkT [3]%nat (fun _ => 1 / 2)) = Some z /\
    tshape z = [2; 3]%nat /\ tget z [1; 2]%nat = - (1 / 2).
Proof.
  split; [intros idx _; eexists; reflexivity|]. split; [intros idx _; exact I|]. split; [left; split; [discriminate|left; discriminate]|].
  eexists. split; [reflexivity|]. split; [reflexivity|]. cbn. lra.
Qed.

(** a scalar of the kind of the tensor *)
Theorem C82_scalar_partial : forall op dx x c,
  tshape x <> [] -> has_dty dx x -> holds dx c -> arith_ok op dx ->
  exists z', aten_binary op 1 dx x (OScalar c) = Some z' /\ teq z' (torch_binary_scalar op x c).
Proof. exact aten_binary_scalar. Qed.
Print Assumptions C82_scalar_partial.

Example C82_scalar_ex : holds DF (1 / 2) /\ arith_ok BLt DF /\ holds DI (IZR 3) /\ arith_ok BRem DI /\
  tget (torch_binary_scalar BRem (mkT [1%nat] (fun _ => -7)) 3) [0%nat] = 2.
Proof.
  split; [exact I|]. split; [left; split; [discriminate|left; discriminate]|]. split; [now exists 3%Z|].
  split; [left; split; [discriminate|left; discriminate]|]. cbn. rewrite (Int_part_unique (-7 / 3) (-3)) by lra. lra.
Qed.

(** A scalar with a fraction next to an integer tensor loses the fraction. *)
Theorem C82_compare_fraction_refuted : exists x c, has_dty DI x /\ tshape x = [1%nat] /\
  exists z, aten_binary BLt 1 DI x (OScalar c) = Some z /\ tget z [0%nat] <> tget (torch_binary_scalar BLt x c) [0%nat].
Proof. exact compare_fraction_refuted. Qed.
Print Assumptions C82_compare_fraction_refuted.
Theorem C82_multiply_fraction_refuted : exists x c, has_dty DI x /\ tshape x = [1%nat] /\
  exists z, aten_binary BMul 1 DI x (OScalar c) = Some z /\ tget z [0%nat] <> tget (torch_binary_scalar BMul x c) [0%nat].
Proof. exact multiply_fraction_refuted. Qed.
Print Assumptions C82_multiply_fraction_refuted.
(** Dividing integers: PyTorch returns the quotient, the integer kernel of TFLite its integer part. *)
Theorem C82_divide_integers_refuted : exists x y, has_dty DI x /\ has_dty DI y /\
  exists z w, aten_binary BDiv 1 DI x (OTensor DI y) = Some z /\ torch_binary BDiv x y = Some w /\
  tshape z = [1%nat] /\ tshape w = [1%nat] /\ tget z [0%nat] <> tget w [0%nat].
Proof. exact divide_integers_refuted. Qed.
Print Assumptions C82_divide_integers_refuted.

(** floor_divide of integers by integers or booleans; a float divisor is cut to an integer first *)
Theorem C82_floor_divide_partial : forall x dy y z,
  has_dty DI x -> has_dty dy y -> dy <> DF -> torch_binary BFloorDiv x y = Some z ->
  exists z', aten_floor_divide DI true true x (OTensor dy y) = Some z' /\ teq z' z.
Proof. exact aten_floor_divide_ok. Qed.
Print Assumptions C82_floor_divide_partial.
Example C82_floor_divide_ex : has_dty DI (mkT [1%nat] (fun _ => -7)) /\ num BFloorDiv (-7) 2 = -4.
Proof. split; [intros idx _; now exists (-7)%Z|]. cbn. rewrite (Int_part_unique (-7 / 2) (-4)) by lra. lra. Qed.
Theorem C82_floor_divide_float_refuted : exists x y, has_dty DI x /\ has_dty DF y /\
  exists z w, aten_floor_divide DI true true x (OTensor DF y) = Some z /\ torch_binary BFloorDiv x y = Some w /\
  tshape z = [1%nat] /\ tshape w = [1%nat] /\ tget z [0%nat] <> tget w [0%nat].
Proof. exact floor_divide_float_refuted. Qed.
Print Assumptions C82_floor_divide_float_refuted.

(** C83: clamp, clamp_min, clamp_max *)
Theorem C83_clamp_partial : forall dx lo hi v, dx <> DB -> bounds_fit dx lo hi -> (lo <> None \/ hi <> None) ->
  dx = DF \/ ~ relu_case lo hi -> aten_clamp dx lo hi v = Some (torch_clamp lo hi v).
Proof. exact aten_clamp_ok. Qed.
Print Assumptions C83_clamp_partial.
Example C83_clamp_ex : bounds_fit DF (Some (-1 / 2)) (Some 2) /\ torch_clamp (Some (-1 / 2)) (Some 2) (-3) = -1 / 2 /\
  bounds_fit DI (Some 0) (Some 3) /\ ~ relu_case (Some 0) (Some 3).
Proof.
  split; [split; exact I|]. split; [cbn; rewrite Rmax_right by lra; now rewrite Rmin_left by lra|].
  split; [split; [now exists 0%Z|now exists 3%Z]|]. intros [_ [H|H]]; [discriminate|injection H; lra].
Qed.
(** clamp(x, 0) of an integer tensor becomes RELU, which takes no integers *)
Theorem C83_clamp_integer_refuted : aten_clamp DI (Some 0) None 1 = None /\ torch_clamp (Some 0) None 1 = 1.
Proof. exact clamp_integer_refuted. Qed.
Print Assumptions C83_clamp_integer_refuted.
(** On a quantized tensor the result is the representable value nearest to the clamped number. *)
Theorem C83_clamp_quantized : forall tmin tmax s z lo hi q, 0 < s -> (tmin <= z <= tmax)%Z -> (tmin <= q <= tmax)%Z ->
  (lo <> None \/ hi <> None) -> (forall l h, lo = Some l -> hi = Some h -> l <= h) ->
  exists q', aten_clamp_q tmin tmax s z lo hi q = Some q' /\ nearest_q tmin tmax s z q' (torch_clamp lo hi (deq s z q)).
Proof. exact aten_clamp_q_ok. Qed.
Print Assumptions C83_clamp_quantized.
Example C83_clamp_quantized_ex : aten_clamp_q 0 255 (1 / 10) 128 (Some (-1)) None 3 = Some 118%Z /\ deq (1 / 10) 128 118 = -1.
Proof.
  cbn [aten_clamp_q]. destruct (Reqb_spec (-1) 0); [lra|]. unfold quantize_numpy.
  replace (-1 / (1 / 10) + 128) with (IZR 118) by lra. rewrite rne_IZR. split; [reflexivity|]. unfold deq. lra.
Qed.
Theorem C83_hardtanh_partial : forall lo hi v, aten_hardtanh DF lo hi v = Some (torch_clamp (Some lo) (Some hi) v).
Proof. exact aten_hardtanh_ok. Qed.
Print Assumptions C83_hardtanh_partial.
(** hardtanh of a quantized tensor compares the stored integers with the bounds themselves *)
Theorem C83_hardtanh_quantized_refuted : exists s z lo hi q, 0 < s /\ (0 <= q <= 255)%Z /\ lo <= hi /\
  ~ nearest_q 0 255 s z (aten_hardtanh_q 255 s z lo hi q) (torch_clamp (Some lo) (Some hi) (deq s z q)).
Proof. exact hardtanh_quantized_refuted. Qed.
Print Assumptions C83_hardtanh_quantized_refuted.

(** C84: activations composed of several operators *)
Theorem C84_softplus_partial : forall threshold x, x <= threshold -> aten_softplus 1 threshold x = Some (torch_softplus threshold x).
Proof. exact aten_softplus_ok. Qed.
Print Assumptions C84_softplus_partial.
(** above the threshold PyTorch returns the argument itself; the difference is positive and small *)
Theorem C84_softplus_refuted : forall threshold x, threshold < x ->
  exists y, aten_softplus 1 threshold x = Some y /\ 0 < y - torch_softplus threshold x < exp (- threshold).
Proof. exact aten_softplus_bound. Qed.
Print Assumptions C84_softplus_refuted.
Theorem C84_mish : forall x, aten_mish x = torch_mish x.
Proof. exact aten_mish_ok. Qed.
Print Assumptions C84_mish.
Theorem C84_hardsigmoid : forall x, aten_hardsigmoid x = torch_hardsigmoid x.
Proof. exact aten_hardsigmoid_ok. Qed.
Print Assumptions C84_hardsigmoid.
Example C84_ex : torch_hardsigmoid 0 = 1 / 2 /\ torch_hardsigmoid (-4) = 0 /\ torch_softplus 20 30 = 30.
Proof.
  unfold torch_hardsigmoid, torch_softplus. destruct (Rle_dec 0 (-3)); [lra|]. destruct (Rle_dec 3 0); [lra|].
  destruct (Rle_dec (-4) (-3)); [|lra]. destruct (Rlt_dec 20 30); [|lra]. repeat split; lra.
Qed.
(** gelu: the flag is the wrong way round, each variant is lowered to the other *)
Theorem C84_gelu_refuted : forall exact approx x, exact x <> approx x ->
  aten_gelu exact approx false GNone x <> exact x /\ aten_gelu exact approx false GTanh x <> approx x.
Proof. exact aten_gelu_wrong. Qed.
Print Assumptions C84_gelu_refuted.

(** C85: PReLU with one slope or one per channel *)
Theorem C85_prelu_partial : forall const N C r alpha x w,
  tshape x = N :: C :: r -> tshape alpha = [w] -> (0 < C)%nat -> (w = C \/ w = 1%nat /\ (const = true \/ r = [])) ->
  exists y, aten_prelu const None alpha x = Some y /\ teq y (torch_prelu alpha x).
Proof. exact aten_prelu_ok. Qed.
Print Assumptions C85_prelu_partial.
Example C85_prelu_ex :
  let x := mkT [1; 2; 1; 1]%nat (fun _ => -1) in let a := mkT [2]%nat (fun idx => INR (1 + nth 0 idx 0%nat)) in
  tget (torch_prelu a x) [0; 1; 0; 0]%nat = -2 /\ exists y, aten_prelu true None a x = Some y.
Proof.
  split; [cbn; destruct (Rle_dec 0 (-1)); lra|]. eexists. reflexivity.
Qed.
(** A slope used at two ranks: the tile made for the first is taken for the second. *)
Theorem C85_store_refuted : exists alpha x4 x2 y, tshape alpha = [1%nat] /\ tshape x4 = [1; 2; 1; 1]%nat /\ tshape x2 = [1; 2]%nat /\
  (exists y4, aten_prelu true None alpha x4 = Some y4 /\ prelu_shape x4 = Some [2; 1; 1]%nat) /\
  aten_prelu true (Some [2; 1; 1]%nat) alpha x2 = Some y /\ tshape y = [2; 1; 2]%nat /\ tshape (torch_prelu alpha x2) = [1; 2]%nat.
Proof. exact prelu_store_refuted. Qed.
Print Assumptions C85_store_refuted.
(** A slope computed at run time cannot be tiled to more axes than it has. *)
Theorem C85_runtime_refuted : exists alpha x, tshape alpha = [1%nat] /\ tshape x = [1; 2; 1; 1]%nat /\ aten_prelu false None alpha x = None.
Proof. exact prelu_runtime_refuted. Qed.
Print Assumptions C85_runtime_refuted.

(** C86: masked_fill and where in IEEE binary32.  Finite operands and a tensor of values: the selected number. *)
Theorem C86_tensor_partial : forall x m t y, all_finite t -> all_finite x -> aten_masked_fill x m (FSame t) = Some y ->
  forall idx, valid (tshape y) idx -> fsame (tget y idx) (tget (torch_where m t x (tshape y)) idx).
Proof. exact masked_fill_tensor. Qed.
Print Assumptions C86_tensor_partial.
Theorem C86_constant_partial : forall x m t y, all_finite t -> all_finite x -> aten_masked_fill x m (FCastConst t) = Some y ->
  forall idx, valid (tshape y) idx -> fsame (tget y idx) (tget (torch_where m t x (tshape y)) idx).
Proof. exact masked_fill_const. Qed.
Print Assumptions C86_constant_partial.
(** a scalar, infinities included: these are replaced by the largest finite number *)
Theorem C86_scalar_partial : forall x m c y, is_nan c = false -> all_finite x -> aten_masked_fill x m (FScalar c) = Some y ->
  exists v, stands_for v c /\ forall idx, valid (tshape y) idx ->
  fsame (tget y idx) (tget (torch_where m (mkT [1%nat] (fun _ => v)) x (tshape y)) idx).
Proof. exact masked_fill_scalar. Qed.
Print Assumptions C86_scalar_partial.
Theorem C86_shape : forall x m v s2 s, tshape m <> [] ->
  bshape (tshape (fill_tensor v)) (tshape m) = Some s2 -> bshape (tshape x) (tshape m) = Some s ->
  bshape s s2 = Some s -> exists y, aten_masked_fill x m v = Some y /\ tshape y = s.
Proof. exact masked_fill_shape. Qed.
Print Assumptions C86_shape.
Example C86_ex :
  let x := mkT [2; 2]%nat (fun _ => fone) in let m := mkT [2]%nat (fun idx => Nat.eqb (nth 0 idx 0%nat) 0) in
  all_finite x /\ is_nan (finf true) = false /\ bshape [1%nat] [2%nat] = Some [2%nat] /\ bshape [2; 2]%nat [2%nat] = Some [2; 2]%nat /\
  exists y, aten_masked_fill x m (FScalar (finf true)) = Some y /\ tget y [1; 1]%nat = fone /\ tget y [1; 0]%nat = Bopp fmax.
Proof.
  split; [intros idx _; reflexivity|]. split; [reflexivity|]. split; [reflexivity|]. split; [reflexivity|].
  eexists. split; [reflexivity|]. split; apply B2SF_inj; vm_compute; reflexivity.
Qed.
(** An infinity under the mask, or an infinity in the values outside it, turns into NaN. *)
Theorem C86_infinite_operand_refuted : exists x m c y, tshape x = [1%nat] /\ is_finite c = true /\
  aten_masked_fill x m (FScalar c) = Some y /\ tget (torch_where m (mkT [1%nat] (fun _ => c)) x [1%nat]) [0%nat] = c /\
  tget y [0%nat] = B754_nan.
Proof. exact masked_fill_infinite_operand_refuted. Qed.
Print Assumptions C86_infinite_operand_refuted.
Theorem C86_infinite_value_refuted : exists x m t y, all_finite x /\ tshape x = [1%nat] /\
  aten_masked_fill x m (FSame t) = Some y /\ tget (torch_where m t x [1%nat]) [0%nat] = fone /\ tget y [0%nat] = B754_nan.
Proof. exact masked_fill_infinite_value_refuted. Qed.
Print Assumptions C86_infinite_value_refuted.

(** C87: a scalar turned into a quantized tensor stands for the scalar *)
Theorem C87_scalar : forall k v, let '(s, z, q) := quantize_scalar k v in deq s z q = v.
Proof. exact quantize_scalar_ok. Qed.
Print Assumptions C87_scalar.
Example C87_ex : fst (quantize_scalar QU8 (-2)) = (2 / 127, 255%Z).
Proof.
  unfold quantize_scalar, scalar_qparams. destruct (Reqb_spec (-2) 0); [lra|]. unfold Rgtb, dec2b. destruct (Rlt_dec (-2) 0); [|lra].
  cbn [fst]. f_equal. lra.
Qed.
