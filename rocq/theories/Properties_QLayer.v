(** C100: quantized convolutions, linear layers and scalars are lowered to kernels that compute the same, up to the
    rounding of the bias, and where they are not. *)
From Coq Require Import List Arith ZArith Bool Reals Lia Lra.
From Verif Require Import Tensor ConvSpec QuantSpec FuseModel QuantModel QuantProofs QLayerSpec EltSpec AtenEltModel QLayerModel QLayerProofs.
Import ListNotations.
Local Open Scope R_scope.

(** The kernel rounds a number that is at most half a bias step away from what torch rounds. *)
Theorem C100_conv_partial : forall oob fuel qt asym tr own sx zx x pw w bias sy zy e c taps relu,
  all_in U8 x -> all_in S8 w -> 0 < sx -> 0 < sy -> 0 < tscale pw c -> zero_kept qt asym zx -> zero_kept qt asym zy ->
  (forall s z, pw = TPerTensor s z -> / 4294967296 <= sx * s / sy) ->
  tr && own = false ->
  conv_operands oob fuel qt asym tr own (TPerTensor sx zx) x pw w bias (TPerTensor sy zy) = Some e ->
  taps_ok pw x w c taps -> bias_has bias c ->
  Rabs (bias_at bias c) <= fine qt sx * tscale pw c * IZR (bty_hi (bias_type false qt)) ->
  exists v, Rabs (v - torch_dot (TPerTensor sx zx) x pw w taps (bias_at bias c)) <= fine qt sx * tscale pw c / 2 /\
    run_dot relu e c taps =
      clampZ (if relu then Z.max (ity_lo qt) (shifted qt zy) else ity_lo qt) (ity_hi qt) (shifted qt zy + rha (v / fine qt sy)).
Proof. exact conv_close. Qed.
Print Assumptions C100_conv_partial.

(** With 8 bits the stored integer is the one of torch, up to one. *)
Theorem C100_conv_byte_partial : forall oob fuel qt asym tr own sx zx x pw w bias sy zy e c taps,
  all_in U8 x -> all_in S8 w -> 0 < sx -> 0 < sy -> 0 < tscale pw c -> zero_kept qt asym zx -> zero_kept qt asym zy ->
  (forall s z, pw = TPerTensor s z -> / 4294967296 <= sx * s / sy) ->
  tr && own = false -> qt <> S16 -> sx * tscale pw c <= sy ->
  conv_operands oob fuel qt asym tr own (TPerTensor sx zx) x pw w bias (TPerTensor sy zy) = Some e ->
  taps_ok pw x w c taps -> bias_has bias c ->
  Rabs (bias_at bias c) <= sx * tscale pw c * IZR (2 ^ 31 - 1) ->
  (Z.abs (run_dot false e c taps + off qt -
     torch_quant 0 255 sy zy (torch_dot (TPerTensor sx zx) x pw w taps (bias_at bias c))) <= 1)%Z.
Proof. exact conv_byte. Qed.
Print Assumptions C100_conv_byte_partial.

Theorem C100_linear_byte_partial : forall oob fuel qt asym sx zx x sw zw w bias sy zy e c taps,
  all_in U8 x -> all_in S8 w -> 0 < sx -> 0 < sy -> 0 < sw -> zero_kept qt asym zx -> zero_kept qt asym zy ->
  / 4294967296 <= sx * sw / sy -> qt <> S16 -> sx * sw <= sy ->
  linear_operands oob fuel qt asym (TPerTensor sx zx) x (TPerTensor sw zw) w bias (TPerTensor sy zy) = Some e ->
  (forall t, In t taps -> valid (tshape x) (fst t) /\ valid (tshape w) (snd t)) ->
  (c < match bias with Some b => length b | None => nth 0 (tshape w) 0 end)%nat ->
  Rabs (bias_at bias c) <= sx * sw * IZR (2 ^ 31 - 1) ->
  (Z.abs (run_dot false e c taps + off qt -
     torch_quant 0 255 sy zy (torch_dot (TPerTensor sx zx) x (TPerTensor sw zw) w taps (bias_at bias c))) <= 1)%Z.
Proof. exact linear_byte. Qed.
Print Assumptions C100_linear_byte_partial.
(** Linear layers with one scale per channel raise. *)
Theorem C100_linear_per_channel : forall oob fuel qt asym px x s z ax w bias py,
  linear_operands oob fuel qt asym px x (TPerChannel s z ax) w bias py = None.
Proof. exact linear_raises. Qed.
Print Assumptions C100_linear_per_channel.

(** Multiplying the weight scale by ten ends; it happens only below 2^-32, and then weighted sums of ordinary size stay
    below half a step of the output. *)
Theorem C100_rescale : forall sx sw sy, 0 < sx -> 0 < sw -> 0 < sy -> exists fuel k,
  (forall m, rescale (fuel + m) sx sw sy = Some (10 ^ k * sw)) /\
  / 4294967296 <= sx * (10 ^ k * sw) / sy /\
  (k = 0%nat <-> / 4294967296 <= sx * sw / sy) /\
  (k <> 0%nat -> forall acc, (Z.abs acc <= 214748364)%Z -> Rabs (sx * (10 ^ k * sw) / sy * IZR acc) < 1 / 2).
Proof. exact rescale_ok. Qed.
Print Assumptions C100_rescale.
(** Larger sums become visible: 3 where torch gives 0. *)
Theorem C100_rescale_refuted : exists fuel sx x sw w sy e taps,
  0 < sx /\ 0 < sw /\ 0 < sy /\ all_in U8 x /\ all_in S8 w /\
  linear_operands x86 fuel U8 true (TPerTensor sx 0) x (TPerTensor sw 0) w None (TPerTensor sy 0) = Some e /\
  (forall t, In t taps -> valid (tshape x) (fst t) /\ valid (tshape w) (snd t)) /\
  run_dot false e 0 taps = 3%Z /\
  torch_quant 0 255 sy 0 (torch_dot (TPerTensor sx 0) x (TPerTensor sw 0) w taps 0) = 0%Z.
Proof. exact rescale_refuted. Qed.
Print Assumptions C100_rescale_refuted.
(** A bias beyond 32 bits changes its sign: the bound is rounded up in binary32, and the conversion is out of range. *)
Theorem C100_overflow_refuted : exists fuel sx x sw w sy b e taps,
  0 < sx /\ 0 < sw /\ 0 < sy /\ sx * sw <= sy /\ / 4294967296 <= sx * sw / sy /\ all_in U8 x /\ all_in S8 w /\
  linear_operands x86 fuel U8 true (TPerTensor sx 0) x (TPerTensor sw 0) w (Some [b]) (TPerTensor sy 100) = Some e /\
  (forall t, In t taps -> valid (tshape x) (fst t) /\ valid (tshape w) (snd t)) /\
  run_dot false e 0 taps = 92%Z /\
  torch_quant 0 255 sy 100 (torch_dot (TPerTensor sx 0) x (TPerTensor sw 0) w taps b) = 227%Z.
Proof. exact overflow_refuted. Qed.
Print Assumptions C100_overflow_refuted.
(** The bias of a transposed convolution that is added by a separate operator is cut to the 8 bits of the layer. *)
Theorem C100_deconv_bias_refuted : exists fuel sx x sw w sy b e taps,
  0 < sx /\ 0 < sw /\ 0 < sy /\ sx * sw <= sy /\ / 4294967296 <= sx * sw / sy /\ all_in U8 x /\ all_in S8 w /\
  Rabs b <= sx * sw * IZR (2 ^ 31 - 1) /\
  conv_operands x86 fuel U8 true true true (TPerTensor sx 0) x (TPerTensor sw 0) w (Some [b]) (TPerTensor sy 100) = Some e /\
  taps_ok (TPerTensor sw 0) x w 0 taps /\
  run_dot_add e 0 taps = 100%Z /\
  torch_quant 0 255 sy 100 (torch_dot (TPerTensor sx 0) x (TPerTensor sw 0) w taps b) = 90%Z.
Proof. exact deconv_bias_refuted. Qed.
Print Assumptions C100_deconv_bias_refuted.

(** Multiplying by a scalar gives the parameters and the integer of torch, except by -1. *)
Theorem C100_mul_scalar_partial : forall qt s z v q so zo qo,
  qt <> S16 -> 0 < s -> (0 <= z <= 255)%Z -> (0 <= q <= 255)%Z -> v <> -1 ->
  torch_mul_scalar s z v q = (so, zo, qo) ->
  mul_scalar torch_mul_scalar qt s z v q = (so, (zo - off qt)%Z, (qo - off qt)%Z).
Proof. exact mul_scalar_ok. Qed.
Print Assumptions C100_mul_scalar_partial.
(** By -1 the parameters of the operand are kept, and what they cannot represent is cut. *)
Theorem C100_mul_minus_one : forall qt s z q,
  qt <> S16 -> 0 < s -> (0 <= z <= 255)%Z -> (0 <= q <= 255)%Z ->
  mul_scalar torch_mul_scalar qt s z (-1) q = (s, (z - off qt)%Z, (clampZ 0 255 (2 * z - q) - off qt)%Z).
Proof. exact mul_minus_one. Qed.
Print Assumptions C100_mul_minus_one.
Theorem C100_mul_minus_one_refuted : exists qt s z q so zo qo,
  qt <> S16 /\ 0 < s /\ (0 <= z <= 255)%Z /\ (0 <= q <= 255)%Z /\
  mul_scalar torch_mul_scalar qt s z (-1) q = (so, zo, qo) /\
  deq so zo qo = 0 /\ let '(so', zo', qo') := torch_mul_scalar s z (-1) q in deq so' zo' qo' = -10.
Proof. exact mul_minus_one_refuted. Qed.
Print Assumptions C100_mul_minus_one_refuted.
(** Adding a scalar gives the parameters of torch and its integer up to one; the same integer if the zero point moves
    inside the range and the scalar is no odd multiple of half a step. *)
Theorem C100_add_scalar : forall qt s z v q,
  qt <> S16 -> 0 < s -> (0 <= z <= 255)%Z -> (0 <= q <= 255)%Z ->
  let '(so, zo, qo) := torch_add_scalar s z v q in
  exists q', add_scalar torch_add_scalar qt s z v q = (so, (zo - off qt)%Z, q') /\ (Z.abs (q' + off qt - qo) <= 1)%Z /\
    (zo <> 0%Z /\ zo <> 255%Z -> Rabs (v / s - IZR (rne (v / s))) < 1 / 2 -> q' = (qo - off qt)%Z).
Proof. exact add_scalar_close. Qed.
Print Assumptions C100_add_scalar.

(** a layer with two channels of different scales and a bias, stored with 8 signed bits: the operands exist and the
    second channel gives the integer of torch *)
Definition ex_x : tensor Z := mkT [2%nat] (fun i => match i with [0%nat] => 130 | _ => 140 end%Z).
Definition ex_w : tensor Z := mkT [2%nat; 2%nat] (fun i => match i with [c; k] => Z.of_nat (10 * c + k) + 1 | _ => 0 end%Z).
Example C100_case : exists e,
  conv_operands x86 1 S8 true false false (TPerTensor (1 / 2) 128) ex_x (TPerChannel [1 / 10; 1 / 100] [0%Z; 0%Z] 0) ex_w
    (Some [1; 2]) (TPerTensor 1 100) = Some e /\
  all_in U8 ex_x /\ all_in S8 ex_w /\ zero_kept S8 true 128 /\
  taps_ok (TPerChannel [1 / 10; 1 / 100] [0%Z; 0%Z] 0) ex_x ex_w 1 [([0%nat], [1%nat; 0%nat]); ([1%nat], [1%nat; 1%nat])] /\
  bias_has (Some [1; 2]) 1 /\
  torch_dot (TPerTensor (1 / 2) 128) ex_x (TPerChannel [1 / 10; 1 / 100] [0%Z; 0%Z] 0) ex_w
    [([0%nat], [1%nat; 0%nat]); ([1%nat], [1%nat; 1%nat])] 2 = 283 / 100.
Proof.
  eexists. split; [|split; [|split; [|split; [|split; [|split]]]]].
  - unfold conv_operands. cbn [store ity_eqb forallb Z.eqb andb obind map map2o option_map]. reflexivity.
  - intros i V. unfold in_ity. cbn [ex_x tget ity_lo ity_hi]. destruct i as [|[|n] [|? ?]]; lia.
  - intros i V. cbn [ex_w tshape] in V. inversion V as [|a n i' sh L1 V1]; subst. inversion V1 as [|b m i'' sh' L2 V2]; subst.
    inversion V2; subst. unfold in_ity. cbn [ex_w tget ity_lo ity_hi]. lia.
  - now left.
  - intros t [<- |[<- |[]]]; (split; [|split; [|reflexivity]]); cbn [fst snd tshape ex_x ex_w]; repeat (constructor; [lia|]); constructor.
  - cbn. lia.
  - unfold torch_dot. cbn [map rsum fold_right fst snd treal tget ex_x ex_w tshape length py_axis nth]. unfold py_axis.
    replace (Z.to_nat (if (0 <? 0)%Z then 0 + Z.of_nat 2 else 0)%Z) with 0%nat by reflexivity. cbn [nth].
    repeat match goal with |- context [IZR ?z] => let v := eval vm_compute in z in progress change (IZR z) with (IZR v) end. lra.
Qed.
Example C100_mul_case : mul_scalar torch_mul_scalar S8 (1 / 2) 100 (-3) 90 = (3 / 2, 27%Z, 37%Z).
Proof.
  rewrite (C100_mul_scalar_partial S8 (1 / 2) 100 (-3) 90 (3 / 2) 155 165); [reflexivity|discriminate|lra|lia|lia|lra|].
  unfold torch_mul_scalar. destruct (Rlt_dec 0 (-3)); [lra|]. destruct (Rlt_dec (-3) 0); [|lra].
  replace (- -3 * (1 / 2)) with (3 / 2) by lra. reflexivity.
Qed.
