(** Property theorems: quantized storage, boundary types, hybrid weights, fake quantization,
    calibration, 16-bit LSTM parameters (C21-C24, C47, C48, C61). *)
From Coq Require Import List Arith ZArith Bool Reals Lia Lra.
From Verif Require Import Tensor ConvSpec QuantSpec FuseModel QuantModel QuantProofs QuantMiscProofs.
Import ListNotations.
Local Open Scope R_scope.

(** ** C21: true of signed tensors, of asymmetric storing, and of unsigned targets. *)
Theorem C21_store_8bit_partial : forall src asym qt p t d p' t',
  all_in (src_ty src) t -> store src asym qt p t = Some (d, p', t') -> qt <> S16 ->
  (src = QInt8 \/ asym = true \/ qt = U8 \/ exists s, p = TPerTensor s 128) ->
  teq (qreal p' t') (treal p t) /\ all_in d t' /\ d = qt.
Proof. exact store_value. Qed.
Print Assumptions C21_store_8bit_partial.
(** when the conversion is refused *)
Theorem C21_store_raises : forall src asym qt p t,
  store src asym qt p t = None <->
  (exists s z ax, p = TPerChannel s z ax /\ (src = QUInt8 \/ qt = U8 \/ exists v, In v z /\ v <> 0%Z)) \/
  (exists s z, p = TPerTensor s z /\ src = QInt8 /\ qt = U8 /\ asym = true /\ z <> 0%Z).
Proof. exact store_defined. Qed.
Print Assumptions C21_store_raises.
Example C21_store_case :
  let t := mkT [3%nat] (fun idx => nth (nth 0 idx 0%nat) [0; 7; 255]%Z 0%Z) in
  all_in (src_ty QUInt8) t /\
  match store QUInt8 true S8 (TPerTensor (1 / 2) 10) t with
  | Some (d, PerTensor _ z, t') => d = S8 /\ z = (-118)%Z /\ map (fun i => tget t' [i]) [0; 1; 2]%nat = [-128; -121; 127]%Z
  | _ => False
  end.
Proof.
  cbv zeta. split.
  - intros idx V. inversion V as [|i d idx' s' Hi Hr]; subst. inversion Hr; subst. cbn.
    destruct i as [|[|[|i]]]; cbn; unfold in_ity; cbn; lia.
  - vm_compute. auto.
Qed.
(** symmetric storing of an unsigned tensor replaces the zero point by 128 *)
Theorem C21_symmetric_refuted : exists src asym p t d p' t',
  all_in (src_ty src) t /\ store src asym S8 p t = Some (d, p', t') /\ ~ teq (qreal p' t') (treal p t).
Proof. exact store_symmetric_refuted. Qed.
Print Assumptions C21_symmetric_refuted.

(** ** C22: holds exactly for the zero point 128. *)
Theorem C22_widen_iff_partial : forall asym s z t d p' t',
  all_in U8 t -> s <> 0 -> (exists idx, valid (tshape t) idx) ->
  store QUInt8 asym S16 (TPerTensor s z) t = Some (d, p', t') ->
  teq (qreal p' t') (treal (TPerTensor s z) t) <-> z = 128%Z.
Proof. exact store_s16_iff. Qed.
Print Assumptions C22_widen_iff_partial.
(** the exact result, always in the 16-bit range *)
Theorem C22_widen_value : forall asym s z t d p' t',
  all_in U8 t -> store QUInt8 asym S16 (TPerTensor s z) t = Some (d, p', t') ->
  d = S16 /\ all_in S16 t' /\ tshape t' = tshape t /\
  forall idx, valid (tshape t) idx ->
    tget (qreal p' t') idx =
    tget (treal (TPerTensor s z) t) idx +
    (if asym then s * IZR (z - 128) * (255 / 256) else s * IZR (z - 128)).
Proof. exact store_s16_value. Qed.
Print Assumptions C22_widen_value.
(** signed tensors stay 8 bit *)
Theorem C22_signed_partial : forall asym p t d p' t',
  all_in S8 t -> store QInt8 asym S16 p t = Some (d, p', t') ->
  d = S8 /\ teq (qreal p' t') (treal p t) /\ t' = t.
Proof. exact store_s16_signed. Qed.
Print Assumptions C22_signed_partial.
Example C22_widen_case :
  let t := mkT [2%nat] (fun idx => nth (nth 0 idx 0%nat) [3; 255]%Z 0%Z) in
  all_in U8 t /\ (exists idx, valid (tshape t) idx) /\
  exists d p' t', store QUInt8 false S16 (TPerTensor (1 / 4) 128) t = Some (d, p', t') /\
    d = S16 /\ tget t' [0%nat] = (-32000)%Z /\ tget t' [1%nat] = 32512%Z.
Proof.
  cbv zeta. split; [|split].
  - intros idx V. inversion V as [|i d idx' s' Hi Hr]; subst. inversion Hr; subst. cbn.
    destruct i as [|[|i]]; cbn; unfold in_ity; cbn; lia.
  - exists [1%nat]. repeat constructor.
  - do 3 eexists. split; [reflexivity|]. split; [reflexivity|].
    split; cbn [tget tmap]; change (wrap S8 _) with (-125)%Z || idtac.
    + change (wrap S8 (nth (nth 0 [0%nat] 0%nat) [3; 255]%Z 0%Z - 128)) with (-125)%Z.
      rewrite s16_elem by (unfold in_ity; cbn; lia). reflexivity.
    + change (wrap S8 (nth (nth 0 [1%nat] 0%nat) [3; 255]%Z 0%Z - 128)) with 127%Z.
      rewrite s16_elem by (unfold in_ity; cbn; lia). reflexivity.
Qed.
Theorem C22_widen_refuted : exists p t d p' t',
  all_in U8 t /\ store QUInt8 false S16 p t = Some (d, p', t') /\ ~ teq (qreal p' t') (treal p t).
Proof. exact store_s16_refuted. Qed.
Print Assumptions C22_widen_refuted.

(** ** C23 *)
Theorem C23_hybrid_weight : forall w axis d p t, hybrid_weight S8 w axis = Some (d, p, t) ->
  d = S8 /\ tshape t = tshape w /\
  (forall idx, valid (tshape w) idx ->
     elem_ok (qscale p idx) (tget w idx) (tget t idx) /\ qzero p idx = 0%Z /\
     (qscale p idx = f32_eps \/
      exists jdx, valid (tshape w) jdx /\ Rabs (tget w jdx) = 127 * qscale p idx /\
        match axis with
        | None => True
        | Some ax => let a := py_axis (length (tshape w)) ax in nth a jdx 0%nat = nth a idx 0%nat
        end)) /\
  match axis, p with
  | None, PerTensor _ _ => True
  | Some ax, PerChannel ss _ a => a = py_axis (length (tshape w)) ax /\ length ss = nth a (tshape w) 0%nat
  | _, _ => False
  end.
Proof. exact hybrid_weight_ok. Qed.
Print Assumptions C23_hybrid_weight.
Theorem C23_defined : forall w axis, Forall (lt 0%nat) (tshape w) ->
  match axis with None => True | Some ax => (- Z.of_nat (length (tshape w)) <= ax < Z.of_nat (length (tshape w)))%Z end ->
  exists r, hybrid_weight S8 w axis = Some r.
Proof. exact hybrid_weight_defined. Qed.
Print Assumptions C23_defined.
(** the unsigned form stores the same bytes *)
Theorem C23_unsigned : forall w d p t, hybrid_weight_u8 w = Some (d, p, t) ->
  exists t8, hybrid_weight S8 w None = Some (S8, p, t8) /\ d = U8 /\ all_in U8 t /\
             forall idx, valid (tshape w) idx -> wrap S8 (tget t idx) = tget t8 idx.
Proof. exact hybrid_weight_u8_ok. Qed.
Print Assumptions C23_unsigned.
(** a 2x3 weight, per channel along the last axis given as -1, and per tensor *)
Example C23_case : forall w : tensor R, tshape w = [2; 3]%nat ->
  (exists r, hybrid_weight S8 w (Some (-1)%Z) = Some r) /\ (exists r, hybrid_weight S8 w None = Some r).
Proof.
  intros w E. split; apply hybrid_weight_defined; rewrite ?E; try exact I; try (cbn; lia);
    repeat constructor.
Qed.

(** ** C24 *)
Theorem C24_inputs : forall target fuse i ins rs,
  Forall bt_ok ins -> override_inputs target fuse i ins = Some rs ->
  length rs = length ins /\
  forall j, (j < length ins)%nat ->
    let b := nth j ins (mkBT None None (mkT [] (fun _ => 0%Z))) in
    let r := nth j rs (mkBT None None (mkT [] (fun _ => 0%Z)), None) in
    if selected fuse (i + j) then overridden target b r else r = (b, None).
Proof. exact override_inputs_ok. Qed.
Print Assumptions C24_inputs.
Theorem C24_outputs_partial : forall target fuse tm outs rs,
  (forall n, bt_ok (tm n)) -> NoDup outs -> override_outputs target fuse tm outs = Some rs ->
  length rs = length outs /\
  forall j, (j < length outs)%nat ->
    let b := tm (nth j outs 0%nat) in
    let r := nth j rs (mkBT None None (mkT [] (fun _ => 0%Z)), None) in
    if selected fuse j then overridden target b r else r = (b, None).
Proof. exact override_outputs_ok. Qed.
Print Assumptions C24_outputs_partial.
(** two signed inputs, the second one overridden; the same two as outputs *)
Example C24_case :
  let b z v := mkBT (Some S8) (Some (PerTensor (1 / 2) z)) (mkT [1%nat] (fun _ => v)) in
  let ins := [b 3%Z (-128)%Z; b (-7)%Z 127%Z] in
  Forall bt_ok ins /\
  match override_inputs U8 (Some [1%nat]) 0 ins, override_outputs U8 (Some [1%nat]) (fun n => nth n ins (b 0%Z 0%Z)) [0; 1]%nat with
  | Some [(i0, None); (i1, Some _)], Some [(o0, None); (o1, Some _)] =>
      bt_ty i0 = Some S8 /\ bt_ty i1 = Some U8 /\ tget (bt_val i1) [0%nat] = 255%Z /\ bt_ty o1 = Some U8 /\
      match bt_par i1 with Some (PerTensor _ z) => z = 121%Z | _ => False end
  | _, _ => False
  end.
Proof.
  cbv zeta. split.
  - apply Forall_cons; [|apply Forall_cons; [|apply Forall_nil]];
      intros d H idx V; injection H as <-; unfold in_ity; cbn; lia.
  - vm_compute. auto.
Qed.
(** an output listed twice changes at both positions though only one is selected *)
Theorem C24_repeated_output_refuted : exists tm outs rs,
  (forall n, bt_ok (tm n)) /\ override_outputs U8 (Some [0%nat]) tm outs = Some rs /\
  selected (Some [0%nat]) 1 = false /\ snd (nth 1 rs (tm 0%nat, None)) <> None.
Proof. exact override_outputs_dup_refuted. Qed.
Print Assumptions C24_repeated_output_refuted.

(** ** C47: per-tensor modules; false per channel. *)
Theorem C47_tflite_rounding_partial : forall qparams qlo qhi m X,
  tshape X <> [] -> fq_on m = true ->
  let m1 := if fq_obs m then let seen := fq_seen m ++ [X] in
              mkFQ (fq_obs m) (fq_on m) (fst (qparams seen)) (snd (qparams seen)) seen else m in
  tshape (fq_scale m1) = [1%nat] -> 0 < tget (fq_scale m1) [0%nat] ->
  exists Y, tflite_forward qparams None qlo qhi m X = Some (m1, Y) /\ tshape Y = tshape X /\
    forall idx, valid (tshape X) idx ->
      let s := tget (fq_scale m1) [0%nat] in
      let z := nth 0 (fq_zero m1) 0%Z in
      let x := tget X idx in
      (~ below_tie (x / s) -> tget Y idx = s * IZR (tflite_quant qlo qhi s z x - z)) /\
      (far_from_ties (x / s) -> tget Y idx = torch_fake_quant qlo qhi s z x).
Proof. exact tflite_forward_ok. Qed.
Print Assumptions C47_tflite_rounding_partial.
(** exact ties satisfy the hypothesis of the first part *)
Theorem C47_ties_partial : forall u, is_tie u -> ~ below_tie u.
Proof. exact tie_not_below. Qed.
Print Assumptions C47_ties_partial.
(** at the tie 2.5 the runtime gives 3, torch 2, the nudged value 3 *)
Example C47_case :
  (let m := mkFQ true true (mkT [1%nat] (fun _ => 1)) [0%Z] [] in
   let X := mkT [2%nat] (fun _ => 5 / 2) in
   tshape X <> [] /\ fq_on m = true /\ tshape (fq_scale m) = [1%nat] /\ 0 < tget (fq_scale m) [0%nat]) /\
  is_tie (5 / 2) /\ rha (5 / 2) = 3%Z /\ rne (5 / 2) = 2%Z /\ rne (5 / 2 + 1 / 1000000 * rsign (5 / 2)) = 3%Z.
Proof. split; [cbn; repeat split; auto; [discriminate|lra]|exact tie_example]. Qed.
Theorem C47_disabled_partial : forall qparams ax qlo qhi m X, fq_on m = false ->
  exists m', tflite_forward qparams ax qlo qhi m X = Some (m', X) /\ fq_obs m' = fq_obs m /\ fq_on m' = false /\
             fq_seen m' = if fq_obs m then fq_seen m ++ [X] else fq_seen m.
Proof. exact tflite_forward_off. Qed.
Print Assumptions C47_disabled_partial.
Theorem C47_per_channel_refuted :
  (exists m X, fq_on m = true /\ tshape (fq_scale m) = [nth 0 (tshape X) 0%nat] /\ length (fq_zero m) = nth 0 (tshape X) 0%nat /\
     tflite_forward (fun _ => (fq_scale m, fq_zero m)) (Some 0%nat) (-127) 127 m X = None) /\
  (exists m X m' Y, fq_on m = true /\ tshape (fq_scale m) = [nth 0 (tshape X) 0%nat] /\ length (fq_zero m) = nth 0 (tshape X) 0%nat /\
     tflite_forward (fun _ => (fq_scale m, fq_zero m)) (Some 0%nat) (-127) 127 m X = Some (m', Y) /\ tshape Y <> tshape X).
Proof. exact per_channel_refuted. Qed.
Print Assumptions C47_per_channel_refuted.

(** ** C48 *)
Theorem C48_range_partial : forall mn mx bins kl1 kl2, (first_bins <= bins)%nat -> mn <= mx ->
  exists a b, kl_range mn mx bins kl1 kl2 = Some (a, b) /\
    mn <= a /\ b <= mx /\ a + 128 * ((mx - mn) / INR bins) <= b.
Proof. exact kl_range_ok. Qed.
Print Assumptions C48_range_partial.
(** each search returns a threshold with a least finite divergence other than 1, if there is one *)
Theorem C48_search : forall size kl m t, compute_threshold size kl m = Some t ->
  (target_bins <= t <= Nat.max target_bins m)%nat /\
  (forall i, (target_bins <= i <= m)%nat -> fne1 (kl i) = true -> (flt (kl i) (FInf false) = true) ->
     flt (kl i) (kl t) = false /\ flt (kl t) (FInf false) = true /\ fne1 (kl t) = true).
Proof. exact compute_threshold_ok. Qed.
Print Assumptions C48_search.
(** 2048 bins over [-1, 1], all divergences undefined: the default 128 bins are taken twice *)
Example C48_case :
  (first_bins <= first_bins)%nat /\ -1 <= 1 /\
  compute_threshold first_bins (fun _ => FNan) first_bins = Some target_bins.
Proof. split; [lia|]. split; [lra|]. vm_compute. reflexivity. Qed.
(** fewer than 2048 bins *)
Theorem C48_few_bins_refuted : forall mn mx bins kl1 kl2, (bins < first_bins)%nat -> kl_range mn mx bins kl1 kl2 = None.
Proof. exact kl_range_raises. Qed.
Print Assumptions C48_few_bins_refuted.

(** ** C61 *)
Theorem C61_lstm_bias : forall ws xs b, 0 < ws -> 0 < xs ->
  fst (lstm_bias ws xs b) = ws * xs /\ length (snd (lstm_bias ws xs b)) = length b /\
  forall i, (i < length b)%nat ->
    Rabs (nth i b 0 - ws * xs * IZR (nth i (snd (lstm_bias ws xs b)) 0%Z)) <= ws * xs / 2.
Proof. exact lstm_bias_ok. Qed.
Print Assumptions C61_lstm_bias.
Theorem C61_cell_scale : forall s z, 0 < s ->
  exists k : Z, (0 <= k)%Z /\ cell_scale s z = powerRZ 2 k / 32768 /\
    (forall q, (-128 <= q <= 127)%Z -> Rabs (s * IZR (q - z)) <= 32768 * cell_scale s z) /\
    (k = 0%Z \/ exists q, (-128 <= q <= 127)%Z /\ 32768 * (powerRZ 2 (k - 1) / 32768) < Rabs (s * IZR (q - z))).
Proof. exact cell_scale_ok. Qed.
Print Assumptions C61_cell_scale.
(** scale 1, zero point 0: the cell state reaches 128 and needs the scale 128 / 32768 *)
Example C61_case : cell_abs_max 1 0 = 128 /\ ceil_log2 128 = 7%Z /\ cell_scale 1 0 = 128 / 32768.
Proof.
  assert (E : cell_abs_max 1 0 = 128).
  { unfold cell_abs_max. cbn [Z.sub Z.add Z.opp]. rewrite !Rmult_1_l.
    rewrite (Rabs_right 127) by lra. rewrite (Rabs_left (-128)) by lra. rewrite Rmax_right by lra. lra. }
  assert (L : ceil_log2 128 = 7%Z).
  { destruct (ceil_log2_ok 128 ltac:(lra)) as [H1 H2].
    set (k := ceil_log2 128) in *. clearbody k.
    destruct (Z.lt_trichotomy k 7) as [H|[H|H]]; [|exact H|]; exfalso.
    - assert (powerRZ 2 k <= powerRZ 2 6).
      { destruct (Z.eq_dec k 6) as [->|N]; [lra|]. left. rewrite !powerRZ_Rpower by lra. apply Rpower_lt; [lra|].
        apply IZR_lt. lia. }
      assert (powerRZ 2 6 = 64) by (change (powerRZ 2 6) with (2 ^ 6); ring). lra.
    - assert (powerRZ 2 7 <= powerRZ 2 (k - 1)).
      { destruct (Z.eq_dec k 8) as [->|N]; [apply Rle_refl|]. left. rewrite !powerRZ_Rpower by lra. apply Rpower_lt; [lra|].
        apply IZR_lt. lia. }
      assert (powerRZ 2 7 = 128) by (change (powerRZ 2 7) with (2 ^ 7); ring). lra. }
  split; [exact E|]. split; [exact L|]. unfold cell_scale. rewrite E, L. change (Z.max 7 0) with 7%Z. change (powerRZ 2 7) with (2 ^ 7). field.
Qed.
