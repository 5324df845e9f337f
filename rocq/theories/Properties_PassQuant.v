(** Properties of the passes on QUANTIZE and DEQUANTIZE: C101, C102. *)
From Coq Require Import List Arith ZArith Bool Reals Lia Lra.
From Verif Require Import Tensor ConvSpec QuantSpec PassQuantSpec PassQuantModel PassQuantProofs.
Import ListNotations.
Local Open Scope R_scope.

(** C101.  Moving quantization through an operator keeps the integers that are read behind it. *)

(** A node is edited only if a single QUANTIZE reads it (besides outputs of the graph), with parameters for which there
    is a kernel, and every operand is dequantized or a constant. *)
Theorem C101_selected : forall n l q, passthrough n = Some (Some (l, q)) ->
  filter (fun r => match r with ROutput => false | _ => true end) (n_outs n) = [RQuant q] /\ supported (n_kind n) q /\
  (covered n -> forall o, In o (n_ins n) ->
     (exists p, o_src o = SDeq p) \/ (exists p c, o_src o = SMapped p c) \/ (comparison (n_kind n) /\ exists c, o_src o = SConst c)).
Proof. exact selected. Qed.
Print Assumptions C101_selected.
Example C101_selected_example :
  let a := mkO 0 [2; 3]%nat (SDeq (mkQI S8 (1 / 10) 4)) in
  let b := mkO 1 [3; 2]%nat (SDeq (mkQI S8 (1 / 20) 5)) in
  let q := mkQI S8 1 3 in
  passthrough (mkN KBatchMatmul [a; b] [RQuant q]) = Some (Some ([NQuant (mkQI S8 (1 / 10) 4); NQuant (mkQI S8 (1 / 20) 5)], q)) /\
  passthrough (mkN KBatchMatmul [a; b] [RQuant q; ROther]) = Some None /\
  passthrough (mkN KBatchMatmul [a; a] [RQuant q]) = Some None /\
  passthrough (mkN KBatchMatmul [a; b] [RQuant (mkQI U8 1 3)]) = Some None.
Proof. repeat split. Qed.

(** The integers are those of the float operator, for operators other than the comparisons. *)
Theorem C101_value_partial : forall f n l q xs fs y,
  passthrough n = Some (Some (l, q)) -> ~ comparison (n_kind n) -> covered n -> one_type n (qi_ty q) ->
  respects f -> scaled q -> stored_ins n xs -> float_result f n xs fs = Some y ->
  exists y', new_result f n l q xs fs = Some y' /\ teq (quant_t q y') (quant_t q y).
Proof. exact passthrough_value. Qed.
Print Assumptions C101_value_partial.
Example C101_value_example :
  let n := mkN KAbs [mkO 0 [2%nat] (SDeq (mkQI S8 (1 / 10) 4))] [RQuant (mkQI S8 (1 / 5) 0)] in
  let f := fun l => option_map (tmap Rabs) (hd_error l) in
  passthrough n = Some (Some ([NQuant (mkQI S8 (1 / 10) 4)], mkQI S8 (1 / 5) 0)) /\
  ~ comparison (n_kind n) /\ covered n /\ one_type n S8 /\ respects f /\
  stored_ins n (fun _ => mkT [2%nat] (fun _ => 7%Z)).
Proof.
  cbv zeta. split; [reflexivity |]. split; [intros [H | H]; discriminate |]. split; [exact I |].
  split; [intros o [<- | []]; reflexivity |]. split.
  - intros l m H. destruct H as [| a b l m [H1 H2] _]; [exact I |]. cbn. split; [exact H1 |].
    intros idx Hi. cbn in *. rewrite H2 by exact Hi. reflexivity.
  - intros o [<- | []]. cbn. split; [unfold scaled; cbn; lra |]. intros idx _. unfold in_ity; cbn; lia.
Qed.

(** The same for comparisons whose operands have the parameters of the result. *)
Theorem C101_compare_partial : forall f n l q xs fs y a b,
  passthrough n = Some (Some (l, q)) -> comparison (n_kind n) -> n_ins n = [a; b] ->
  same_params q a -> same_params q b -> (forall c, o_src b = SConst c -> no_tie q c) ->
  scaled q -> stored_ins n xs -> float_result f n xs fs = Some y ->
  exists y', new_result f n l q xs fs = Some y' /\ teq (quant_t q y') (quant_t q y).
Proof. exact compare_exact. Qed.
Print Assumptions C101_compare_partial.
Example C101_compare_example :
  let q := mkQI S8 (1 / 10) 4 in
  let a := mkO 0 [2%nat] (SDeq q) in
  let b := mkO 1 [1%nat] (SConst (mkT [1%nat] (fun _ => 3 / 10))) in
  (exists l, passthrough (mkN KMinimum [a; b] [RQuant q]) = Some (Some (l, q))) /\
  same_params q a /\ same_params q b /\ (forall c, o_src b = SConst c -> no_tie q c).
Proof.
  cbv zeta. split; [eexists; reflexivity |]. split; [reflexivity |]. split; [exact I |].
  intros c Hc. cbn in Hc. injection Hc as <-. intros idx _ k H. cbn in H.
  assert (E : IZR (2 * k + 1) = IZR 6) by (rewrite plus_IZR, mult_IZR; lra). apply eq_IZR in E. lia.
Qed.
(** A constant halfway between two steps may be off by one. *)
Theorem C101_compare_close : forall f n l q xs fs y a b,
  passthrough n = Some (Some (l, q)) -> comparison (n_kind n) -> n_ins n = [a; b] ->
  same_params q a -> same_params q b ->
  scaled q -> stored_ins n xs -> float_result f n xs fs = Some y ->
  exists y', new_result f n l q xs fs = Some y' /\ within 1 (quant_t q y') (quant_t q y).
Proof. exact compare_close. Qed.
Print Assumptions C101_compare_close.
Theorem C101_tie_refuted : exists n l q xs,
  passthrough n = Some (Some (l, q)) /\ n_kind n = KMaximum /\ scaled q /\ stored_ins n xs /\
  (exists a b, n_ins n = [a; b] /\ same_params q a /\ same_params q b) /\
  forall f fs, exists y y', float_result f n xs fs = Some y /\ new_result f n l q xs fs = Some y' /\
    tget (quant_t q y) [0%nat] = 1%Z /\ tget (quant_t q y') [0%nat] = 0%Z.
Proof. exact tie_refuted. Qed.
Print Assumptions C101_tie_refuted.
(** The parameters of the operands of a comparison are not compared, but its kernel compares the stored integers. *)
Theorem C101_scales_refuted : exists n l q xs,
  passthrough n = Some (Some (l, q)) /\ n_kind n = KMaximum /\ scaled q /\ stored_ins n xs /\ one_type n (qi_ty q) /\
  forall f fs, exists y y', float_result f n xs fs = Some y /\ new_result f n l q xs fs = Some y' /\
    tget (quant_t q y) [0%nat] = 8%Z /\ tget (quant_t q y') [0%nat] = 10%Z.
Proof. exact scales_refuted. Qed.
Print Assumptions C101_scales_refuted.
(** A division by a scalar keeps its float divisor and is rejected by TFLite. *)
Theorem C101_scalar_refuted : exists n l q, passthrough n = Some (Some (l, q)) /\ n_kind n = KDiv /\ supported KDiv q /\
  (exists a b c, n_ins n = [a; b] /\ o_src b = SConst c /\ tshape c = [1%nat]) /\
  (forall f xs fs, new_result f n l q xs fs = None).
Proof. exact scalar_div_rejected. Qed.
Print Assumptions C101_scalar_refuted.
(** An output of the graph that reads the node gets the quantized result. *)
Theorem C101_output_refuted : exists n l q xs,
  passthrough n = Some (Some (l, q)) /\ n_kind n = KAbs /\ covered n /\ one_type n (qi_ty q) /\ scaled q /\ stored_ins n xs /\
  In ROutput (n_outs n) /\
  let f := fun l => option_map (tmap Rabs) (hd_error l) in
  forall fs, exists y y', float_result f n xs fs = Some y /\ new_result f n l q xs fs = Some y' /\
    tget y [0%nat] = 3 /\ tget y' [0%nat] = 4.
Proof. exact output_refuted. Qed.
Print Assumptions C101_output_refuted.
(** The pass raises exactly for comparisons with a constant whose other operand is not dequantized. *)
Theorem C101_raises : forall n, two_operands n -> (passthrough n = None <-> stuck n).
Proof. exact passthrough_total. Qed.
Print Assumptions C101_raises.
(** the second half of a clamp in front of a QUANTIZE *)
Example C101_raises_example :
  let n := mkN KMinimum [mkO 0 [2%nat] SOther; mkO 1 [1%nat] (SConst (mkT [1%nat] (fun _ => 3)))] [RQuant (mkQI S8 1 0)] in
  two_operands n /\ stuck n.
Proof.
  cbv zeta. split; [intros _; reflexivity |]. split; [right; reflexivity |].
  do 3 eexists. split; [reflexivity |]. split; [reflexivity |]. intros q H. discriminate.
Qed.

(** C102.  Removing pairs of DEQUANTIZE and QUANTIZE keeps the value of the chain. *)
Theorem C102_pairs_partial : forall p q n pre post v r,
  before_ok p pre -> after_ok q post -> scaled p -> scaled q -> start_ok p pre v ->
  (qi_s p = qi_s q -> qi_z p = qi_z q -> qi_ty p = qi_ty q) ->
  let c := pre ++ (Deq p :: Quant None q :: pairs n q) ++ post in
  chain_value c v = Some r ->
  exists c' r', fuse_dequant_quant false c = Some c' /\ chain_value c' v = Some r' /\ same_value r r' /\
    (length c' <= 3)%nat.
Proof. exact fuse_value. Qed.
Print Assumptions C102_pairs_partial.
Example C102_example :
  let p := mkQI S8 (1 / 10) 4 in
  let q := mkQI S8 (1 / 5) 0 in
  before_ok p [Quant None p] /\ after_ok q [Deq q] /\
  (exists r, chain_value ([Quant None p] ++ (Deq p :: Quant None q :: pairs 2 q) ++ [Deq q]) (VF (mkT [1%nat] (fun _ => 1))) = Some r).
Proof. cbv zeta. split; [right; eexists; reflexivity |]. split; [right; reflexivity |]. eexists. reflexivity. Qed.
(** A coarser step in the middle of a longer chain is lost. *)
Theorem C102_middle_refuted : exists p m v r, scaled p /\ scaled m /\ qi_ty p = qi_ty m /\
  let c := [Deq p; Quant None m; Deq m; Quant None p] in
  (exists t, v = VQ p t /\ stored p t) /\ chain_value c v = Some r /\
  fuse_dequant_quant false c = Some [] /\ ~ same_value r v.
Proof. exact middle_refuted. Qed.
Print Assumptions C102_middle_refuted.
(** The types are not compared. *)
Theorem C102_type_refuted : exists p q v r, scaled p /\ scaled q /\
  (exists t, v = VQ p t /\ stored p t) /\ chain_value [Deq p; Quant None q] v = Some r /\
  fuse_dequant_quant false [Deq p; Quant None q] = Some [] /\ ~ same_value r v.
Proof. exact type_refuted. Qed.
Print Assumptions C102_type_refuted.
(** The second run of the pass removes the rounding of float tensors. *)
Theorem C102_float_refuted : exists p v r, scaled p /\
  chain_value [Quant None p; Deq p] v = Some r /\ fuse_dequant_quant true [Quant None p; Deq p] = Some [] /\ ~ same_value r v.
Proof. exact quant_first_refuted. Qed.
Print Assumptions C102_float_refuted.
(** What the first run makes of a change of parameters in front of a DEQUANTIZE makes the second run raise. *)
Theorem C102_raises : forall p q, qi_s p <> qi_s q \/ qi_z p <> qi_z q ->
  exists c, fuse_dequant_quant false [Deq p; Quant None q; Deq q] = Some c /\ fuse_dequant_quant true c = None.
Proof. exact requant_raises. Qed.
Print Assumptions C102_raises.
Example C102_raises_example : qi_s (mkQI S8 1 0) <> qi_s (mkQI S8 2 0).
Proof. cbn. lra. Qed.
