(** C133, C134: quantization parameters set by hand. *)
From Coq Require Import List Arith ZArith Bool Reals Lia Lra.
From Verif Require Import QStatsModel QStatsSpec QStatsProofs.
Import ListNotations.
Local Open Scope R_scope.

(** With statistics for every input, every stub behind it has the given scale and zero point, in training and after conversion. *)
Theorem C133_inputs_partial :
  forall eps stats stubs, length stats = length stubs ->
  Forall2 (fun st ms => exists mean std, st = Some (mean, std) /\ Forall can_set ms /\ Forall (stats_fit eps mean std) ms) stats stubs ->
  exists res, prepare_inputs stats stubs = Some res /\
    Forall2 (fun st ms => exists mean std, st = Some (mean, std) /\ Forall (has_stats eps mean std) ms) stats res /\
    map (@length acp) res = map (@length acp) stubs.
Proof. exact (fun eps stats stubs => inputs_lemma eps stats stubs). Qed.
Print Assumptions C133_inputs_partial.
Example C133_inputs_partial_example :
  Forall2 (fun st ms => exists mean std, st = Some (mean, std) /\ Forall can_set ms /\ Forall (stats_fit (1 / 1000) mean std) ms)
    [Some (0%Z, 255); Some (127%Z, 128)] [[stub; mkA AFake None true true 1 0 0 0 true]; [mkA AFake None true true 1 0 0 0 true]].
Proof.
  assert (F : can_set (mkA AFake None true true 1 0 0 0 true)) by (split; [right; split; reflexivity|cbn; lia]).
  repeat apply Forall2_cons; try apply Forall2_nil.
  - exists 0%Z, 255. split; [reflexivity|]. split; repeat apply Forall_cons; try apply Forall_nil; try exact F; try exact stub_can; repeat split; cbn; try lia; lra.
  - exists 127%Z, 128. split; [reflexivity|]. split; repeat apply Forall_cons; try apply Forall_nil; try exact F; repeat split; cbn; try lia; lra.
Qed.

(** the same for one module *)
Theorem C133_module_partial :
  forall eps m mean std, can_set m -> stats_fit eps mean std m -> has_stats eps mean std (set_module m mean std).
Proof. exact set_module_lemma. Qed.
Print Assumptions C133_module_partial.
Example C133_module_partial_example : can_set stub /\ stats_fit (1 / 1000) 255 16 stub.
Proof. split; [exact stub_can|]. repeat split; cbn; try lia; lra. Qed.

(** an input without statistics raises, although it is allowed by the check *)
Theorem C133_none_refuted : exists stats stubs, length stats = length stubs /\ Forall (Forall can_set) stubs /\
  (forall mean std, In (Some (mean, std)) stats -> Forall (Forall (stats_fit 0 mean std)) stubs) /\ prepare_inputs stats stubs = None.
Proof. exact none_lemma. Qed.
Print Assumptions C133_none_refuted.

(** with a symmetric scheme the parameters after conversion are others *)
Theorem C133_symmetric_refuted : exists m mean std, can_set m /\ stats_fit 0 mean std m /\
  qparams_symmetric 0 (fst (torch_codes m)) (snd (torch_codes m)) 128 (ac_lo (set_module m mean std)) (ac_hi (set_module m mean std)) = (2 / 255, 128%Z) /\
  (2 / 255, 128%Z) <> (1 / std, mean).
Proof. exact symmetric_lemma. Qed.
Print Assumptions C133_symmetric_refuted.

(** the statistics kept for log_softmax, (255, 16), do not fit the reduced range *)
Theorem C133_reduced_refuted : exists m, can_set m /\ (torch_codes m = (0, 127))%Z /\
  let m' := set_module m 255 16 in
  qparams_affine 0 0 127 (ac_lo m') (ac_hi m') = (255 / 127 / 16, 127%Z) /\ (255 / 127 / 16, 127%Z) <> (1 / 16, 255%Z).
Proof. exact outside_lemma. Qed.
Print Assumptions C133_reduced_refuted.

(** Rescaling to a range from zero keeps the represented numbers if the zero point is zero or the middle. *)
Theorem C134_range_partial :
  forall qmax before after f st, Forall (fun m => ~ touches f m) (before ++ after) -> q_obs (st f) = true ->
  q_min (st f) = 0%Z -> (0 < q_max (st f))%Z -> (0 < qmax)%Z ->
  (q_zero (st f) = 0%Z \/ ((2 * q_zero (st f) = q_max (st f) + 1)%Z /\ Z.even (qmax + 1) = true)) ->
  let p := rescale 0 qmax (before ++ RFq f false :: after) st f in
  lowest p = lowest (st f) /\ beyond p = beyond (st f) /\ q_min p = 0%Z /\ q_max p = qmax.
Proof. exact range_lemma. Qed.
Print Assumptions C134_range_partial.
Example C134_range_partial_example :
  Forall (fun m => ~ touches 1 m) ([RSig 0; RFq 0 false; RFq 1 true] ++ [RFq 2 false]) /\
  let st := q_one (mkFP (1 / 16) 128 0 255 true) in
  q_obs (st 1%nat) = true /\ q_min (st 1%nat) = 0%Z /\ (0 < q_max (st 1%nat))%Z /\ (2 * q_zero (st 1%nat) = q_max (st 1%nat) + 1)%Z /\
  Z.even (65535 + 1) = true /\ lowest (st 1%nat) = - 8.
Proof.
  split; [repeat apply Forall_cons; try apply Forall_nil; cbn; intuition congruence|]. cbv zeta. repeat split; unfold lowest; cbn; lra.
Qed.

(** Fake quantizations of weights are left alone. *)
Theorem C134_weights :
  forall qmin qmax ms f st, (forall w, In (RFq f w) ms -> w = true) -> ~ In (RSig f) ms -> rescale qmin qmax ms st f = st f.
Proof. exact weights_lemma. Qed.
Print Assumptions C134_weights.
Example C134_weights_example : let ms := [RSig 0; RFq 0 false; RFq 1 true] in (forall w, In (RFq 1 w) ms -> w = true) /\ ~ In (RSig 1) ms /\ In (RFq 1 true) ms.
Proof. cbn. repeat split; intuition congruence. Qed.

(** A sigmoid with the scale 1/256 and the zero point 0 gets the parameters that TFLite wants for 16 bits. *)
Theorem C134_sigmoid_partial :
  forall before between after f st, Forall (fun m => ~ touches f m) (before ++ between ++ after) -> q_obs (st f) = true ->
  q_scale (st f) = 1 / 256 -> q_zero (st f) = 0%Z -> q_min (st f) = 0%Z -> q_max (st f) = 255%Z ->
  rescale 0 65535 (before ++ RSig f :: between ++ RFq f false :: after) st f = mkFP (1 / 32768) 32768 0 65535 true.
Proof. exact sigmoid_lemma. Qed.
Print Assumptions C134_sigmoid_partial.
Example C134_sigmoid_partial_example :
  Forall (fun m => ~ touches 1 m) ([RFq 0 false] ++ [RFq 3 true] ++ [RSig 2; RFq 2 false]) /\
  q_one (mkFP (1 / 256) 0 0 255 true) 1%nat = mkFP (1 / 256) 0 0 255 true.
Proof. split; [repeat apply Forall_cons; try apply Forall_nil; cbn; intuition congruence|reflexivity]. Qed.

(** Two sigmoids with one fake quantization, as made for a concatenation of them, have their scale doubled twice. *)
Theorem C134_shared_refuted : exists st, st 0%nat = mkFP (1 / 256) 0 0 255 true /\
  rescale 0 65535 [RSig 0; RFq 0 false; RSig 0] st 0%nat = mkFP (1 / 16384) 32768 0 65535 true.
Proof. exact shared_lemma. Qed.
Print Assumptions C134_shared_refuted.

(** with another zero point, numbers that were represented no longer are *)
Theorem C134_zero_point_refuted : exists st, q_obs (st 0%nat) = true /\ q_min (st 0%nat) = 0%Z /\ q_max (st 0%nat) = 255%Z /\ q_zero (st 0%nat) = 100%Z /\
  let p := rescale 0 65535 [RFq 0 false] st 0%nat in beyond p = 128 /\ beyond (st 0%nat) = 156.
Proof. exact asym_lemma. Qed.
Print Assumptions C134_zero_point_refuted.

(** with a signed range the zero point is not even in the range *)
Theorem C134_signed_refuted : exists st, q_obs (st 0%nat) = true /\ q_min (st 0%nat) = 0%Z /\ (2 * q_zero (st 0%nat) = q_max (st 0%nat) + 1)%Z /\
  let p := rescale (-32768) 32767 [RFq 0 false] st 0%nat in (q_max p < q_zero p)%Z.
Proof. exact signed_lemma. Qed.
Print Assumptions C134_signed_refuted.
