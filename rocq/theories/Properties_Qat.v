(** C98: the QAT module for a transposed convolution followed by a batch normalisation.  Real arithmetic. *)
From Coq Require Import List Arith Bool Reals Lia Lra.
From Verif Require Import Tensor ConvSpec FuseModel FuseProofs EqModel QatSpec QatModel QatProofs.
Import ListNotations.
Local Open Scope R_scope.

(** frozen statistics, any fake quantizer [fq] of the weight: [transform] keeps the outputs *)
Theorem C98_transform_partial : forall (fq : tensor R -> tensor R) C a os p w b x,
  qat_ok C a p w b -> good_scale p -> (forall t, tshape (fq t) = tshape t) ->
  exists y z, qat_forward fq false a os C p w b x = Some y /\ qat_transformed fq a os p w b x = Some z /\ teq y z.
Proof. exact transform_ok. Qed.
Print Assumptions C98_transform_partial.
(** without rounding the module is the float pair, in training and in evaluation *)
Theorem C98_exact_partial : forall (fq : tensor R -> tensor R) tr C a os p w b x,
  qat_ok C a p w b -> good_scale p -> (forall t, teq (fq t) t) -> nth 1 (tshape x) 0%nat = nth 0 (tshape w) 0%nat ->
  exists y, qat_forward fq tr a os C p w b x = Some y /\ teq y (torch_batch_norm tr p (torch_deconv a os x w b)).
Proof. exact exact_ok. Qed.
Print Assumptions C98_exact_partial.
(** missing above: several groups, and channels whose [bn.weight] is zero *)
Theorem C98_groups_refuted : forall (fq : tensor R -> tensor R) tr G opg a os p w b x,
  (1 < G)%nat -> (0 < opg)%nat -> (2 <= length (tshape w))%nat -> ca_groups a = G -> nth 1 (tshape w) 0%nat = opg ->
  bn_ok (opg * G) p -> match b with Some v => length v = (opg * G)%nat | None => True end -> (forall t, tshape (fq t) = tshape t) ->
  qat_forward fq tr a os (opg * G) p w b x = None.
Proof. exact groups_raise. Qed.
Print Assumptions C98_groups_refuted.
Theorem C98_zero_weight_refuted : forall (fq : tensor R -> tensor R) tr C a os p w b x,
  qat_ok C a p w b -> ~ good_scale p -> (forall t, tshape (fq t) = tshape t) ->
  qat_forward fq tr a os C p w b x = None /\ exists z, qat_transformed fq a os p w b x = Some z.
Proof. exact zero_gamma_refuted. Qed.
Print Assumptions C98_zero_weight_refuted.
(** frozen statistics stay frozen, whatever is called *)
Theorem C98_frozen : forall init cs,
  let m := fold_left mode_step cs (mode_init init) in m_frozen m = true -> m_bn m = false.
Proof. exact mode_frozen. Qed.
Print Assumptions C98_frozen.
(** not frozen: the normalisation follows the last [train] or [eval] unless [update_bn_stats] came after it *)
Theorem C98_mode_partial : forall init cs b r, forallb not_update r = true ->
  let m := fold_left mode_step r (mode_step (fold_left mode_step cs (mode_init init)) (CTrain b)) in m_frozen m = false -> m_bn m = m_training m.
Proof. exact mode_follows. Qed.
Print Assumptions C98_mode_partial.
(** [update_bn_stats] in evaluation mode: the statistics of the batch are used in evaluation *)
Theorem C98_mode_refuted : exists cs, let m := fold_left mode_step cs (mode_init false) in m_training m = false /\ m_frozen m = false /\ m_bn m = true.
Proof. exists [CTrain false; CUpdate]. repeat split. Qed.
Print Assumptions C98_mode_refuted.

Definition ex_a (g : nat) : conv_attr := mkCA [2; 2]%nat [1; 1]%nat [0; 0]%nat [0; 0]%nat g.
Definition ex_w : tensor R := mkT [3; 2; 2; 2]%nat (fun idx => INR (nth 0 idx 0 + 2 * nth 1 idx 0 + nth 3 idx 0)%nat).
Definition ex_x : tensor R := mkT [1; 3; 2; 2]%nat (fun idx => INR (nth 1 idx 0 + nth 2 idx 0)%nat).
Definition ex_p (g : R) : bn_params := mkBn 1 [2; g] [3; 4] [5; 6] [0; 3].
Definition ex_fq (t : tensor R) : tensor R := mkT (tshape t) (fun idx => tget t idx / 2).
Lemma ex_bn g : bn_ok 2 (ex_p g).
Proof. repeat split. repeat constructor; cbn; lra. Qed.
Example C98_ex : qat_ok 2 (ex_a 1) (ex_p (-1)) ex_w (Some [7; 8]) /\ qat_ok 2 (ex_a 1) (ex_p (-1)) ex_w None /\ good_scale (ex_p (-1)) /\ ~ good_scale (ex_p 0) /\
  (forall t, tshape (ex_fq t) = tshape t) /\ nth 1 (tshape ex_x) 0%nat = nth 0 (tshape ex_w) 0%nat /\ bn_ok (1 * 2) (ex_p 1) /\
  (let m := fold_left mode_step [CTrain true; CFreeze; CTrain false; CTrain true] (mode_init false) in m_frozen m = true /\ m_training m = true).
Proof.
  split; [repeat split; try (cbn; lia); apply ex_bn|]. split; [repeat split; try (cbn; lia); apply ex_bn|].
  split; [repeat constructor; lra|]. split; [intro H; inversion H as [|? ? _ H']; inversion H'; cbn in *; lra|].
  split; [reflexivity|]. split; [reflexivity|]. split; [apply ex_bn|]. split; reflexivity.
Qed.
