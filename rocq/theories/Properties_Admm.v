(** C135, C136, C137: the ADMM pruner. *)
From Coq Require Import List Arith ZArith Bool Reals Lia Lra.
From Verif Require Import AdmmModel AdmmSpec AdmmProofs.
Import ListNotations.
Local Open Scope R_scope.

(** After an update Z is the point nearest to W + U among those that vanish where the mask does. *)
Theorem C135_projection_partial :
  forall C n w m a, let a' := admm_update w m a in vanishes m (ad_z a') /\
  forall y, vanishes m y -> dist2 C n (fun c j => w c j + ad_u a c j) (ad_z a') <= dist2 C n (fun c j => w c j + ad_u a c j) y.
Proof. exact projection_lemma. Qed.
Print Assumptions C135_projection_partial.
Example C135_projection_partial_example :
  let a := admm_register v_l1 (prune_mask [0%nat]) in let a' := admm_update v_l1 (prune_mask [0%nat]) a in
  ad_z a' 0%nat 0%nat = 0 /\ ad_z a' 1%nat 0%nat = 2 /\ ad_u a' 0%nat 0%nat = 3 /\ vanishes (prune_mask [0%nat]) (fun _ _ => 0).
Proof. cbv zeta. repeat split; unfold masked, prune_mask; cbn; lra. Qed.

(** With the metric l2_norm it is nearest among all points with as many zero channels. *)
Theorem C135_best_partial :
  forall C n k w a, (k <= C)%nat -> let v := fun c j => w c j + ad_u a c j in
  let z := ad_z (admm_update w (prune_mask (least (l2_imp n v) C k)) a) in
  channel_sparse C n k z /\ forall y, channel_sparse C n k y -> dist2 C n v z <= dist2 C n v y.
Proof. exact (fun C n k w a H => best_lemma C n k (fun c j => w c j + ad_u a c j) H). Qed.
Print Assumptions C135_best_partial.
Example C135_best_partial_example : channel_sparse 2 2 1 (masked v_l1 (prune_mask [1%nat])) /\ dist2 2 2 v_l1 (masked v_l1 (prune_mask [1%nat])) = 8.
Proof.
  split.
  - exists [1%nat]. repeat split; [repeat constructor; intros []|intros c [<-|[]]; lia|]. intros c j [<-|[]] _. reflexivity.
  - rewrite dist_prune; [cbn; lra|repeat constructor; intros []|intros c [<-|[]]; lia].
Qed.

(** with l1_norm it is not *)
Theorem C135_l1_refuted : exists C n k v y, (k <= C)%nat /\ channel_sparse C n k y /\
  dist2 C n v y < dist2 C n v (masked v (prune_mask (least (l1_imp n v) C k))).
Proof. exact l1_lemma. Qed.
Print Assumptions C135_l1_refuted.

(** U is the sum of the differences of weight and Z over all updates, however the weight was trained between them. *)
Theorem C135_dual :
  forall w0 m0 steps c j, ad_u (admm_run steps (admm_register w0 m0)) c j = gaps steps (admm_register w0 m0) c j.
Proof. exact (fun w0 m0 steps c j => eq_trans (dual_lemma steps (admm_register w0 m0) c j) (Rplus_0_l _)). Qed.
Print Assumptions C135_dual.
Example C135_dual_example :
  let m := prune_mask [0%nat] in gaps [(v_l1, m); (v_l1, m)] (admm_register v_l1 m) 0%nat 0%nat = 6.
Proof. cbv zeta. unfold masked, prune_mask. cbn. unfold masked. cbn. lra. Qed.

(** what autograd adds to the gradient of an entry of the weight is the derivative of the penalty as recorded, ... *)
Theorem C135_autograd :
  forall rho rest a w c j, derivable_pt_lim (penalty_at rho rest a w c j) (w c j) (penalty_grad rho a w c j).
Proof. exact grad_lemma. Qed.
Print Assumptions C135_autograd.
Example C135_autograd_example : penalty_grad (1 / 2) (admm_register v_l1 (prune_mask [0%nat])) v_l1 0%nat 0%nat = 3 / 2.
Proof. unfold penalty_grad. cbn. unfold masked, prune_mask. cbn. lra. Qed.

(** ... which grows with every update, because U was computed from the weight: *)
Theorem C135_gradient_factor :
  forall rho w0 m0 steps w c j, let a := admm_run steps (admm_register w0 m0) in
  penalty_grad rho a w c j = (1 + INR (length steps)) * wanted_grad rho a w c j.
Proof. exact factor_lemma. Qed.
Print Assumptions C135_gradient_factor.
Example C135_gradient_factor_example :
  let m := prune_mask [0%nat] in let a := admm_run [(v_l1, m); (v_l1, m)] (admm_register v_l1 m) in
  wanted_grad (1 / 2) a v_l1 0%nat 0%nat = 9 / 2 /\ penalty_grad (1 / 2) a v_l1 0%nat 0%nat = 27 / 2.
Proof. cbv zeta. unfold wanted_grad, penalty_grad. cbn. unfold masked, prune_mask. cbn. unfold masked. cbn. lra. Qed.

(** so the gradient is not that of the penalty with Z and U fixed *)
Theorem C135_gradient_refuted : exists rho w0 m0 steps w c j, 0 < rho < 1 /\
  let a := admm_run steps (admm_register w0 m0) in penalty_grad rho a w c j <> wanted_grad rho a w c j.
Proof.
  exact (ex_intro _ (1 / 2) (ex_intro _ v_l1 (ex_intro _ (prune_mask [0%nat]) (ex_intro _ [(v_l1, prune_mask [0%nat])] (ex_intro _ v_l1
    (ex_intro _ 0%nat (ex_intro _ 0%nat gradient_lemma))))))).
Qed.
Print Assumptions C135_gradient_refuted.

(** The epochs are numbered through; the first third of an iteration trains with the given learning rate, the second with a
    tenth of it, the third with a hundredth. *)
Theorem C136_learning_rate :
  forall lr iterations E, (0 < E)%nat ->
  map fst (admm_schedule lr iterations E) = seq 1 (iterations * E) /\
  forall e r, In (e, r) (admm_schedule lr iterations E) -> exists k, (k <= 2)%nat /\ r = lr * (1 / 10) ^ k /\
    (k * E <= 3 * ((e - 1) mod E) < (k + 1) * E)%nat.
Proof. exact schedule_lemma. Qed.
Print Assumptions C136_learning_rate.
Example C136_learning_rate_example :
  map fst (admm_schedule (1 / 100) 2 4) = [1; 2; 3; 4; 5; 6; 7; 8]%nat /\ In (7%nat, 1 / 1000) (admm_schedule (1 / 100) 2 4).
Proof.
  split; [reflexivity|]. replace (7%nat, 1 / 1000) with (7%nat, admm_lr (1 / 100) 4 7).
  - apply (in_map (fun e => (e, admm_lr (1 / 100) 4 e))). vm_compute. auto 10.
  - f_equal. rewrite lr_lemma by lia. cbn. lra.
Qed.

(** Without excluded subgraphs of non-zero sparsity, every update prunes the centres that were registered at the start. *)
Theorem C137_rounds_partial :
  forall gs, (forall g, In g gs -> sg_skip g = true -> sg_sparse g = false) ->
  exists u, sg_register [] gs = Some u /\ sg_update u [] gs = Some u /\
    forall c, In c u <-> exists g, In g gs /\ sg_skip g = false /\ sg_sparse g = true /\ In c (sg_centers g).
Proof. exact rounds_lemma. Qed.
Print Assumptions C137_rounds_partial.
Example C137_rounds_partial_example :
  let gs := [mkSg false true [0; 1]; mkSg true false [2]; mkSg false false [3]; mkSg false true [4]]%nat in
  (forall g, In g gs -> sg_skip g = true -> sg_sparse g = false) /\ sg_register [] gs = Some [0; 1; 4]%nat.
Proof. cbv zeta. split; [|reflexivity]. cbn. intros g [<-|[<-|[<-|[<-|[]]]]]; cbn; congruence. Qed.

(** with one, the first update looks for an importance that was not computed *)
Theorem C137_excluded_refuted : exists gs u, sg_register [] gs = Some u /\ u <> [] /\ sg_update u [] gs = None.
Proof. exact skipped_lemma. Qed.
Print Assumptions C137_excluded_refuted.
