(** Proofs about the ADMM pruner. *)
From Coq Require Import List Arith ZArith QArith Qround Bool Permutation Sorted Reals Lia Lra.
From Verif Require Import AdmmModel AdmmSpec.
Import ListNotations.
Local Open Scope R_scope.

(** * Sums *)
Lemma sumR_ext n f g : (forall i, (i < n)%nat -> f i = g i) -> sumR n f = sumR n g.
Proof. induction n as [|n IH]; intros H; cbn; [reflexivity|]. rewrite IH, H; auto. Qed.
Lemma sumR_le n f g : (forall i, (i < n)%nat -> f i <= g i) -> sumR n f <= sumR n g.
Proof.
  induction n as [|n IH]; intros H; cbn; [lra|]. assert (f n <= g n) by (apply H; lia).
  assert (sumR n f <= sumR n g) by (apply IH; intros; apply H; lia). lra.
Qed.
Lemma sumR_nonneg n f : (forall i, (i < n)%nat -> 0 <= f i) -> 0 <= sumR n f.
Proof. intros H. assert (E : sumR n (fun _ => 0) = 0) by (induction n; cbn; [reflexivity|rewrite IHn; [lra|intros; apply H; lia]]). rewrite <- E. now apply sumR_le. Qed.
Lemma sumR_zero n : sumR n (fun _ => 0) = 0.
Proof. induction n; cbn; lra. Qed.
Lemma sumR_plus n f g : sumR n (fun i => f i + g i) = sumR n f + sumR n g.
Proof. induction n; cbn; lra. Qed.
Lemma sumR_single n k (x : R) : (k < n)%nat -> sumR n (fun i => if Nat.eqb i k then x else 0) = x.
Proof.
  induction n as [|n IH]; intros H; [lia|]. cbn. destruct (Nat.eqb n k) eqn:E.
  - apply Nat.eqb_eq in E. subst. rewrite (sumR_ext _ _ (fun _ => 0)), sumR_zero; [lra|].
    intros i I. destruct (Nat.eqb i k) eqn:Q; [apply Nat.eqb_eq in Q; lia|reflexivity].
  - apply Nat.eqb_neq in E. rewrite IH by lia. lra.
Qed.
Fixpoint lsum (f : nat -> R) (l : list nat) : R := match l with [] => 0 | x :: r => f x + lsum f r end.
Definition inb (c : nat) (p : list nat) : bool := existsb (Nat.eqb c) p.
Lemma inb_In c p : inb c p = true <-> In c p.
Proof.
  unfold inb. rewrite existsb_exists. split; [intros (x & H & E); apply Nat.eqb_eq in E; now subst|].
  intros H. exists c. split; [exact H|apply Nat.eqb_refl].
Qed.
Lemma sumR_list n f p : NoDup p -> (forall c, In c p -> (c < n)%nat) -> sumR n (fun c => if inb c p then f c else 0) = lsum f p.
Proof.
  induction p as [|x p IH]; intros N B; cbn [lsum]; [cbn; apply sumR_zero|]. inversion N as [|? ? X N']; subst.
  rewrite <- IH by (auto with datatypes). rewrite <- (sumR_single n x (f x)) at 1 by (apply B; now left). rewrite <- sumR_plus.
  apply sumR_ext. intros i _. cbn [inb existsb]. destruct (Nat.eqb i x) eqn:E; cbn [orb].
  - apply Nat.eqb_eq in E. subst. destruct (inb x p) eqn:Q; [apply inb_In in Q; contradiction|lra].
  - fold (inb i p). lra.
Qed.
Lemma lsum_perm f a b : Permutation a b -> lsum f a = lsum f b.
Proof. induction 1; cbn; lra. Qed.

(** * Projection *)
Lemma projection_lemma C n w m a : let a' := admm_update w m a in vanishes m (ad_z a') /\
  forall y, vanishes m y -> dist2 C n (fun c j => w c j + ad_u a c j) (ad_z a') <= dist2 C n (fun c j => w c j + ad_u a c j) y.
Proof.
  cbv zeta. cbn [admm_update ad_z]. split.
  - intros c j M. unfold masked. now rewrite M.
  - intros y V. unfold dist2. apply sumR_le. intros c _. apply sumR_le. intros j _. unfold masked. destruct (m c j) eqn:M.
    + replace (w c j + ad_u a c j - (w c j + ad_u a c j)) with 0 by lra. assert (0 <= (w c j + ad_u a c j - y c j) ^ 2) by apply pow2_ge_0. lra.
    + rewrite (V c j M). lra.
Qed.
Lemma dual_lemma steps : forall a c j, ad_u (admm_run steps a) c j = ad_u a c j + gaps steps a c j.
Proof.
  induction steps as [|[w m] rest IH]; intros a c j; cbn [admm_run gaps]; [lra|]. rewrite IH. cbv zeta. cbn [admm_update ad_u ad_z]. lra.
Qed.
Lemma slope_lemma steps : forall a, ad_slope (admm_run steps a) = ad_slope a + INR (length steps).
Proof.
  induction steps as [|[w m] rest IH]; intros a; cbn [admm_run length]; [cbn; lra|]. rewrite IH, S_INR. cbn [admm_update ad_slope]. lra.
Qed.
Lemma grad_lemma rho rest a w c j : derivable_pt_lim (penalty_at rho rest a w c j) (w c j) (penalty_grad rho a w c j).
Proof.
  unfold penalty_grad. set (z := ad_z a c j). set (u := ad_u a c j). set (s := ad_slope a). set (v := w c j).
  set (g := fun x => (1 + s) * x + (u - z - s * v)).
  assert (G : forall x, derivable_pt_lim g x (1 + s)).
  { intros x. unfold g. replace (1 + s) with ((1 + s) * 1 + 0) at 1 by lra.
    apply (derivable_pt_lim_plus (fun x => (1 + s) * x) (fun _ => u - z - s * v)).
    - apply (derivable_pt_lim_scal (fun x => x)). apply derivable_pt_lim_id.
    - apply derivable_pt_lim_const. }
  assert (H : derivable_pt_lim (fun x => (1 / 2) * rho * (rest + g x * g x)) v ((1 / 2) * rho * (0 + ((1 + s) * g v + g v * (1 + s))))).
  { apply (derivable_pt_lim_scal (fun x => rest + g x * g x)). apply (derivable_pt_lim_plus (fun _ => rest) (fun x => g x * g x)).
    - apply derivable_pt_lim_const.
    - apply (derivable_pt_lim_mult g g); apply G. }
  replace (rho * (v - z + u) * (1 + s)) with ((1 / 2) * rho * (0 + ((1 + s) * g v + g v * (1 + s)))) by (unfold g; field).
  intros eps HE. destruct (H eps HE) as (d & D). exists d. intros h N L. specialize (D h N L).
  unfold penalty_at. fold z u s v. unfold g in D.
  replace (1 / 2 * rho * (rest + (v + h - z + (u + s * (v + h - v))) ^ 2) - 1 / 2 * rho * (rest + (v - z + (u + s * (v - v))) ^ 2))
    with (1 / 2 * rho * (rest + ((1 + s) * (v + h) + (u - z - s * v)) * ((1 + s) * (v + h) + (u - z - s * v))) -
          1 / 2 * rho * (rest + ((1 + s) * v + (u - z - s * v)) * ((1 + s) * v + (u - z - s * v)))) by ring.
  exact D.
Qed.
Lemma factor_lemma rho w0 m0 steps w c j :
  let a := admm_run steps (admm_register w0 m0) in
  penalty_grad rho a w c j = (1 + INR (length steps)) * wanted_grad rho a w c j.
Proof. cbv zeta. unfold penalty_grad, wanted_grad. rewrite slope_lemma. cbn [admm_register ad_slope]. ring. Qed.

(** * The best channels *)
Lemma ins_perm imp x l : Permutation (ins imp x l) (x :: l).
Proof.
  induction l as [|y l IH]; cbn; [reflexivity|]. destruct (Rle_dec (imp x) (imp y)); [reflexivity|]. rewrite IH. apply perm_swap.
Qed.
Lemma isort_perm imp l : Permutation (isort imp l) l.
Proof. induction l as [|x l IH]; cbn; [reflexivity|]. rewrite ins_perm. now constructor. Qed.
Definition leI (imp : nat -> R) (a b : nat) : Prop := imp a <= imp b.
Lemma ins_sorted imp x l : StronglySorted (leI imp) l -> StronglySorted (leI imp) (ins imp x l).
Proof.
  induction 1 as [|y l S IH F]; cbn; [repeat constructor|]. unfold leI in *. destruct (Rle_dec (imp x) (imp y)) as [L|L].
  - constructor; [now constructor|]. constructor; [exact L|]. apply Forall_forall. intros z Z. rewrite Forall_forall in F. specialize (F z Z). cbn in *. lra.
  - constructor; [exact IH|]. apply Forall_forall. intros z Z. apply (Permutation_in _ (ins_perm imp x l)) in Z. destruct Z as [<-|Z]; [lra|].
    rewrite Forall_forall in F. now apply F.
Qed.
Lemma isort_sorted imp l : StronglySorted (leI imp) (isort imp l).
Proof. induction l as [|x l IH]; cbn; [constructor|]. now apply ins_sorted. Qed.
Lemma sorted_split imp l : StronglySorted (leI imp) l -> forall k p q, In p (firstn k l) -> In q (skipn k l) -> imp p <= imp q.
Proof.
  induction 1 as [|x l S IH F]; intros k p q P Q.
  - destruct k; cbn in P; contradiction.
  - destruct k as [|k]; cbn in P, Q; [contradiction|]. destruct P as [<-|P]; [|now apply (IH k)].
    rewrite Forall_forall in F. apply F. rewrite <- (firstn_skipn k l). apply in_or_app. now right.
Qed.
Lemma nodup_left (a b : list nat) : NoDup (a ++ b) -> NoDup a.
Proof.
  induction a as [|x a IH]; intros N; [constructor|]. cbn in N. inversion N as [|? ? X Y]; subst. constructor; [|auto].
  intros Z. apply X, in_or_app. now left.
Qed.
Lemma least_lemma imp C k : (k <= C)%nat -> let p := least imp C k in
  NoDup p /\ length p = k /\ (forall c, In c p -> (c < C)%nat) /\ forall x y, In x p -> (y < C)%nat -> ~ In y p -> imp x <= imp y.
Proof.
  intros K. cbv zeta. unfold least. set (l := isort imp (seq 0 C)).
  assert (P : Permutation l (seq 0 C)) by apply isort_perm.
  assert (ND : NoDup l) by (apply (Permutation_NoDup (Permutation_sym P)), seq_NoDup).
  assert (LE : length l = C) by (rewrite (Permutation_length P); apply seq_length).
  assert (FS := firstn_skipn k l). repeat split.
  - apply (nodup_left _ (skipn k l)). now rewrite FS.
  - rewrite firstn_length. lia.
  - intros c I. assert (In c l) by (rewrite <- FS; apply in_or_app; now left). apply (Permutation_in _ P) in H. apply in_seq in H. lia.
  - intros x y X Y N. assert (In y l) by (apply (Permutation_in _ (Permutation_sym P)), in_seq; lia).
    rewrite <- FS in H. apply in_app_or in H. destruct H as [H|H]; [contradiction|].
    exact (sorted_split imp l (isort_sorted imp (seq 0 C)) k x y X H).
Qed.
Lemma exchange g p : forall q, NoDup p -> NoDup q -> length p = length q ->
  (forall x y, In x p -> In y q -> ~ In y p -> g x <= g y) -> lsum g p <= lsum g q.
Proof.
  induction p as [|x p IH]; intros q NP NQ L H; [destruct q; [cbn; lra|discriminate]|].
  inversion NP as [|? ? X NP']; subst.
  assert (D : exists y, In y q /\ g x <= g y /\ (In x q -> y = x)).
  { destruct (in_dec Nat.eq_dec x q) as [I|I]; [exists x; repeat split; auto; lra|].
    destruct (Exists_dec (fun y => ~ In y (x :: p)) q) as [E|E].
    - intros y. destruct (in_dec Nat.eq_dec y (x :: p)); [right; tauto|now left].
    - apply Exists_exists in E. destruct E as (y & Y & Z). exists y. split; [exact Y|]. split; [apply H; auto; now left|tauto].
    - exfalso. apply I. apply (@NoDup_length_incl nat q (x :: p) NQ); [cbn in *; lia| |now left]. intros y Y.
      destruct (in_dec Nat.eq_dec y (x :: p)) as [Z|Z]; [exact Z|]. elim E. apply Exists_exists. eauto. }
  destruct D as (y & Y & G & XY). apply in_split in Y. destruct Y as (a & b & ->).
  rewrite (lsum_perm g (a ++ y :: b) (y :: a ++ b)) by (symmetry; apply Permutation_middle). cbn [lsum].
  assert (NQ' := NoDup_remove_1 _ _ _ NQ). assert (NI := NoDup_remove_2 _ _ _ NQ).
  assert (lsum g p <= lsum g (a ++ b)).
  { apply IH; auto.
    - rewrite app_length in *. cbn in L. lia.
    - intros s t S T N. assert (T' : In t (a ++ y :: b)) by (apply in_app_or in T; apply in_or_app; cbn; tauto).
      apply H; [now right|exact T'|]. intros [E|E]; [|contradiction]. subst t. rewrite <- (XY T') in T. contradiction. }
  lra.
Qed.
Lemma dist_prune C n v p : NoDup p -> (forall c, In c p -> (c < C)%nat) ->
  dist2 C n v (masked v (prune_mask p)) = lsum (fun c => sumR n (fun j => v c j ^ 2)) p.
Proof.
  intros N B. rewrite <- (sumR_list C _ p N B). unfold dist2. apply sumR_ext. intros c _. unfold masked, prune_mask. fold (inb c p).
  destruct (inb c p); cbn [negb].
  - apply sumR_ext. intros j _. f_equal. lra.
  - rewrite (sumR_ext _ _ (fun _ => 0)); [apply sumR_zero|]. intros j _. replace (v c j - v c j) with 0 by lra. cbn. lra.
Qed.
Lemma best_lemma C n k v : (k <= C)%nat -> let z := masked v (prune_mask (least (l2_imp n v) C k)) in
  channel_sparse C n k z /\ forall y, channel_sparse C n k y -> dist2 C n v z <= dist2 C n v y.
Proof.
  intros K. cbv zeta. destruct (least_lemma (l2_imp n v) C k K) as (ND & LE & B & M). set (p := least (l2_imp n v) C k) in *.
  split.
  - exists p. repeat split; auto. intros c j I _. unfold masked, prune_mask. fold (inb c p). assert (Q := proj2 (inb_In c p) I). now rewrite Q.
  - intros y (q & NQ & LQ & BQ & Z). rewrite (dist_prune C n v p ND B).
    apply Rle_trans with (lsum (fun c => sumR n (fun j => v c j ^ 2)) q).
    + apply exchange; auto; [congruence|]. intros x t X T N. specialize (M x t X (BQ t T) N). unfold l2_imp in M.
      apply sqrt_le_0 in M; auto; apply sumR_nonneg; intros; apply pow2_ge_0.
    + rewrite <- (sumR_list C _ q NQ BQ). unfold dist2. apply sumR_le. intros c _. destruct (inb c q) eqn:I.
      * apply inb_In in I. apply Req_le. apply sumR_ext. intros j J. rewrite (Z c j I J). f_equal. lra.
      * apply sumR_nonneg. intros. apply pow2_ge_0.
Qed.
(** weights (3, 0) and (2, 2) *)
Definition v_l1 : tensor := fun c j => match c, j with 0%nat, 0%nat => 3 | 1%nat, _ => 2 | _, _ => 0 end.
Lemma least_l1 : least (l1_imp 2 v_l1) 2 1 = [0%nat].
Proof.
  unfold least. cbn. rewrite Rabs_R0, (Rabs_right 3), (Rabs_right 2) by lra.
  destruct (Rle_dec (0 + 3 + 0) (0 + 2 + 2)) as [L|L]; [reflexivity|lra].
Qed.
Lemma l1_lemma : exists C n k v y, (k <= C)%nat /\ channel_sparse C n k y /\
  dist2 C n v y < dist2 C n v (masked v (prune_mask (least (l1_imp n v) C k))).
Proof.
  exists 2%nat, 2%nat, 1%nat, v_l1, (masked v_l1 (prune_mask [1%nat])). split; [lia|]. split.
  - exists [1%nat]. repeat split; [repeat constructor; intros []|intros c [<-|[]]; lia|]. intros c j [<-|[]] _. reflexivity.
  - rewrite least_l1. rewrite !dist_prune; try (repeat constructor; intros []); try (intros c [<-|[]]; lia). cbn. lra.
Qed.

(** * Learning rates *)
Lemma floor_lemma o E : (0 < E)%nat -> Qfloor (inject_Z (Z.of_nat o) / (inject_Z (Z.of_nat E) / 3)) = Z.of_nat (3 * o / E).
Proof.
  intros H. assert (Q : (inject_Z (Z.of_nat o) / (inject_Z (Z.of_nat E) / 3) == (3 * Z.of_nat o) # (Z.to_pos (Z.of_nat E)))%Q).
  { assert (E0 : ~ (inject_Z (Z.of_nat E) == 0)%Q) by (unfold Qeq; cbn; lia).
    assert (P : ((3 * Z.of_nat o) # (Z.to_pos (Z.of_nat E)) == inject_Z (3 * Z.of_nat o) / inject_Z (Z.of_nat E))%Q).
    { rewrite Qmake_Qdiv. rewrite Z2Pos.id by lia. reflexivity. }
    rewrite P, inject_Z_mult. field. exact E0. }
  rewrite Q. cbn [Qfloor]. rewrite Z2Pos.id by lia. rewrite Nat2Z.inj_div. f_equal. lia.
Qed.
Lemma lr_lemma lr E epoch : (0 < E)%nat -> admm_lr lr E epoch = lr * (1 / 10) ^ (3 * ((epoch - 1) mod E) / E).
Proof.
  intros H. unfold admm_lr. destruct ((epoch - 1) mod E =? 0)%nat eqn:Z.
  - apply Nat.eqb_eq in Z. rewrite Z. rewrite Nat.mul_0_r, Nat.div_0_l by lia. cbn. lra.
  - rewrite floor_lemma by exact H. now rewrite Nat2Z.id.
Qed.
Lemma epochs_seq E n : forall s, flat_map (fun it => map (fun ep => ep + (it - 1) * E)%nat (seq 1 E)) (seq (S s) n) = seq (1 + s * E) (n * E).
Proof.
  induction n as [|n IH]; intros s; [reflexivity|]. cbn [seq flat_map]. rewrite IH. cbn [Nat.mul]. rewrite seq_app. f_equal.
  - cbn [Nat.sub]. rewrite Nat.sub_0_r. generalize 1%nat. induction E as [|E IHE]; intros a; [reflexivity|].
    clear IHE. remember (s * S E)%nat as b. clear. revert a. generalize (S E) as m. induction m as [|m IH]; intros a; [reflexivity|].
    cbn [seq map]. f_equal. rewrite IH. reflexivity.
  - f_equal. lia.
Qed.
Lemma schedule_lemma lr iterations E : (0 < E)%nat ->
  map fst (admm_schedule lr iterations E) = seq 1 (iterations * E) /\
  forall e r, In (e, r) (admm_schedule lr iterations E) -> exists k, (k <= 2)%nat /\ r = lr * (1 / 10) ^ k /\
    (k * E <= 3 * ((e - 1) mod E) < (k + 1) * E)%nat.
Proof.
  intros H. split.
  - unfold admm_schedule. rewrite map_map. cbn [fst]. rewrite map_id. unfold admm_epochs. rewrite epochs_seq. reflexivity.
  - intros e r I. apply in_map_iff in I. destruct I as (x & X & _). inversion X; subst. exists (3 * ((e - 1) mod E) / E)%nat.
    assert (B := Nat.mod_upper_bound (e - 1) E ltac:(lia)).
    assert (DM := Nat.div_mod (3 * ((e - 1) mod E)) E ltac:(lia)). assert (MB := Nat.mod_upper_bound (3 * ((e - 1) mod E)) E ltac:(lia)).
    set (k := (3 * ((e - 1) mod E) / E)%nat) in *. repeat split; [|now apply lr_lemma|nia|nia].
    destruct (le_lt_dec k 2) as [L|L]; [exact L|]. assert (3 * E <= E * k)%nat by nia. lia.
Qed.

(** * Excluded subgraphs *)
Lemma calc_more imp g l : sg_calc imp g = Some l -> l = if sg_sparse g then sg_centers g else [].
Proof. unfold sg_calc. destruct (sg_sparse g); [destruct (forallb _ _)|]; congruence. Qed.
Definition sg_goes (g : sgr) : list nat := if sg_skip g then [] else if sg_sparse g then sg_centers g else [].
Lemma register_all gs : forall imp, sg_register imp gs = Some (flat_map sg_goes gs).
Proof.
  induction gs as [|g gs IH]; intros imp; [reflexivity|]. cbn [sg_register flat_map]. unfold sg_goes at 1. destruct (sg_skip g); [apply IH|].
  rewrite IH. unfold sg_calc. destruct (sg_sparse g); [|reflexivity].
  assert (F : forallb (fun c => existsb (Nat.eqb c) (imp ++ sg_centers g)) (sg_centers g) = true).
  { apply forallb_forall. intros c C. fold (inb c (imp ++ sg_centers g)). apply inb_In, in_or_app. now right. }
  now rewrite F.
Qed.
Lemma update_all u gs : (forall g c, In g gs -> sg_sparse g = true -> In c (sg_centers g) -> In c u) ->
  forall imp, sg_update u imp gs = Some (flat_map (fun g => if sg_sparse g then sg_centers g else []) gs).
Proof.
  induction gs as [|g gs IH]; intros H imp; [reflexivity|]. cbn [sg_update flat_map]. rewrite IH by (intros; eapply H; eauto; now right).
  unfold sg_calc. destruct (sg_sparse g) eqn:S; [|reflexivity].
  assert (F : forallb (fun c => existsb (Nat.eqb c) (imp ++ filter (fun c => existsb (Nat.eqb c) u) (sg_centers g))) (sg_centers g) = true).
  { apply forallb_forall. intros c C. apply inb_In, in_or_app. right. apply filter_In. split; [exact C|]. apply inb_In. eapply H; eauto. now left. }
  now rewrite F.
Qed.
Lemma rounds_lemma gs : (forall g, In g gs -> sg_skip g = true -> sg_sparse g = false) ->
  exists u, sg_register [] gs = Some u /\ sg_update u [] gs = Some u /\
    forall c, In c u <-> exists g, In g gs /\ sg_skip g = false /\ sg_sparse g = true /\ In c (sg_centers g).
Proof.
  intros H. exists (flat_map sg_goes gs). split; [apply register_all|]. split.
  - rewrite update_all.
    + f_equal. clear -H. induction gs as [|g gs IH]; [reflexivity|]. cbn [flat_map]. rewrite IH by (intros; apply H; auto; now right). f_equal.
      unfold sg_goes. destruct (sg_skip g) eqn:S; [|reflexivity]. rewrite (H g (or_introl eq_refl) S). reflexivity.
    + intros g c G S C. apply in_flat_map. exists g. split; [exact G|]. unfold sg_goes. rewrite S. destruct (sg_skip g) eqn:K; [|exact C].
      rewrite (H g G K) in S. discriminate.
  - intros c. rewrite in_flat_map. unfold sg_goes. split.
    + intros (g & G & C). exists g. destruct (sg_skip g); [contradiction|]. destruct (sg_sparse g); [|contradiction]. auto.
    + intros (g & G & S & P & C). exists g. split; [exact G|]. now rewrite S, P.
Qed.
Lemma skipped_lemma : exists gs u, sg_register [] gs = Some u /\ u <> [] /\ sg_update u [] gs = None.
Proof. exists [mkSg false true [0; 1]; mkSg true true [2]]%nat, [0; 1]%nat. repeat split. discriminate. Qed.
Lemma gradient_lemma : 0 < 1 / 2 < 1 /\ let a := admm_run [(v_l1, prune_mask [0%nat])] (admm_register v_l1 (prune_mask [0%nat])) in
  penalty_grad (1 / 2) a v_l1 0 0 <> wanted_grad (1 / 2) a v_l1 0 0.
Proof. split; [lra|]. cbv zeta. unfold wanted_grad, penalty_grad. cbn. unfold masked, prune_mask. cbn. unfold masked. cbn. lra. Qed.
