(** Proofs about the computation of the removed channels. *)
From Coq Require Import List Arith Bool ZArith QArith Lia Relations Permutation.
From Verif Require Import PruneModel FuseModel MergeProofs GroupProofs PruneIdxModel PruneIdxSpec.
Import ListNotations.
Local Open Scope nat_scope.

Lemma obind_Some {A B} (o : option A) (f : A -> option B) b :
  obind o f = Some b -> exists a, o = Some a /\ f a = Some b.
Proof. destruct o; simpl; [eauto|discriminate]. Qed.

Lemma ofold_app {A B} (f : A -> B -> option A) l1 l2 a :
  ofold f (l1 ++ l2) a = obind (ofold f l1 a) (ofold f l2).
Proof.
  revert a. induction l1 as [|x l1 IH]; intro a; [reflexivity|].
  cbn [app ofold]. destruct (f a x); [|reflexivity]. cbn [obind]. apply IH.
Qed.

Lemma omap_In {A B} (f : A -> option B) l ys :
  omap f l = Some ys -> forall y, In y ys <-> exists x, In x l /\ f x = Some y.
Proof.
  revert ys. induction l as [|x l IH]; intros ys H y; cbn [omap] in H.
  - injection H as <-. split; [intros []|intros (x & [] & _)].
  - apply obind_Some in H. destruct H as (z & E & H). apply obind_Some in H. destruct H as (zs & E2 & H).
    injection H as <-. cbn [In]. rewrite (IH _ E2). split.
    + intros [<- |(x' & I & F)]; eauto.
    + intros (x' & [<- |I] & F); [left; congruence|right; eauto].
Qed.

Lemma dget_dset {B} k (v : B) d k' : dget k' (dset k v d) = if k' =? k then Some v else dget k' d.
Proof.
  induction d as [|[a w] d IH]; cbn [dset dget].
  - destruct (k' =? k); reflexivity.
  - destruct (k =? a) eqn:E; cbn [dget].
    + apply Nat.eqb_eq in E. subst a. destruct (k' =? k); reflexivity.
    + destruct (k' =? a) eqn:E2; [|apply IH].
      apply Nat.eqb_eq in E2. subst a. rewrite Nat.eqb_sym, E. reflexivity.
Qed.
Lemma dgetd_dset {B} (x : B) k v d k' : dgetd x k' (dset k v d) = if k' =? k then v else dgetd x k' d.
Proof. unfold dgetd. rewrite dget_dset. destruct (k' =? k); reflexivity. Qed.
Lemma dget_In {B} k (v : B) d : dget k d = Some v -> In (k, v) d.
Proof.
  induction d as [|[a w] d IH]; cbn [dget]; [discriminate|].
  destruct (k =? a) eqn:E; [apply Nat.eqb_eq in E; intro H; injection H as ->; subst; now left|right; auto].
Qed.
Lemma dget_None {B} k (d : list (nat * B)) : dget k d = None <-> ~ In k (map fst d).
Proof.
  induction d as [|[a w] d IH]; cbn [dget map In fst]; [tauto|].
  destruct (k =? a) eqn:E.
  - apply Nat.eqb_eq in E. subst. split; [discriminate|tauto].
  - apply Nat.eqb_neq in E. rewrite IH. split; [intros H [H'|H']; [congruence|tauto]|tauto].
Qed.
Lemma dget_NoDup {B} k (v : B) d : NoDup (map fst d) -> In (k, v) d -> dget k d = Some v.
Proof.
  induction d as [|[a w] d IH]; cbn [dget map In fst]; [tauto|].
  intros ND [H|H].
  - injection H as -> ->. rewrite Nat.eqb_refl. reflexivity.
  - inversion ND; subst. destruct (k =? a) eqn:E; [|auto].
    apply Nat.eqb_eq in E. subst. exfalso. apply H2. apply in_map_iff. exists (a, v). auto.
Qed.
Lemma dset_keys {B} k (v : B) d :
  map fst (dset k v d) = if existsb (Nat.eqb k) (map fst d) then map fst d else map fst d ++ [k].
Proof.
  induction d as [|[a w] d IH]; [reflexivity|].
  cbn [dset map fst existsb]. destruct (k =? a) eqn:E; cbn [orb map fst]; [reflexivity|].
  rewrite IH. destruct (existsb _ _); reflexivity.
Qed.

Lemma nmemb_In x l : nmemb x l = true <-> In x l.
Proof.
  unfold nmemb. rewrite existsb_exists. split.
  - intros (y & I & E). apply Nat.eqb_eq in E. subst. exact I.
  - intro I. exists x. split; [exact I|apply Nat.eqb_refl].
Qed.
Lemma subset_iff a b : subset a b = true <-> forall x, In x a -> In x b.
Proof.
  unfold subset. rewrite forallb_forall. split; intros H x I; [apply mem_In, H, I|apply mem_In, H, I].
Qed.
Lemma set_eqb_iff a b : set_eqb a b = true <-> forall x, In x a <-> In x b.
Proof.
  unfold set_eqb. rewrite andb_true_iff, !forallb_forall. split.
  - intros [H1 H2] x. split; intro I; [apply mem_In, H1, I|apply mem_In, H2, I].
  - intro H. split; intros x I; apply mem_In, H, I.
Qed.
Lemma in_sets_iff s l : in_sets s l = true <-> exists t, In t l /\ forall x, In x s <-> In x t.
Proof.
  unfold in_sets. rewrite existsb_exists. split; intros (t & I & E); exists t; (split; [exact I|]); apply set_eqb_iff; exact E.
Qed.
Lemma nonempty_iff {A} (l : list A) : nonempty l = true <-> l <> [].
Proof. destruct l; simpl; split; intro H; congruence. Qed.

Lemma fold_union_In {A} (f : A -> pset) l acc x :
  In x (fold_left (fun acc a => union acc (f a)) l acc) <-> In x acc \/ exists a, In a l /\ In x (f a).
Proof.
  revert acc. induction l as [|a l IH]; intro acc; cbn [fold_left].
  - split; [auto|intros [H|(a & [] & _)]; exact H].
  - rewrite IH, union_In. cbn [In]. split.
    + intros [[H|H]|(b & I & H)]; [auto|right; exists a; auto|right; exists b; auto].
    + intros [H|(b & [->|I] & H)]; [auto|auto|right; exists b; auto].
Qed.

Lemma l2c_Some r i t : l2c r i = Some t ->
  (0 <= i < Z.of_nat (width r))%Z /\
  forall j, In j t <-> exists row, In row r /\ In j (nth (Z.to_nat i) row []).
Proof.
  unfold l2c. destruct (_ && _) eqn:E; [|discriminate].
  intro H. injection H as <-. apply andb_true_iff in E. destruct E as [E1 E2].
  split; [lia|]. intro j. rewrite (fold_union_In (fun row => nth (Z.to_nat i) row [])). cbn [In].
  split; [intros [[]|H]; exact H|auto].
Qed.

Lemma c2l_In r j : forall i, In i (match c2l r j with Some t => t | None => [] end) <->
  j <> (-1)%Z /\ (0 <= i < Z.of_nat (width r))%Z /\ exists row, In row r /\ In j (nth (Z.to_nat i) row []).
Proof.
  intro i. unfold c2l. destruct (Z.eqb j (-1)) eqn:E.
  - apply Z.eqb_eq in E. split; [intros []|intros (H & _); congruence].
  - apply Z.eqb_neq in E. set (l := filter _ _).
    assert (G : In i l <-> (0 <= i < Z.of_nat (width r))%Z /\ exists row, In row r /\ In j (nth (Z.to_nat i) row [])).
    { unfold l. rewrite filter_In, in_map_iff, existsb_exists. split.
      - intros ((k & <- & I) & (row & R & M)). apply in_seq in I. split; [lia|].
        exists row. split; [exact R|]. apply mem_In. exact M.
      - intros (B & (row & R & M)). split.
        + exists (Z.to_nat i). split; [lia|]. apply in_seq. lia.
        + exists row. split; [exact R|]. apply mem_In. exact M. }
    destruct l eqn:El; cbn [In] in *; tauto.
Qed.

Lemma to_leaf_In r s i : In i (to_leaf r s) <->
  exists j, In j s /\ j <> (-1)%Z /\ (0 <= i < Z.of_nat (width r))%Z /\
    exists row, In row r /\ In j (nth (Z.to_nat i) row []).
Proof.
  unfold to_leaf.
  assert (E : forall acc, fold_left (fun acc j => match c2l r j with Some t => union acc t | None => acc end) s acc =
              fold_left (fun acc j => union acc (match c2l r j with Some t => t | None => [] end)) s acc).
  { induction s as [|j s IH]; intro acc; [reflexivity|]. cbn [fold_left]. rewrite <- IH.
    destruct (c2l r j); [reflexivity|]. unfold union. cbn [filter]. rewrite app_nil_r. reflexivity. }
  rewrite E, (fold_union_In (fun j => match c2l r j with Some t => t | None => [] end)).
  cbn [In]. split.
  - intros [[]|(j & I & H)]. apply c2l_In in H. exists j. tauto.
  - intros (j & I & H). right. exists j. split; [exact I|]. apply c2l_In. tauto.
Qed.

Lemma to_center_In r s t : to_center r s = Some t ->
  (forall i, In i s -> (0 <= i < Z.of_nat (width r))%Z) /\
  forall j, In j t <-> exists i row, In i s /\ In row r /\ In j (nth (Z.to_nat i) row []).
Proof.
  unfold to_center.
  assert (G : forall acc, ofold (fun acc i => obind (l2c r i) (fun t => Some (union acc t))) s acc = Some t ->
    (forall i, In i s -> (0 <= i < Z.of_nat (width r))%Z) /\
    forall j, In j t <-> In j acc \/ exists i row, In i s /\ In row r /\ In j (nth (Z.to_nat i) row [])).
  { induction s as [|i s IH]; intros acc H; cbn [ofold] in H.
    - injection H as <-. split; [intros i []|]. intro j. split; [auto|intros [H|(i & row & [] & _)]; exact H].
    - apply obind_Some in H. destruct H as (a & H & H2). apply obind_Some in H. destruct H as (u & E & H).
      injection H as <-. apply l2c_Some in E. destruct E as [B E]. destruct (IH _ H2) as [B' IH'].
      split; [intros k [<- |I]; auto|]. intro j. rewrite IH', union_In, E. cbn [In]. split.
      + intros [[H|(row & R & H)]|(k & row & I & H)]; [auto|right; exists i, row; auto|right; exists k, row; tauto].
      + intros [H|(k & row & [<- |I] & R & H)]; [auto|left; right; exists row; auto|right; exists k, row; auto]. }
  intro H. destruct (G _ H) as [B K]. split; [exact B|]. intro j. rewrite K. cbn [In]. tauto.
Qed.

Lemma remove_first_none cs : (forall s, In s cs -> ~ In (-1)%Z s) -> remove_first [(-1)%Z] cs = cs.
Proof.
  induction cs as [|s cs IH]; intro H; [reflexivity|]. cbn [remove_first].
  destruct (set_eqb [(-1)%Z] s) eqn:E.
  - exfalso. apply (H s); [now left|]. apply (proj1 (set_eqb_iff _ _) E). now left.
  - f_equal. apply IH. intros t I. apply H. now right.
Qed.

(** merging sets that are pure for a label *)
Lemma linked_label cs (lab : Z -> Z) : (forall s x y, In s cs -> In x s -> In y s -> lab x = lab y) ->
  forall x y, linked cs x y -> lab x = lab y.
Proof.
  intros H x y L. induction L as [x y (s & I & X & Y)|x|x y z _ IH1 _ IH2]; [eauto|reflexivity|congruence].
Qed.

Lemma merge_pure (P : Z -> Prop) (lab : Z -> Z) cs :
  (forall s x, In s cs -> In x s -> P x /\ x <> (-1)%Z) ->
  (forall s x y, In s cs -> In x s -> In y s -> lab x = lab y) ->
  forall s, In s (merge_constraint cs) -> (forall x, In x s -> P x /\ x <> (-1)%Z) /\
    (forall x y, In x s -> In y s -> lab x = lab y).
Proof.
  intros HP HL s I. destruct (merge_constraint_correct cs) as (_ & _ & B & C).
  rewrite remove_first_none in B, C by (intros t It M; destruct (HP _ _ It M); congruence).
  split.
  - intros x X. destruct (proj1 (B x)) as (t & It & Xt); eauto.
  - intros x y X Y. destruct (proj1 (C x y)) as (_ & L); [eauto|]. eapply linked_label; eauto.
Qed.

Definition classes (P : Z -> Prop) (lab : Z -> Z) (cs : list pset) : Prop :=
  (forall s, In s cs -> s <> [] /\ exists k, forall x, In x s <-> P x /\ lab x = k) /\
  (forall x, P x -> exists s, In s cs /\ In x s).

Lemma merge_classes (P : Z -> Prop) (lab : Z -> Z) cs :
  (forall s x, In s cs -> In x s -> P x /\ x <> (-1)%Z) ->
  (forall s x y, In s cs -> In x s -> In y s -> lab x = lab y) ->
  (forall x, P x -> exists s, In s cs /\ In x s) ->
  (forall x y, P x -> P y -> lab x = lab y -> linked cs x y) ->
  classes P lab (merge_constraint cs).
Proof.
  intros HP HL HC HK. destruct (merge_constraint_correct cs) as (A & N & B & C).
  rewrite remove_first_none in B, C by (intros t It M; destruct (HP _ _ It M); congruence).
  split.
  - intros s I. split; [auto|]. destruct s as [|x0 s'] eqn:Es; [exfalso; eapply N; eauto|].
    rewrite <- Es in *. assert (X0 : In x0 s) by (rewrite Es; now left). clear Es.
    destruct (merge_pure P lab cs HP HL s I) as [PP PL].
    exists (lab x0). intro x. split.
    + intro X. split; [apply PP, X|]. apply PL; auto.
    + intros [Px El]. destruct (proj2 (C x0 x)) as (t & It & T0 & Tx).
      { split; [apply B; eauto|]. apply HK; auto. apply PP. exact X0. }
      destruct (In_nth _ _ [] I) as (a & La & Ea). destruct (In_nth _ _ [] It) as (b & Lb & Eb).
      assert (a = b). { apply (A a b x0); auto; [exact (eq_ind_r (fun z => In x0 z) X0 Ea)|exact (eq_ind_r (fun z => In x0 z) T0 Eb)]. } subst b.
      assert (Est : s = t) by (etransitivity; [symmetry; exact Ea|exact Eb]). rewrite Est. exact Tx.
  - intros x Px. apply B, HC, Px.
Qed.

(** ** The aggregation of the constraints *)

Lemma add_new_In l s t : In t (add_new l s) -> In t l \/ t = s.
Proof.
  unfold add_new. destruct (in_sets s l); [auto|]. rewrite in_app_iff. cbn [In]. intuition auto.
Qed.

Lemma leaf_sets_In l cc t : In t (leaf_sets l cc) ->
  exists c cs r s, In (c, cs) cc /\ In (c, r) (pl_rows l) /\ In s cs /\ t = to_leaf r s.
Proof.
  unfold leaf_sets.
  assert (G : forall acc, In t (fold_left (fun acc e => match dget (fst e) (pl_rows l) with
      | Some r => fold_left (fun acc s => add_new acc (to_leaf r s)) (snd e) acc
      | None => acc end) cc acc) ->
    In t acc \/ exists c cs r s, In (c, cs) cc /\ In (c, r) (pl_rows l) /\ In s cs /\ t = to_leaf r s).
  { induction cc as [|[c cs] cc IH]; intros acc H; cbn [fold_left fst snd] in H; [auto|].
    apply IH in H. destruct H as [H|(c' & cs' & r & s & I & R & S' & E)];
      [|right; exists c', cs', r, s; cbn [In]; auto].
    destruct (dget c (pl_rows l)) as [r|] eqn:E; [|auto]. apply dget_In in E.
    assert (K : forall sub acc, incl sub cs -> In t (fold_left (fun acc s => add_new acc (to_leaf r s)) sub acc) ->
      In t acc \/ exists s, In s cs /\ t = to_leaf r s).
    { induction sub as [|s sub IH2]; intros acc' Inc H'; cbn [fold_left] in H'; [auto|].
      apply IH2 in H'; [|intros x X; apply Inc; now right].
      destruct H' as [H'|H']; [|auto]. apply add_new_In in H'. destruct H' as [H'|H']; [auto|].
      right. exists s. split; [apply Inc; now left|exact H']. }
    apply K in H; [|apply incl_refl]. destruct H as [H|(s & S' & ->)]; [auto|].
    right. exists c, cs, r, s. cbn [In]. auto. }
  intro H. destruct (G _ H) as [[]|H']; exact H'.
Qed.

Lemma back_sets_In r ls ts : back_sets r ls = Some ts ->
  forall t, In t ts -> exists s u, In s ls /\ to_center r s = Some u /\ t = drop_none u.
Proof.
  unfold back_sets.
  assert (G : forall acc, ofold (fun acc s => obind (to_center r s) (fun t => Some (add_new acc (drop_none t)))) ls acc = Some ts ->
    forall t, In t ts -> In t acc \/ exists s u, In s ls /\ to_center r s = Some u /\ t = drop_none u).
  { induction ls as [|s ls IH]; intros acc H t It; cbn [ofold] in H.
    - injection H as <-. auto.
    - apply obind_Some in H. destruct H as (a & H & H2). apply obind_Some in H. destruct H as (u & E & H).
      injection H as <-. destruct (IH _ H2 t It) as [H|(s' & u' & I & E' & ->)].
      + apply add_new_In in H. destruct H as [H|H]; [auto|]. right. exists s, u. cbn [In]. auto.
      + right. exists s', u'. cbn [In]. auto. }
  intros H t It. destruct (G _ H t It) as [[]|H']; exact H'.
Qed.

(** an invariant of the constraints of each center is kept by the aggregation *)
Lemma agg_invariant (Q : nat -> list pset -> Prop) ls0 ls cc cc' :
  (forall l, In l ls0 -> In l ls) ->
  (forall l cc c r old ts, In l ls -> (forall c cs, In (c, cs) cc -> Q c cs) ->
     (forall c cs cs', In (c, cs) cc -> In (c, cs') cc -> cs = cs') ->
     In (c, r) (pl_rows l) -> Q c old ->
     back_sets r (merge_constraint (leaf_sets l cc)) = Some ts -> Q c (merge_constraint (old ++ ts))) ->
  NoDup (map fst cc) ->
  (forall c cs, In (c, cs) cc -> Q c cs) ->
  ofold agg_leaf ls0 cc = Some cc' ->
  map fst cc' = map fst cc /\ (forall c cs, In (c, cs) cc' -> Q c cs).
Proof.
  intros Inc H. revert cc. induction ls0 as [|l ls0 IH]; intros cc ND HQ HA; cbn [ofold] in HA.
  - injection HA as <-. auto.
  - apply obind_Some in HA. destruct HA as (cc1 & H1 & HA). unfold agg_leaf in H1.
    set (ms := merge_constraint (leaf_sets l cc)) in *.
    assert (G : forall rs cc2 cc3, incl rs (pl_rows l) -> map fst cc2 = map fst cc ->
      (forall c cs, In (c, cs) cc2 -> Q c cs) -> ofold (agg_center ms) rs cc2 = Some cc3 ->
      map fst cc3 = map fst cc /\ (forall c cs, In (c, cs) cc3 -> Q c cs)).
    { induction rs as [|[c r] rs IHr]; intros cc2 cc3 I2 K2 Q2 A2; cbn [ofold] in A2.
      - injection A2 as <-. auto.
      - apply obind_Some in A2. destruct A2 as (cc4 & A3 & A2). unfold agg_center in A3. cbn [fst snd] in A3.
        apply obind_Some in A3. destruct A3 as (old & E & A3). apply obind_Some in A3. destruct A3 as (ts & B & A3).
        injection A3 as <-. apply (IHr _ _) in A2; auto.
        + intros x X. apply I2. now right.
        + rewrite dset_keys. destruct (existsb _ _) eqn:Ex; [exact K2|].
          apply dget_In in E. exfalso. assert (C : existsb (Nat.eqb c) (map fst cc2) = true).
          { apply nmemb_In. apply in_map_iff. exists (c, old). auto. } congruence.
        + intros c' cs' I'. assert (ND2 : NoDup (map fst (dset c (merge_constraint (old ++ ts)) cc2))).
          { rewrite dset_keys. destruct (existsb _ _) eqn:Ex; [rewrite K2; exact ND|].
            apply dget_In in E. exfalso. assert (C : existsb (Nat.eqb c) (map fst cc2) = true).
            { apply nmemb_In. apply in_map_iff. exists (c, old). auto. } congruence. }
          apply (dget_NoDup _ _ _ ND2) in I'. rewrite dget_dset in I'.
          destruct (c' =? c) eqn:Ec.
          * apply Nat.eqb_eq in Ec. subst c'. injection I' as <-.
            apply (H l cc c r old ts); auto.
            -- apply Inc. now left.
            -- intros a cs cs' I1 I3. apply (dget_NoDup _ _ _ ND) in I1. apply (dget_NoDup _ _ _ ND) in I3. congruence.
            -- apply I2. now left.
            -- apply Q2. apply dget_In in E. exact E.
          * apply Q2. apply dget_In. exact I'. }
    destruct (G _ _ _ (incl_refl _) eq_refl HQ H1) as [K1 Q1].
    destruct (IH (fun x X => Inc x (or_intror X)) cc1) as [K2 Q2]; auto.
    + rewrite K1. exact ND.
    + split; [congruence|exact Q2].
Qed.

(** the initial constraints: keys and elements *)
Definition all_entries (ls : list pleaf) : list (nat * rows) := concat (map pl_rows ls).
Lemma init_constraint_flat ls :
  init_constraint ls = fold_left (fun (cc : list (nat * list pset)) (e : nat * rows) => dset (fst e) (dgetd [] (fst e) cc ++ concat (snd e)) cc) (all_entries ls) [].
Proof.
  unfold init_constraint, all_entries. generalize (@nil (nat * list pset)).
  induction ls as [|l ls IH]; intro cc; [reflexivity|].
  cbn [fold_left map concat]. rewrite fold_left_app. apply IH.
Qed.
Lemma init_entries es : forall cc,
  let out := fold_left (fun (cc : list (nat * list pset)) (e : nat * rows) => dset (fst e) (dgetd [] (fst e) cc ++ concat (snd e)) cc) es cc in
  map fst out = fold_left (fun acc c => if existsb (Nat.eqb c) acc then acc else acc ++ [c]) (map fst es) (map fst cc) /\
  forall c s, In s (dgetd [] c out) <-> In s (dgetd [] c cc) \/ exists r row, In (c, r) es /\ In row r /\ In s row.
Proof.
  induction es as [|[c0 r0] es IH]; intro cc; cbn [fold_left map fst snd].
  - split; [reflexivity|]. intros c s. split; [auto|intros [H|(r & row & [] & _)]; exact H].
  - destruct (IH (dset c0 (dgetd [] c0 cc ++ concat r0) cc)) as [K E]. split.
    + cbv zeta in K. rewrite K, dset_keys. reflexivity.
    + intros c s. rewrite E, dgetd_dset. cbn [In]. destruct (c =? c0) eqn:Ec.
      * apply Nat.eqb_eq in Ec. subst c0. rewrite in_app_iff, in_concat. split.
        -- intros [[H|(row & R & H)]|(r & row & I & H)]; [auto|right; exists r0, row; auto|right; exists r, row; tauto].
        -- intros [H|(r & row & [I|I] & R & H)]; [auto| |right; exists r, row; auto].
           injection I as ->. left. right. exists row. auto.
      * apply Nat.eqb_neq in Ec. split.
        -- intros [H|(r & row & I & H)]; [auto|right; exists r, row; tauto].
        -- intros [H|(r & row & [I|I] & R & H)]; [auto|congruence|right; exists r, row; auto].
Qed.
Lemma fold_first_NoDup l acc : NoDup acc ->
  NoDup (fold_left (fun acc c => if existsb (Nat.eqb c) acc then acc else acc ++ [c]) l acc).
Proof.
  revert acc. induction l as [|c l IH]; intros acc H; [exact H|]. cbn [fold_left]. apply IH.
  destruct (existsb (Nat.eqb c) acc) eqn:E; [exact H|].
  apply NoDup_Add with (a := c) (l := acc); [|split; [exact H|]].
  - pose proof (Add_app c acc []) as A. rewrite app_nil_r in A. exact A.
  - intro I. apply nmemb_In in I. unfold nmemb in I. congruence.
Qed.
Lemma fold_first_In l x : forall acc, In x (fold_left (fun acc c => if existsb (Nat.eqb c) acc then acc else acc ++ [c]) l acc) <->
  In x acc \/ In x l.
Proof.
  induction l as [|c l IH]; intros acc; cbn [fold_left]; [split; [auto|intros [H|[]]; exact H]|].
  rewrite IH. cbn [In]. destruct (existsb (Nat.eqb c) acc) eqn:E.
  - apply nmemb_In in E. split; [tauto|]. intros [H|[<- |H]]; auto.
  - rewrite in_app_iff. cbn [In]. tauto.
Qed.

Lemma merged_In ls c cs : In (c, cs) (merged_constraint ls) ->
  exists ss, In (c, ss) (init_constraint ls) /\ cs = merge_constraint ss.
Proof.
  unfold merged_constraint. rewrite in_map_iff. intros ([c' ss] & E & I). cbn [fst snd] in E.
  injection E as <- <-. eauto.
Qed.
Lemma merged_keys ls : map fst (merged_constraint ls) = map fst (init_constraint ls).
Proof. unfold merged_constraint. rewrite map_map. reflexivity. Qed.
Lemma init_keys ls : map fst (init_constraint ls) =
  fold_left (fun acc c => if existsb (Nat.eqb c) acc then acc else acc ++ [c]) (map fst (all_entries ls)) [].
Proof. rewrite init_constraint_flat. apply (init_entries (all_entries ls) []). Qed.
Lemma init_keys_NoDup ls : NoDup (map fst (init_constraint ls)).
Proof. rewrite init_keys. apply fold_first_NoDup. constructor. Qed.
Lemma init_In ls c ss : In (c, ss) (init_constraint ls) -> forall s,
  In s ss <-> exists l r row, In l ls /\ In (c, r) (pl_rows l) /\ In row r /\ In s row.
Proof.
  intros I s. apply (dget_NoDup _ _ _ (init_keys_NoDup ls)) in I.
  assert (E : dgetd [] c (init_constraint ls) = ss) by (unfold dgetd; rewrite I; reflexivity).
  rewrite <- E, init_constraint_flat. destruct (init_entries (all_entries ls) []) as [_ K].
  cbv zeta in K. rewrite K. unfold all_entries. cbn [dgetd dget In]. split.
  - intros [[]|(r & row & H & R & S')]. apply in_concat in H. destruct H as (x & X & H).
    apply in_map_iff in X. destruct X as (l & <- & L). exists l, r, row. auto.
  - intros (l & r & row & L & H & R & S'). right. exists r, row. split; [|auto].
    apply in_concat. exists (pl_rows l). split; [apply in_map; exact L|exact H].
Qed.

(** ** Merged channels do depend on each other *)
Section Sound.
  Variable sg : subgraph.
  Variable ls : list pleaf.
  Hypothesis Prep : omap (prep_leaf (sg_mods sg)) (sg_leaves sg) = Some ls.
  Hypothesis Pure : forall l c i s, records sg l c i s -> In (-1)%Z s -> forall x, In x s -> x = (-1)%Z.

  Definition pfed (l : pleaf) (c : nat) (i j : Z) : Prop :=
    exists r row, In (c, r) (pl_rows l) /\ In row r /\ (0 <= i)%Z /\ In j (nth (Z.to_nat i) row []) /\ j <> (-1)%Z.
  Definition dep := clos_refl_trans (nat * Z) (depend sg).

  Lemma prep_records (l : pleaf) c r row i : In l ls -> In (c, r) (pl_rows l) -> In row r -> (0 <= i < Z.of_nat (length row))%Z ->
    exists l0, records sg l0 c i (nth (Z.to_nat i) row []) /\ prep_leaf (sg_mods sg) l0 = Some l.
  Proof.
    intros L R W B. apply (proj1 (omap_In _ _ _ Prep l)) in L. destruct L as (l0 & I0 & E).
    exists l0. split; [|exact E]. unfold prep_leaf in E.
    destruct (lf_dims l0) as [|[dim d] [|]] eqn:D; try discriminate. injection E as <-. cbn [pl_rows] in R.
    apply filter_In in R. destruct R as [R M]. cbn [fst] in M. apply nmemb_In in M.
    split; [exact I0|]. split; [exact M|]. exists dim, d, r, row. auto.
  Qed.

  Lemma nth_In_bound (row : list pset) i j : (0 <= i)%Z -> In j (nth (Z.to_nat i) row []) -> (0 <= i < Z.of_nat (length row))%Z.
  Proof.
    intros B I. split; [exact B|]. destruct (Nat.lt_ge_cases (Z.to_nat i) (length row)) as [H|H]; [lia|].
    rewrite nth_overflow in I by exact H. destruct I.
  Qed.

  Lemma pfed_depend l c i j c' j' : In l ls -> pfed l c i j -> pfed l c' i j' -> depend sg (c, j) (c', j').
  Proof.
    intros L (r & row & R & W & B & J & N) (r' & row' & R' & W' & B' & J' & N').
    destruct (prep_records l c r row i L R W (nth_In_bound _ _ _ B J)) as (l0 & Rec & E).
    destruct (prep_records l c' r' row' i L R' W' (nth_In_bound _ _ _ B' J')) as (l1 & Rec' & E').
    exists l0, i. cbn [fst snd]. split.
    - exists (nth (Z.to_nat i) row []). auto.
    - exists (nth (Z.to_nat i) row' []). split; [|auto].
      destruct Rec as (I0 & _ & dim & d & _ & _ & D0 & _).
      destruct Rec' as (I1 & M & dim1 & d1 & r1 & row1 & D1 & R1 & W1 & B1 & E1).
      split; [exact I0|]. split; [exact M|].
      assert (E2 : pl_rows l = filter (fun e => nmemb (fst e) (sg_mods sg)) d).
      { unfold prep_leaf in E. rewrite D0 in E. injection E as <-. reflexivity. }
      rewrite E2 in R'. apply filter_In in R'. exists dim, d, r', row'.
      repeat split; try tauto; try apply (nth_In_bound _ _ _ B' J').
  Qed.

  (** the constraints of a center *)
  Definition sound_sets (c : nat) (cs : list pset) : Prop :=
    forall s x y, In s cs -> In x s -> In y s -> (x = (-1)%Z <-> y = (-1)%Z) /\ (x <> (-1)%Z -> dep (c, x) (c, y)).

  Lemma sound_merge c cs : sound_sets c cs -> sound_sets c (merge_constraint cs).
  Proof.
    intros H s x y I X Y. destruct (merge_constraint_correct cs) as (_ & _ & _ & C).
    destruct (proj1 (C x y)) as (_ & L); [eauto|].
    assert (Sub : forall cs' z, In z (remove_first [(-1)%Z] cs') -> In z cs').
    { induction cs' as [|a cs' IH]; intros z Z'; [destruct Z'|]. cbn [remove_first] in Z'.
      destruct (set_eqb _ _); [now right|]. destruct Z' as [<- |Z']; [now left|right; auto]. }
    clear I X Y. induction L as [x y (t & It & X & Y)|x|x y z _ [IH1 IH1'] _ [IH2 IH2']].
    - apply (H t); auto.
    - split; [tauto|]. intros _. apply rt_refl.
    - split; [tauto|]. intro N. eapply rt_trans; [apply IH1'; exact N|apply IH2'; tauto].
  Qed.

  Definition lrel (l : pleaf) (i i' : Z) : Prop :=
    exists c j c' j', pfed l c i j /\ pfed l c' i' j' /\ dep (c, j) (c', j').

  Lemma lrel_merge l sets : In l ls -> (forall s x y, In s sets -> In x s -> In y s -> lrel l x y) ->
    forall s x y, In s (merge_constraint sets) -> In x s -> In y s -> lrel l x y.
  Proof.
    intros L H s x y I X Y. destruct (merge_constraint_correct sets) as (_ & _ & B & C).
    destruct (proj1 (C x y)) as (Cov & Lk); [eauto|].
    assert (Sub : forall cs' z, In z (remove_first [(-1)%Z] cs') -> In z cs').
    { induction cs' as [|a cs' IH]; intros z Z'; [destruct Z'|]. cbn [remove_first] in Z'.
      destruct (set_eqb _ _); [now right|]. destruct Z' as [<- |Z']; [now left|right; auto]. }
    assert (Rx : lrel l x x) by (destruct Cov as (t & It & Xt); eauto).
    clear I X Y Cov B C. apply clos_rt_rtn1 in Lk. induction Lk as [|y z (t & It & Yt & Zt) _ IH]; [exact Rx|].
    destruct IH as (c & j & c' & j' & F & F' & D). destruct (H t y z) as (d & k & d' & k' & G & G' & D'); auto.
    exists c, j, d', k'. split; [exact F|]. split; [exact G'|].
    eapply rt_trans; [exact D|]. eapply rt_trans; [|exact D']. apply rt_step. eapply pfed_depend; eauto.
  Qed.

  Lemma init_sound c cs : In (c, cs) (merged_constraint ls) -> sound_sets c cs.
  Proof.
    intro I. apply merged_In in I. destruct I as (ss & I & ->). apply sound_merge.
    intros s x y S' X Y. apply (init_In _ _ _ I) in S'. destruct S' as (l & r & row & L & R & W & S').
    destruct (@In_nth pset row s [] S') as (i & Li & Ei).
    assert (Bi : (0 <= Z.of_nat i < Z.of_nat (length row))%Z) by (split; [lia|apply (proj1 (Nat2Z.inj_lt _ _)); exact Li]).
    destruct (prep_records l c r row (Z.of_nat i) L R W Bi) as (l0 & Rec & E0).
    rewrite Nat2Z.id in Rec. rewrite Ei in Rec.
    assert (Q : forall a b, In a s -> In b s -> a = (-1)%Z -> b = (-1)%Z).
    { intros a b A B E. subst a. eapply Pure; eauto. }
    split; [split; apply Q; auto|]. intro N. apply rt_step. exists l0, (Z.of_nat i). cbn [fst snd].
    split; exists s; (split; [exact Rec|]); split; auto. intro E. apply N. apply (Q y x); auto.
  Qed.

  Lemma constraints_sound cc : center_constraints ls = Some cc ->
    forall c s x y, In s (dgetd [] c cc) -> In x s -> In y s -> x <> (-1)%Z -> dep (c, x) (c, y).
  Proof.
    intros HC. apply (agg_invariant sound_sets ls ls) in HC; auto.
    - destruct HC as [_ HC]. intros c s x y S' X Y N. unfold dgetd in S'. destruct (dget c cc) as [cs|] eqn:E; [|destruct S'].
      apply dget_In in E. apply (HC _ _ E s x y S' X Y). exact N.
    - intros l cc0 c r old ts L Q U R O B. apply sound_merge. intros s x y S' X Y.
      apply in_app_iff in S'. destruct S' as [S'|S']; [apply (O s); auto|].
      destruct (back_sets_In _ _ _ B s S') as (m & u & M & T & ->).
      apply filter_In in X. apply filter_In in Y. destruct X as [X NX]. destruct Y as [Y NY].
      apply negb_true_iff, Z.eqb_neq in NX. apply negb_true_iff, Z.eqb_neq in NY. split; [tauto|]. intros _.
      destruct (to_center_In _ _ _ T) as [Bd TC]. apply TC in X. apply TC in Y.
      destruct X as (i & row & I1 & W & X). destruct Y as (i' & row' & I2 & W' & Y).
      assert (LR : lrel l i i').
      { apply (lrel_merge l (leaf_sets l cc0) L) with (s := m); auto.
        intros t a b Tt A B'. apply leaf_sets_In in Tt. destruct Tt as (c1 & cs & r1 & s1 & I & R1 & S1 & ->).
        apply to_leaf_In in A. apply to_leaf_In in B'.
        destruct A as (j & J & NJ & BA & row1 & W1 & J1). destruct B' as (j' & J' & NJ' & BB & row2 & W2 & J2).
        exists c1, j, c1, j'. split; [exists r1, row1; split; [exact R1|split; [exact W1|split; [apply BA|split; [exact J1|exact NJ]]]]|].
        split; [exists r1, row2; split; [exact R1|split; [exact W2|split; [apply BB|split; [exact J2|exact NJ']]]]|]. apply (Q _ _ I s1 j j'); auto. }
      destruct LR as (c1 & j1 & c2 & j2 & F1 & F2 & D).
      eapply rt_trans; [apply rt_step; apply (pfed_depend l c i x c1 j1 L); auto|].
      + exists r, row. repeat split; auto. apply Bd; auto.
      + eapply rt_trans; [exact D|]. apply rt_step. apply (pfed_depend l c2 i' j2 c y L); auto.
        exists r, row'. repeat split; auto. apply Bd; auto.
    - rewrite merged_keys. apply init_keys_NoDup.
    - apply init_sound.
  Qed.
End Sound.

Lemma constraints_sound_all sg ls cc :
  omap (prep_leaf (sg_mods sg)) (sg_leaves sg) = Some ls ->
  (forall l c i s, records sg l c i s -> In (-1)%Z s -> forall x, In x s -> x = (-1)%Z) ->
  center_constraints ls = Some cc ->
  forall c s x y, In s (dgetd [] c cc) -> In x s -> In y s -> x <> (-1)%Z ->
  clos_refl_trans (nat * Z) (depend sg) (c, x) (c, y).
Proof. intros P U C c s x y. exact (constraints_sound sg ls P U cc C c s x y). Qed.
