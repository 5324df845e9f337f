(** Proofs about the removed channels of networks whose channels fall into labelled classes. *)
From Coq Require Import List Arith Bool ZArith QArith Lia Relations Permutation.
From Verif Require Import PruneModel FuseModel MergeProofs PruneIdxModel PruneIdxSpec PruneIdxProofs.
Import ListNotations.
Local Open Scope nat_scope.

Lemma survey_In cc st l calc pruned open : survey cc st l = (calc, pruned, open) ->
  (forall t, In t calc <-> exists c cs r s, In (c, cs) cc /\ dget c (pl_rows l) = Some r /\ In s cs /\ t = to_leaf r s /\
     subset s (dgetd [] c (ps_calc st)) = true) /\
  (forall t, In t pruned <-> exists c cs r s, In (c, cs) cc /\ dget c (pl_rows l) = Some r /\ In s cs /\ t = to_leaf r s /\
     subset s (dgetd [] c (ps_calc st)) = true /\ t <> [] /\ subset s (dgetd [] c (ps_center st)) = true) /\
  (forall t, In t open <-> exists c cs r s, In (c, cs) cc /\ dget c (pl_rows l) = Some r /\ In s cs /\ t = to_leaf r s /\
     subset s (dgetd [] c (ps_calc st)) = false /\ t <> []).
Proof.
  unfold survey.
  set (F := fun c r (acc : list pset * list pset * list pset) s =>
            let '(calc, pruned, open) := acc in
            let t := to_leaf r s in
            if subset s (dgetd [] c (ps_calc st)) then
              (calc ++ [t], (if nonempty t && subset s (dgetd [] c (ps_center st)) then pruned ++ [t] else pruned), open)
            else (calc, pruned, if nonempty t then open ++ [t] else open)).
  assert (In1 : forall c r cs a b d a' b' d', fold_left (F c r) cs (a, b, d) = (a', b', d') ->
    (forall t, In t a' <-> In t a \/ exists s, In s cs /\ t = to_leaf r s /\ subset s (dgetd [] c (ps_calc st)) = true) /\
    (forall t, In t b' <-> In t b \/ exists s, In s cs /\ t = to_leaf r s /\ subset s (dgetd [] c (ps_calc st)) = true /\
       t <> [] /\ subset s (dgetd [] c (ps_center st)) = true) /\
    (forall t, In t d' <-> In t d \/ exists s, In s cs /\ t = to_leaf r s /\ subset s (dgetd [] c (ps_calc st)) = false /\ t <> [])).
  { intros c r. induction cs as [|s cs IH]; intros a b d a' b' d' E; cbn [fold_left] in E.
    - injection E as <- <- <-. split; [|split]; intro t; (split; [auto|intros [H|(s & [] & _)]; exact H]).
    - unfold F at 2 in E. cbv beta iota zeta in E. destruct (subset s (dgetd [] c (ps_calc st))) eqn:S1.
      + apply IH in E. destruct E as (E1 & E2 & E3). split; [|split]; intro t.
        * rewrite E1, in_app_iff. cbn [In]. split.
          -- intros [[H|[<- |[]]]|(s' & I & H)]; [auto|right; exists s; auto|right; exists s'; tauto].
          -- intros [H|(s' & [<- |I] & -> & H)]; [auto|auto|right; exists s'; auto].
        * rewrite E2. destruct (nonempty (to_leaf r s) && subset s (dgetd [] c (ps_center st))) eqn:S2.
          -- apply andb_true_iff in S2. destruct S2 as [S2 S3]. apply nonempty_iff in S2. rewrite in_app_iff. cbn [In]. split.
             ++ intros [[H|[<- |[]]]|(s' & I & H)]; [auto|right; exists s; auto|right; exists s'; tauto].
             ++ intros [H|(s' & [<- |I] & -> & H)]; [auto|auto|right; exists s'; auto].
          -- apply andb_false_iff in S2. cbn [In]. split.
             ++ intros [H|(s' & I & H)]; [auto|right; exists s'; tauto].
             ++ intros [H|(s' & [<- |I] & -> & H)]; [auto| |right; exists s'; auto].
                exfalso. destruct H as (_ & H1 & H2). apply nonempty_iff in H1. destruct S2; congruence.
        * rewrite E3. cbn [In]. split.
          -- intros [H|(s' & I & H)]; [auto|right; exists s'; tauto].
          -- intros [H|(s' & [<- |I] & -> & H)]; [auto| |right; exists s'; auto]. exfalso. destruct H. congruence.
      + apply IH in E. destruct E as (E1 & E2 & E3). split; [|split]; intro t.
        * rewrite E1. cbn [In]. split.
          -- intros [H|(s' & I & H)]; [auto|right; exists s'; tauto].
          -- intros [H|(s' & [<- |I] & -> & H)]; [auto|congruence|right; exists s'; auto].
        * rewrite E2. cbn [In]. split.
          -- intros [H|(s' & I & H)]; [auto|right; exists s'; tauto].
          -- intros [H|(s' & [<- |I] & -> & H)]; [auto| |right; exists s'; auto]. exfalso. destruct H. congruence.
        * rewrite E3. destruct (nonempty (to_leaf r s)) eqn:S2.
          -- apply nonempty_iff in S2. rewrite in_app_iff. cbn [In]. split.
             ++ intros [[H|[<- |[]]]|(s' & I & H)]; [auto|right; exists s; auto|right; exists s'; tauto].
             ++ intros [H|(s' & [<- |I] & -> & H)]; [auto|auto|right; exists s'; auto].
          -- cbn [In]. split.
             ++ intros [H|(s' & I & H)]; [auto|right; exists s'; tauto].
             ++ intros [H|(s' & [<- |I] & -> & H)]; [auto| |right; exists s'; auto].
                exfalso. destruct H as (_ & H1). apply nonempty_iff in H1. congruence. }
  set (Gf := fun acc (e : nat * list pset) => match dget (fst e) (pl_rows l) with
      | None => acc | Some r => fold_left (F (fst e) r) (snd e) acc end).
  assert (In2 : forall cc a b d a' b' d', fold_left Gf cc (a, b, d) = (a', b', d') ->
    (forall t, In t a' <-> In t a \/ exists c cs r s, In (c, cs) cc /\ dget c (pl_rows l) = Some r /\ In s cs /\ t = to_leaf r s /\
       subset s (dgetd [] c (ps_calc st)) = true) /\
    (forall t, In t b' <-> In t b \/ exists c cs r s, In (c, cs) cc /\ dget c (pl_rows l) = Some r /\ In s cs /\ t = to_leaf r s /\
       subset s (dgetd [] c (ps_calc st)) = true /\ t <> [] /\ subset s (dgetd [] c (ps_center st)) = true) /\
    (forall t, In t d' <-> In t d \/ exists c cs r s, In (c, cs) cc /\ dget c (pl_rows l) = Some r /\ In s cs /\ t = to_leaf r s /\
       subset s (dgetd [] c (ps_calc st)) = false /\ t <> [])).
  { clear calc pruned open. induction cc0 as [|[c cs] cc0 IH]; intros a b d a' b' d' E; cbn [fold_left] in E.
    - injection E as <- <- <-. split; [|split]; intro t; (split; [auto|intros [H|(c & cs & r & s & [] & _)]; exact H]).
    - unfold Gf at 2 in E. cbn [fst snd] in E. destruct (dget c (pl_rows l)) as [r|] eqn:Dc.
      + destruct (fold_left (F c r) cs (a, b, d)) as [[a1 b1] d1] eqn:E0. apply In1 in E0. apply IH in E.
        destruct E0 as (X1 & X2 & X3). destruct E as (Y1 & Y2 & Y3).
        split; [|split]; intro t; [rewrite Y1, X1|rewrite Y2, X2|rewrite Y3, X3]; split.
        all: try (intros [[H|(s & H)]|(c' & cs' & r' & s & I & H)];
             [auto|right; exists c, cs, r, s; cbn [In]; tauto|right; exists c', cs', r', s; cbn [In]; tauto]).
        all: intros [H|(c' & cs' & r' & s & [E|I] & D' & H)];
             [auto| injection E as <- <-; left; right; rewrite Dc in D'; injection D' as <-; exists s; tauto
             |right; exists c', cs', r', s; tauto].
      + apply IH in E. destruct E as (Y1 & Y2 & Y3).
        split; [|split]; intro t; [rewrite Y1|rewrite Y2|rewrite Y3]; split.
        all: try (intros [H|(c' & cs' & r' & s & I & H)]; [auto|right; exists c', cs', r', s; cbn [In]; tauto]).
        all: intros [H|(c' & cs' & r' & s & [E|I] & D' & H)];
             [auto| injection E as <- <-; congruence |right; exists c', cs', r', s; tauto]. }
  intro E. apply (In2 cc [] [] []) in E. destruct E as (E1 & E2 & E3). cbn [In] in *.
  split; [|split]; intro t; [rewrite E1|rewrite E2|rewrite E3]; tauto.
Qed.

Lemma prune_group_nil sp busy r st group : prune_group sp busy r [] st group = Some st.
Proof. reflexivity. Qed.
Lemma prune_groups_nil sp busy r gs st : ofold (prune_group sp busy r []) gs st = Some st.
Proof. induction gs as [|g gs IH]; [reflexivity|]. cbn [ofold]. rewrite prune_group_nil. exact IH. Qed.

Lemma ins_imp_In x y l : In y (ins_imp x l) <-> y = x \/ In y l.
Proof.
  induction l as [|z l IH]; cbn [ins_imp In]; [intuition auto|].
  destruct (Qle_bool _ _); cbn [In]; [intuition auto|]. rewrite IH. intuition auto.
Qed.
Lemma sort_imp_In y l : In y (sort_imp l) <-> In y l.
Proof.
  induction l as [|x l IH]; [reflexivity|]. unfold sort_imp in *. cbn [fold_right In]. rewrite ins_imp_In, IH. intuition auto.
Qed.
Lemma take_In sp total delta busy r : forall l cur taken out,
  take_constraints sp total delta cur busy r taken l = Some out -> forall s, In s out -> exists q, In (s, q) l.
Proof.
  induction l as [|[s0 q0] l IH]; intros cur taken out H s S'; cbn [take_constraints] in H.
  - injection H as <-. destruct S'.
  - destruct (Qle_bool sp cur); [injection H as <-; destruct S'|].
    apply obind_Some in H. destruct H as (stop & _ & H). destruct stop; [injection H as <-; destruct S'|].
    apply obind_Some in H. destruct H as (t & T & H). injection H as <-. destruct S' as [<- |S'].
    + exists q0. now left.
    + destruct (IH _ _ _ T s S') as (q & I). exists q. now right.
Qed.
Lemma prune_groups_In sp busy r li gs : forall st st', ofold (prune_group sp busy r li) gs st = Some st' ->
  forall s, In s (snd st') -> In s (snd st) \/ exists q, In (s, q) li.
Proof.
  induction gs as [|g gs IH]; intros st st' H s S'; cbn [ofold] in H.
  - injection H as <-. auto.
  - apply obind_Some in H. destruct H as (st1 & H1 & H). destruct (IH _ _ H s S') as [H2|H2]; [|auto].
    unfold prune_group in H1. cbv zeta in H1. set (valid := filter _ li) in H1.
    destruct (forallb _ valid); [|discriminate].
    assert (V : forall e, In e valid -> In e li) by (intros e E; apply filter_In in E; tauto).
    destruct valid as [|v vs]; [injection H1 as <-; auto|].
    apply obind_Some in H1. destruct H1 as (t & T & H1). injection H1 as <-. cbn [snd] in H2.
    apply in_app_iff in H2. destruct H2 as [H2|H2]; [auto|].
    destruct (take_In _ _ _ _ _ _ _ _ _ T s H2) as (q & I). apply (proj1 (sort_imp_In _ _)) in I. right. exists q. auto.
Qed.

Section Lab.
  Variable ls : list pleaf.
  Variable n : nat.
  Variable kap lam : nat -> Z -> Z.
  Variable wl : pleaf -> nat.
  Definition dom (j : Z) : Prop := (0 <= j < Z.of_nat n)%Z.
  Definition ldom (l : pleaf) (i : Z) : Prop := (0 <= i < Z.of_nat (wl l))%Z.
  Hypothesis Hn : 0 < n.
  Hypothesis Names : NoDup (map pl_name ls).
  Hypothesis Real : forall l, In l ls -> pl_real l = true.
  Hypothesis Some_center : forall l, In l ls -> exists c r, In (c, r) (pl_rows l).
  Hypothesis Keys : forall l, In l ls -> NoDup (map fst (pl_rows l)).
  Hypothesis Width : forall l c r, In l ls -> In (c, r) (pl_rows l) -> width r = wl l.
  Hypothesis Fed : forall l c r row i j, In l ls -> In (c, r) (pl_rows l) -> In row r ->
    In j (nth (Z.to_nat i) row []) -> (0 <= i)%Z -> ldom l i /\ dom j /\ kap c j = lam (pl_name l) i.
  Hypothesis Feeds : forall l c r i, In l ls -> In (c, r) (pl_rows l) -> ldom l i ->
    exists row j, In row r /\ In j (nth (Z.to_nat i) row []).
  Hypothesis Cover : forall l c r j, In l ls -> In (c, r) (pl_rows l) -> dom j ->
    exists row i, In row r /\ (0 <= i)%Z /\ In j (nth (Z.to_nat i) row []).
  Hypothesis Tied : forall l c r a b, In l ls -> In (c, r) (pl_rows l) -> dom a -> dom b -> kap c a = kap c b ->
    clos_refl_trans Z (fun a b => exists l r row s, In l ls /\ In (c, r) (pl_rows l) /\ In row r /\ In s row /\ In a s /\ In b s) a b.

  Lemma dom_none j : dom j -> j <> (-1)%Z. Proof. unfold dom. lia. Qed.
  Lemma ldom_none l j : ldom l j -> j <> (-1)%Z. Proof. unfold ldom. lia. Qed.

  (** a class of a center gives the class of the leaf with the same label *)
  Lemma to_leaf_class l c r s k : In l ls -> In (c, r) (pl_rows l) ->
    (forall j, In j s <-> dom j /\ kap c j = k) ->
    forall i, In i (to_leaf r s) <-> ldom l i /\ lam (pl_name l) i = k.
  Proof.
    intros L R H i. rewrite to_leaf_In. split.
    - intros (j & J & _ & B & row & W & J'). apply H in J.
      destruct (Fed l c r row i j L R W J' (proj1 B)) as (B' & _ & E). split; [exact B'|]. rewrite <- E. apply J.
    - intros [B E]. destruct (Feeds l c r i L R B) as (row & j & W & J).
      destruct (Fed l c r row i j L R W J (proj1 B)) as (_ & Dj & E'). exists j.
      split; [apply H; split; [exact Dj|congruence]|]. split; [apply dom_none, Dj|].
      split; [rewrite (Width l c r L R); exact B|]. eauto.
  Qed.
  Lemma to_leaf_nonempty l c r s : In l ls -> In (c, r) (pl_rows l) ->
    (forall j, In j s -> dom j) -> s <> [] -> to_leaf r s <> [].
  Proof.
    intros L R H N. destruct s as [|j s]; [congruence|].
    destruct (Cover l c r j L R (H j (or_introl eq_refl))) as (row & i & W & B & J).
    assert (I : In i (to_leaf r (j :: s))).
    { apply to_leaf_In. exists j. split; [now left|]. split; [apply dom_none, H; now left|].
      split; [|eauto]. rewrite (Width l c r L R). apply (Fed l c r row i j L R W J B). }
    intro E. rewrite E in I. destruct I.
  Qed.
  Lemma to_center_lab l c r s t : In l ls -> In (c, r) (pl_rows l) -> to_center r s = Some t ->
    forall j, In j t <-> dom j /\ exists i row, In i s /\ In row r /\ In j (nth (Z.to_nat i) row []) /\ kap c j = lam (pl_name l) i.
  Proof.
    intros L R T j. destruct (to_center_In _ _ _ T) as [B TC]. rewrite TC. split.
    - intros (i & row & I & W & J). destruct (Fed l c r row i j L R W J (proj1 (B i I))) as (_ & Dj & E). eauto 10.
    - intros (_ & i & row & I & W & J & _). eauto.
  Qed.

  Definition LabQ (c : nat) (cs : list pset) : Prop := classes dom (kap c) cs.

  Lemma init_Q c cs : In (c, cs) (merged_constraint ls) -> LabQ c cs.
  Proof.
    intro I. apply merged_In in I. destruct I as (ss & I & ->).
    assert (Key : exists l r, In l ls /\ In (c, r) (pl_rows l)).
    { assert (K : In c (map fst (init_constraint ls))) by (apply in_map_iff; exists (c, ss); auto).
      rewrite init_keys in K. apply fold_first_In in K. destruct K as [[]|K].
      apply in_map_iff in K. destruct K as ([c' r] & E & K). cbn [fst] in E. subst c'.
      apply in_concat in K. destruct K as (x & X & K). apply in_map_iff in X. destruct X as (l & <- & L). eauto. }
    destruct Key as (l0 & r0 & L0 & R0).
    assert (El : forall s x, In s ss -> In x s -> exists l i, In l ls /\ dom x /\ kap c x = lam (pl_name l) i /\
                   forall y, In y s -> kap c y = lam (pl_name l) i).
    { intros s x S' X. apply (init_In _ _ _ I) in S'. destruct S' as (l & r & row & L & R & W & S').
      destruct (@In_nth pset row s [] S') as (i & Li & Ei).
      assert (G : forall y, In y s -> dom y /\ kap c y = lam (pl_name l) (Z.of_nat i)).
      { intros y Y. destruct (Fed l c r row (Z.of_nat i) y L R W) as (_ & Dy & Ky);
          [rewrite Nat2Z.id, Ei; exact Y|lia|auto]. }
      exists l, (Z.of_nat i). destruct (G x X) as [G1 G2]. split; [exact L|]. split; [exact G1|]. split; [exact G2|].
      intros y Y. apply G, Y. }
    apply merge_classes.
    - intros s x S' X. destruct (El s x S' X) as (l & i & _ & Dx & _). split; [exact Dx|apply dom_none, Dx].
    - intros s x y S' X Y. destruct (El s x S' X) as (l & i & _ & _ & E & G). rewrite E, (G y Y). reflexivity.
    - intros x Dx. destruct (Cover l0 c r0 x L0 R0 Dx) as (row & i & W & B & J).
      exists (nth (Z.to_nat i) row []). split; [|exact J]. apply (init_In _ _ _ I). exists l0, r0, row.
      repeat split; auto. apply nth_In. destruct (Nat.lt_ge_cases (Z.to_nat i) (length row)) as [H|H]; [exact H|].
      rewrite nth_overflow in J by exact H. destruct J.
    - intros x y Dx Dy E. pose proof (Tied l0 c r0 x y L0 R0 Dx Dy E) as T.
      clear Dx Dy E. induction T as [x y (l & r & row & s & L & R & W & S' & X & Y)|x|x y z _ IH1 _ IH2].
      + apply rt_step. exists s. split; [|auto]. apply (init_In _ _ _ I). exists l, r, row. auto.
      + apply rt_refl.
      + eapply rt_trans; eassumption.
  Qed.

  Lemma agg_Q cc : center_constraints ls = Some cc ->
    map fst cc = map fst (init_constraint ls) /\ (forall c cs, In (c, cs) cc -> LabQ c cs).
  Proof.
    intro H. rewrite <- merged_keys. apply (agg_invariant LabQ ls ls) in H; auto.
    - intros l cc0 c r old ts L HQ U R HO B. destruct HO as [O1 O2]. 
      assert (MP : forall s, In s (merge_constraint (leaf_sets l cc0)) ->
        (forall i, In i s -> ldom l i /\ i <> (-1)%Z) /\ (forall x y, In x s -> In y s -> lam (pl_name l) x = lam (pl_name l) y)).
      { apply merge_pure.
        - intros s x S' X. apply leaf_sets_In in S'. destruct S' as (c1 & cs & r1 & s1 & I & R1 & S1 & ->).
          destruct (HQ _ _ I) as [C1 _]. destruct (C1 s1 S1) as (_ & k & Hk).
          apply (to_leaf_class l c1 r1 s1 k L R1 Hk) in X. split; [apply X|apply (ldom_none l), X].
        - intros s x y S' X Y. apply leaf_sets_In in S'. destruct S' as (c1 & cs & r1 & s1 & I & R1 & S1 & ->).
          destruct (HQ _ _ I) as [C1 _]. destruct (C1 s1 S1) as (_ & k & Hk).
          apply (to_leaf_class l c1 r1 s1 k L R1 Hk) in X. apply (to_leaf_class l c1 r1 s1 k L R1 Hk) in Y.
          destruct X, Y. congruence. }
      assert (TS : forall t, In t ts -> exists k, forall j, In j t -> dom j /\ kap c j = k).
      { intros t It. destruct (back_sets_In _ _ _ B t It) as (s & u & S' & T & ->).
        destruct (MP s S') as [M1 M2]. destruct s as [|i0 s'] eqn:Es.
        - exists 0%Z. intros j J. apply filter_In in J. destruct J as [J _].
          apply (to_center_lab l c r [] u L R T) in J. destruct J as (_ & i & row & [] & _).
        - rewrite <- Es in *. exists (lam (pl_name l) i0). intros j J. apply filter_In in J. destruct J as [J _].
          apply (to_center_lab l c r s u L R T) in J. destruct J as (Dj & i & row & I & _ & _ & E).
          split; [exact Dj|]. rewrite E. apply M2; [exact I|]. rewrite Es. now left. }
      apply merge_classes.
      + intros s x S' X. apply in_app_iff in S'.
        assert (Dx : dom x); [|split; [exact Dx|apply dom_none, Dx]].
        destruct S' as [S'|S'].
        * destruct (O1 s S') as (_ & k & Hk). apply Hk. exact X.
        * destruct (TS s S') as (k & Hk). apply (Hk x X).
      + intros s x y S' X Y. apply in_app_iff in S'. destruct S' as [S'|S'].
        * destruct (O1 s S') as (_ & k & Hk). apply Hk in X. apply Hk in Y. destruct X, Y. congruence.
        * destruct (TS s S') as (k & Hk). destruct (Hk x X), (Hk y Y). congruence.
      + intros x Dx. destruct (O2 x Dx) as (s & S' & X). exists s. split; [apply in_app_iff; auto|exact X].
      + intros x y Dx Dy E. destruct (O2 x Dx) as (s & S' & X). apply rt_step. exists s.
        split; [apply in_app_iff; auto|]. split; [exact X|]. destruct (O1 s S') as (_ & k & Hk).
        apply Hk. apply Hk in X. destruct X. split; [exact Dy|congruence].
    - rewrite merged_keys. apply init_keys_NoDup.
    - apply init_Q.
  Qed.

  (** every center has [n] channels: the stable sort changes nothing *)
  Lemma card_classes c cs : LabQ c cs -> card (concat cs) = n.
  Proof.
    intros [A B]. unfold card.
    assert (P : Permutation (nodup Z.eq_dec (concat cs)) (map Z.of_nat (seq 0 n))).
    { apply NoDup_Permutation.
      - apply NoDup_nodup.
      - apply FinFun.Injective_map_NoDup; [intros a b; apply Nat2Z.inj|apply seq_NoDup].
      - intro x. rewrite nodup_In, in_concat, in_map_iff. split.
        + intros (s & S' & X). destruct (A s S') as (_ & k & Hk). apply Hk in X. destruct X as [[X1 X2] _].
          exists (Z.to_nat x). split; [lia|]. apply in_seq. lia.
        + intros (i & <- & I). apply in_seq in I. destruct (B (Z.of_nat i)) as (s & S' & X); [unfold dom; lia|]. eauto. }
    rewrite (Permutation_length P), map_length, seq_length. reflexivity.
  Qed.
  Lemma center_list_id cc : (forall c cs, In (c, cs) cc -> LabQ c cs) -> center_list cc = map fst cc.
  Proof.
    intro H. unfold center_list.
    assert (E : map (fun e => (card (concat (snd e)), fst e)) cc = map (fun e => (n, fst e)) cc).
    { apply map_ext_in. intros [c cs] I. cbn [fst snd]. rewrite (card_classes c cs (H _ _ I)). reflexivity. }
    rewrite E. clear E H.
    assert (G : fold_right ins_center [] (map (fun e => (n, fst e)) cc) = map (fun e => (n, fst e)) cc).
    { induction cc as [|e cc IH]; [reflexivity|]. cbn [map fold_right]. rewrite IH.
      destruct cc as [|e' cc']; [reflexivity|]. cbn [map ins_center fst]. rewrite Nat.leb_refl. reflexivity. }
    rewrite G, map_map. reflexivity.
  Qed.

  (** *** The visits *)
  Variable cc : list (nat * list pset).
  Hypothesis CQ : forall c cs, In (c, cs) cc -> LabQ c cs.
  Hypothesis CK : NoDup (map fst cc).
  Hypothesis CC : forall l c r, In l ls -> In (c, r) (pl_rows l) -> exists cs, In (c, cs) cc.

  Definition centers (l : pleaf) : list nat := map fst (pl_rows l).
  (** decided centers *)
  Definition decided (d : Z -> bool) (D : list nat) (st : pstate) : Prop :=
    (forall c, In c D -> (forall j, dom j -> In j (dgetd [] c (ps_calc st))) /\
       (forall j, In j (dgetd [] c (ps_center st)) <-> dom j /\ d (kap c j) = true)) /\
    (forall c, ~ In c D -> dgetd [] c (ps_calc st) = [] /\ dgetd [] c (ps_center st) = []).
  Definition leaf_ok (d : Z -> bool) (st : pstate) (l : pleaf) : Prop :=
    exists ps, dget (pl_name l) (ps_leaf st) = Some ps /\
      forall i, In i (concat ps) <-> ldom l i /\ d (lam (pl_name l) i) = true.

  Lemma leaf_class_exists l c r i : In l ls -> In (c, r) (pl_rows l) -> ldom l i ->
    forall cs, In (c, cs) cc -> exists s k, In s cs /\ s <> [] /\ (forall j, In j s <-> dom j /\ kap c j = k) /\ lam (pl_name l) i = k /\ In i (to_leaf r s).
  Proof.
    intros L R B cs I. destruct (CQ _ _ I) as [A1 A2]. destruct (Feeds l c r i L R B) as (row & j & W & J).
    destruct (Fed l c r row i j L R W J (proj1 B)) as (_ & Dj & E). destruct (A2 j Dj) as (s & S' & Js).
    destruct (A1 s S') as (N & k & Hk). exists s, k. split; [exact S'|]. split; [exact N|]. split; [exact Hk|].
    assert (Ek : lam (pl_name l) i = k) by (apply Hk in Js; destruct Js; congruence).
    split; [exact Ek|]. apply (to_leaf_class l c r s k L R Hk). auto.
  Qed.

  (** sets of a leaf that are images of classes *)
  Lemma images_merge l sets : In l ls ->
    (forall t, In t sets -> exists c r s k, In (c, r) (pl_rows l) /\ (forall j, In j s <-> dom j /\ kap c j = k) /\ t = to_leaf r s) ->
    (forall i, ldom l i -> exists t, In t sets /\ In i t) ->
    classes (ldom l) (lam (pl_name l)) (merge_constraint sets).
  Proof.
    intros L H Cv. 
    assert (P : forall t, In t sets -> exists k, forall i, In i t <-> ldom l i /\ lam (pl_name l) i = k).
    { intros t T. destruct (H t T) as (c & r & s & k & R & Hk & ->). exists k. apply (to_leaf_class l c r s k L R Hk). }
    apply merge_classes.
    - intros s x S' X. destruct (P s S') as (k & Hk). apply Hk in X. split; [apply X|apply (ldom_none l), X].
    - intros s x y S' X Y. destruct (P s S') as (k & Hk). apply Hk in X. apply Hk in Y. destruct X, Y. congruence.
    - exact Cv.
    - intros x y Dx Dy E. destruct (Cv x Dx) as (t & T & X). apply rt_step. exists t. split; [exact T|]. split; [exact X|].
      destruct (P t T) as (k & Hk). apply Hk. apply Hk in X. destruct X. split; [exact Dy|congruence].
  Qed.

  (** passing the decision of a leaf to its centers *)
  Lemma sync_ok d l calc pruned : In l ls ->
    (forall i, ldom l i -> exists t, In t calc /\ In i t) ->
    (forall i, In i (concat pruned) <-> ldom l i /\ d (lam (pl_name l) i) = true) ->
    forall rs D st st', incl rs (pl_rows l) -> decided d D st ->
      ofold (sync_center calc pruned) rs st = Some st' ->
      decided d (D ++ map fst rs) st' /\ ps_leaf st' = ps_leaf st.
  Proof.
    intros L HC HP. induction rs as [|[c r] rs IH]; intros D st st' Inc HD H; cbn [ofold] in H.
    - injection H as <-. cbn [map]. rewrite app_nil_r. auto.
    - apply obind_Some in H. destruct H as (st1 & H1 & H).
      assert (R : In (c, r) (pl_rows l)) by (apply Inc; now left).
      unfold sync_center in H1. cbn [fst snd] in H1.
      apply obind_Some in H1. destruct H1 as (cs & O1 & H1). apply obind_Some in H1. destruct H1 as (ps & O2 & H1).
      injection H1 as <-.
      pose proof (omap_In _ _ _ O1) as I1. pose proof (omap_In _ _ _ O2) as I2.
      destruct HD as [HD1 HD2].
      assert (New : decided d (c :: D) (mkPS (ps_delta st) (ps_leaf st)
        (dset c (fold_left union (filter (fun t => negb (set_eqb t [(-1)%Z])) ps) (dgetd [] c (ps_center st))) (ps_center st))
        (dset c (fold_left union cs (dgetd [] c (ps_calc st))) (ps_calc st)))).
      { assert (Total : forall i, In i (concat calc) \/ In i (concat pruned) -> True) by auto.
        split.
        - intros c' Ic. cbn [ps_calc ps_center]. rewrite !dgetd_dset. destruct (c' =? c) eqn:Ec.
          + apply Nat.eqb_eq in Ec. subst c'. split.
            * intros j Dj. rewrite (fold_union_In (fun x : pset => x) cs). right.
              destruct (Cover l c r j L R Dj) as (row & i & W & B & J).
              destruct (Fed l c r row i j L R W J B) as (Bi & _ & E).
              destruct (HC i Bi) as (t & T & It).
              assert (Ex : exists u, to_center r t = Some u).
              { clear - O1 T. revert cs O1. induction calc as [|a calc IHc]; intros cs O1; [destruct T|].
                cbn [omap] in O1. apply obind_Some in O1. destruct O1 as (u & U & O1). apply obind_Some in O1.
                destruct O1 as (us & Us & _). destruct T as [<- |T]; eauto. }
              destruct Ex as (u & U). exists u. split; [apply I1; eauto|].
              apply (to_center_lab l c r t u L R U). split; [exact Dj|]. exists i, row. auto.
            * intro j. rewrite (fold_union_In (fun x : pset => x)).
              assert (Old : In j (dgetd [] c (ps_center st)) -> dom j /\ d (kap c j) = true).
              { destruct (in_dec Nat.eq_dec c D) as [Y|N]; [apply HD1; exact Y|].
                rewrite (proj2 (HD2 c N)). intros []. }
              split.
              -- intros [O|(u & U & Ju)]; [auto|]. apply filter_In in U. destruct U as [U _]. apply I2 in U.
                 destruct U as (t & T & Ut). apply (to_center_lab l c r t u L R Ut) in Ju.
                 destruct Ju as (Dj & i & row & It & W & J & E). split; [exact Dj|].
                 rewrite E. apply (proj1 (HP i)). apply in_concat. eauto.
              -- intros [Dj dj]. right. destruct (Cover l c r j L R Dj) as (row & i & W & B & J).
                 destruct (Fed l c r row i j L R W J B) as (Bi & _ & E).
                 assert (Ii : In i (concat pruned)) by (apply HP; split; [exact Bi|congruence]).
                 apply in_concat in Ii. destruct Ii as (t & T & It).
                 assert (Ex : exists u, to_center r t = Some u).
                 { clear - O2 T. revert ps O2. induction pruned as [|a pr IHc]; intros cs O1; [destruct T|].
                   cbn [omap] in O1. apply obind_Some in O1. destruct O1 as (u & U & O1). apply obind_Some in O1.
                   destruct O1 as (us & Us & _). destruct T as [<- |T]; eauto. }
                 destruct Ex as (u & U).
                 assert (Ju : In j u) by (apply (to_center_lab l c r t u L R U); split; [exact Dj|]; exists i, row; auto).
                 exists u. split; [|exact Ju]. apply filter_In. split; [apply I2; eauto|].
                 destruct (set_eqb u [(-1)%Z]) eqn:Eu; [|reflexivity]. exfalso.
                 apply (proj1 (set_eqb_iff _ _) Eu j) in Ju. destruct Ju as [Ju|[]]. unfold dom in Dj. lia.
          + apply Nat.eqb_neq in Ec. apply HD1. destruct Ic; [congruence|auto].
        - intros c' Nc. cbn [ps_calc ps_center]. rewrite !dgetd_dset. destruct (c' =? c) eqn:Ec.
          + apply Nat.eqb_eq in Ec. subst c'. exfalso. apply Nc. now left.
          + apply HD2. intro X. apply Nc. now right. }
      apply (IH (c :: D)) in H; [|intros x X; apply Inc; now right|exact New].
      destruct H as [[H1 H2] H3]. split; [|rewrite H3; reflexivity].
      cbn [map fst]. split.
      + intros c' I'. apply H1. apply in_app_iff in I'. rewrite in_app_iff. cbn [In] in *. tauto.
      + intros c' N'. apply H2. intro X. apply N'. apply in_app_iff in X. rewrite in_app_iff. cbn [In] in *. tauto.
  Qed.


  Lemma names_inj l l' : In l ls -> In l' ls -> pl_name l = pl_name l' -> l = l'.
  Proof.
    clear - Names. intros L L' E. induction ls as [|a ls' IH]; [destruct L|].
    cbn [map] in Names. inversion Names as [|x y N1 N2]; subst. destruct L as [<- |L], L' as [<- |L']; auto.
    - exfalso. apply N1. rewrite E. apply in_map. exact L'.
    - exfalso. apply N1. rewrite <- E. apply in_map. exact L.
  Qed.
  Lemma leaf_ok_dset d st l ps st' : In l ls ->
    ps_leaf st' = dset (pl_name l) ps (ps_leaf st) ->
    (forall i, In i (concat ps) <-> ldom l i /\ d (lam (pl_name l) i) = true) ->
    leaf_ok d st' l /\ forall l', In l' ls -> leaf_ok d st l' -> leaf_ok d st' l'.
  Proof.
    intros L E H.
    assert (Own : leaf_ok d st' l).
    { exists ps. split; [rewrite E, dget_dset, Nat.eqb_refl; reflexivity|exact H]. }
    split; [exact Own|]. intros l' L' (ps' & G & H'). destruct (pl_name l' =? pl_name l) eqn:En.
    - apply Nat.eqb_eq in En. rewrite (names_inj l' l L' L En). exact Own.
    - exists ps'. split; [rewrite E, dget_dset, En; exact G|exact H'].
  Qed.
  Lemma undecided_subset (s : pset) : s <> [] -> subset s [] = false.
  Proof. destruct s; [congruence|reflexivity]. Qed.

  Lemma pruned_from_decided d D st l calc0 pruned0 open0 c0 : In l ls -> In c0 D -> In c0 (centers l) -> decided d D st ->
    survey cc st l = (calc0, pruned0, open0) ->
    (forall i, In i (concat pruned0) <-> ldom l i /\ d (lam (pl_name l) i) = true) /\
    (forall i, ldom l i -> exists t, In t calc0 /\ In i t).
  Proof.
    intros L C0 C1 [HD1 HD2] Sv. apply survey_In in Sv. destruct Sv as (Sc & Sp & _).
    apply in_map_iff in C1. destruct C1 as ([c r0] & E & R0). cbn [fst] in E. subst c.
    destruct (CC l c0 r0 L R0) as (cs0 & I0).
    assert (G0 : dget c0 (pl_rows l) = Some r0) by (apply dget_NoDup; auto).
    assert (Sub : forall s k, (forall j, In j s <-> dom j /\ kap c0 j = k) -> subset s (dgetd [] c0 (ps_calc st)) = true).
    { intros s k Hk. apply subset_iff. intros j J. apply HD1; [exact C0|]. apply Hk in J. apply J. }
    split.
    - intro i. rewrite in_concat. split.
      + intros (t & T & It). apply Sp in T. destruct T as (c & cs & r & s & I & G & S' & -> & S1 & N & S2).
        apply dget_In in G. destruct (CQ _ _ I) as [A1 _]. destruct (A1 s S') as (Ns & k & Hk).
        destruct (in_dec Nat.eq_dec c D) as [Y|No].
        * apply (to_leaf_class l c r s k L G Hk) in It. destruct It as [Bi Ei]. split; [exact Bi|].
          destruct s as [|j s']; [congruence|]. assert (J : In j (j :: s')) by now left.
          pose proof (proj1 (subset_iff _ _) S2 j J) as P. apply (proj2 (HD1 c Y)) in P. apply Hk in J. 
          destruct P as [_ P]. destruct J as [_ J]. congruence.
        * rewrite (proj1 (HD2 c No)), (undecided_subset s Ns) in S1. discriminate.
      + intros [Bi di]. destruct (leaf_class_exists l c0 r0 i L R0 Bi cs0 I0) as (s & k & S' & Ns & Hk & Ek & It).
        exists (to_leaf r0 s). split; [|exact It]. apply Sp. exists c0, cs0, r0, s.
        split; [exact I0|]. split; [exact G0|]. split; [exact S'|]. split; [reflexivity|].
        split; [apply (Sub s k Hk)|]. split; [intro X; rewrite X in It; destruct It|].
        apply subset_iff. intros j J. apply HD1; [exact C0|]. apply Hk in J. destruct J as [Dj Ej]. split; [exact Dj|congruence].
    - intros i Bi. destruct (leaf_class_exists l c0 r0 i L R0 Bi cs0 I0) as (s & k & S' & Ns & Hk & Ek & It).
      exists (to_leaf r0 s). split; [|exact It]. apply Sc. exists c0, cs0, r0, s.
      split; [exact I0|]. split; [exact G0|]. split; [exact S'|]. split; [reflexivity|]. apply (Sub s k Hk).
  Qed.

  Lemma decided_ext d D D' st : (forall c, In c D <-> In c D') -> decided d D st -> decided d D' st.
  Proof.
    intros E [H1 H2]. split; intros c I; [apply H1|apply H2]; rewrite E; exact I.
  Qed.

  Variable lg : nat -> list pset.
  Variable imp : nat -> list QArith_base.Q.
  Variable sparsity : nat -> QArith_base.Q.

  (** a leaf with a decided center: the decision is reused *)
  Lemma visit_decided d D st l c need st' c0 : In l ls -> decided d D st -> In c0 D -> In c0 (centers l) -> In c (centers l) ->
    visit ls cc lg imp sparsity c need st l = Some st' ->
    decided d (D ++ centers l) st' /\ leaf_ok d st' l /\ (forall l', In l' ls -> leaf_ok d st l' -> leaf_ok d st' l').
  Proof.
    intros L HD C0 C1 Cl V. unfold visit in V.
    apply in_map_iff in Cl. destruct Cl as ([c' r] & E & R). cbn [fst] in E. subst c'.
    rewrite (dget_NoDup _ _ _ (Keys l L) R), (Real l L) in V. cbn [negb] in V. cbv zeta in V.
    destruct (survey cc st l) as [[calc0 pruned0] open0] eqn:Sv.
    destruct (pruned_from_decided d D st l calc0 pruned0 open0 c0 L C0 C1 HD Sv) as [HP HC].
    pose proof (survey_In _ _ _ _ _ _ Sv) as (Sc & _ & So).
    assert (Img : forall t, In t calc0 \/ In t open0 -> exists c r s k, In (c, r) (pl_rows l) /\ (forall j, In j s <-> dom j /\ kap c j = k) /\ t = to_leaf r s).
    { intros t T.
      assert (G : exists c cs r s, In (c, cs) cc /\ dget c (pl_rows l) = Some r /\ In s cs /\ t = to_leaf r s).
      { destruct T as [T|T]; [apply Sc in T|apply So in T]; destruct T as (a & cs & b & s & H); exists a, cs, b, s; tauto. }
      destruct G as (a & cs & b & s & I & G & S' & ->). apply dget_In in G. destruct (CQ _ _ I) as [A1 _].
      destruct (A1 s S') as (_ & k & Hk). exists a, b, s, k. auto. }
    destruct open0 as [|o0 os] eqn:Eo.
    - injection V as <-. destruct (leaf_ok_dset d st l pruned0 (mkPS (ps_delta st) (dset (pl_name l) pruned0 (ps_leaf st)) (ps_center st) (ps_calc st)) L eq_refl HP) as [O1 O2].
      split; [|auto]. apply (decided_ext d D).
      + intro a. rewrite in_app_iff. split; [auto|]. intros [X|X]; [exact X|].
        destruct (in_dec Nat.eq_dec a D) as [Y|N]; [exact Y|]. exfalso.
        apply in_map_iff in X. destruct X as ([a' ra] & E & Ra). cbn [fst] in E. subst a'.
        destruct (CC l a ra L Ra) as (csa & Ia). destruct (CQ _ _ Ia) as [A1 A2].
        destruct (A2 0%Z) as (s & S' & _); [unfold dom; lia|]. destruct (A1 s S') as (Ns & k & Hk).
        assert (X : In (to_leaf ra s) (@nil pset)); [|destruct X].
        apply So. exists a, csa, ra, s. split; [exact Ia|]. split; [apply dget_NoDup; auto|].
        split; [exact S'|]. split; [reflexivity|].
        split; [rewrite (proj1 (proj2 HD a N)); apply undecided_subset; exact Ns|].
        apply (to_leaf_nonempty l a ra s L Ra); [|exact Ns]. intros j J. apply Hk in J. apply J.
      + exact HD.
    - assert (OC : exists cs1 c1 r1, In (c1, cs1) cc /\ In (c1, r1) (pl_rows l) /\ ~ In c1 D).
      { destruct (proj1 (So o0) (or_introl eq_refl)) as (a & cs & b & s & I & G & S' & _ & Sb & _).
        exists cs, a, b. split; [exact I|]. split; [apply dget_In; exact G|]. intro Y.
        destruct (CQ _ _ I) as [A1 _]. destruct (A1 s S') as (_ & k & Hk).
        assert (T : subset s (dgetd [] a (ps_calc st)) = true).
        { apply subset_iff. intros j J. apply (proj1 HD a Y). apply Hk in J. apply J. } congruence. }
      rewrite <- Eo in *. clear o0 os Eo.
      destruct OC as (cs1 & c1 & r1 & I1 & R1 & N1).
      assert (CvO : forall i, ldom l i -> exists t, In t open0 /\ In i t).
      { intros i Bi. destruct (leaf_class_exists l c1 r1 i L R1 Bi cs1 I1) as (s & k & S' & Ns & Hk & Ek & It).
        exists (to_leaf r1 s). split; [|exact It]. apply So. exists c1, cs1, r1, s.
        split; [exact I1|]. split; [apply dget_NoDup; auto|]. split; [exact S'|]. split; [reflexivity|].
        split; [rewrite (proj1 (proj2 HD c1 N1)); apply undecided_subset; exact Ns|].
        intro X; rewrite X in It; destruct It. }
      destruct (images_merge l open0 L (fun t T => Img t (or_intror T)) CvO) as [MO _].
      destruct (images_merge l calc0 L (fun t T => Img t (or_introl T)) HC) as [MC1 MC2].
      assert (Flt : filter (fun s => in_sets s (map (to_leaf r) need) && negb (in_sets s (merge_constraint calc0))) (merge_constraint open0) = []).
      { assert (K : forall s, In s (merge_constraint open0) -> in_sets s (merge_constraint calc0) = true).
        { intros s S'. destruct (MO s S') as (Ns & k & Hk). destruct s as [|x s'] eqn:Es; [congruence|]. rewrite <- Es in *.
          assert (X : In x s) by (rewrite Es; now left). apply Hk in X. destruct X as [Dx Kx].
          destruct (MC2 x Dx) as (t & T & Xt). apply in_sets_iff. exists t. split; [exact T|].
          destruct (MC1 t T) as (_ & k' & Hk'). assert (k' = k) by (apply Hk' in Xt; destruct Xt; congruence). subst k'.
          intro y. rewrite Hk, Hk'. reflexivity. }
        clear - K. induction (merge_constraint open0) as [|s m IH]; [reflexivity|]. cbn [filter].
        rewrite (K s (or_introl eq_refl)). cbn [negb]. rewrite andb_false_r. apply IH. intros t T. apply K. now right. }
      rewrite Flt in V. cbn [omap obind] in V. rewrite prune_groups_nil in V. cbn [obind snd fst] in V.
      rewrite !app_nil_r in V.
      match type of V with ofold _ _ ?s1 = _ => set (st1 := s1) in V end.
      assert (E1 : ps_leaf st1 = dset (pl_name l) pruned0 (ps_leaf st)) by reflexivity.
      assert (HD1 : decided d D st1) by exact HD.
      destruct (sync_ok d l (merge_constraint calc0) pruned0 L MC2 HP (pl_rows l) D st1 st' (incl_refl _) HD1 V) as [H1 H2].
      rewrite E1 in H2. destruct (leaf_ok_dset d st l pruned0 st' L H2 HP) as [O1 O2]. auto.
  Qed.


  (** the first leaf: its constraints are the classes, and the removed ones define the decision *)
  Lemma visit_first d0 st l c need st' : In l ls -> decided d0 [] st -> In c (centers l) ->
    (forall cs s, In (c, cs) cc -> In s cs -> In s need) ->
    visit ls cc lg imp sparsity c need st l = Some st' ->
    exists d, decided d (centers l) st' /\ leaf_ok d st' l.
  Proof.
    intros L HD Cl HN V. unfold visit in V.
    apply in_map_iff in Cl. destruct Cl as ([c' r] & E & R). cbn [fst] in E. subst c'.
    rewrite (dget_NoDup _ _ _ (Keys l L) R), (Real l L) in V. cbn [negb] in V. cbv zeta in V.
    destruct (survey cc st l) as [[calc0 pruned0] open0] eqn:Sv.
    pose proof (survey_In _ _ _ _ _ _ Sv) as (Sc & Sp & So).
    destruct (CC l c r L R) as (cs & I).
    assert (Nil : forall a, dgetd [] a (ps_calc st) = []) by (intro a; apply (proj2 HD a); intros []).
    assert (Ec : calc0 = []).
    { destruct calc0 as [|t ts]; [reflexivity|]. exfalso. destruct (proj1 (Sc t) (or_introl eq_refl)) as (a & csa & b & s & Ia & _ & S' & _ & Sb).
      rewrite Nil in Sb. destruct (CQ _ _ Ia) as [A1 _]. destruct (A1 s S') as (Ns & _). rewrite (undecided_subset s Ns) in Sb. discriminate. }
    assert (Ep : pruned0 = []).
    { destruct pruned0 as [|t ts]; [reflexivity|]. exfalso. destruct (proj1 (Sp t) (or_introl eq_refl)) as (a & csa & b & s & Ia & _ & S' & _ & Sb & _).
      rewrite Nil in Sb. destruct (CQ _ _ Ia) as [A1 _]. destruct (A1 s S') as (Ns & _). rewrite (undecided_subset s Ns) in Sb. discriminate. }
    subst calc0 pruned0.
    assert (Img : forall t, In t open0 -> exists c r s k, In (c, r) (pl_rows l) /\ (forall j, In j s <-> dom j /\ kap c j = k) /\ t = to_leaf r s).
    { intros t T. apply So in T. destruct T as (a & csa & b & s & Ia & G & S' & -> & _). apply dget_In in G. destruct (CQ _ _ Ia) as [A1 _].
      destruct (A1 s S') as (_ & k & Hk). exists a, b, s, k. auto. }
    assert (Cv : forall i, ldom l i -> exists t, In t open0 /\ In i t).
    { intros i Bi. destruct (leaf_class_exists l c r i L R Bi cs I) as (s & k & S' & Ns & Hk & Ek & It).
      exists (to_leaf r s). split; [|exact It]. apply So. exists c, cs, r, s.
      split; [exact I|]. split; [apply dget_NoDup; auto|]. split; [exact S'|]. split; [reflexivity|].
      split; [rewrite Nil; apply undecided_subset; exact Ns|]. intro X; rewrite X in It; destruct It. }
    assert (No : open0 <> []).
    { destruct (Cover l c r 0%Z L R) as (row & i & W & B & J); [unfold dom; lia|].
      destruct (Fed l c r row i 0%Z L R W J B) as (Bi & _). destruct (Cv i Bi) as (t & T & _). intro X. rewrite X in T. destruct T. }
    destruct (images_merge l open0 L Img Cv) as [MO1 MO2].
    assert (Flt : filter (fun s => in_sets s (map (to_leaf r) need) && negb (in_sets s (merge_constraint []))) (merge_constraint open0)
                  = merge_constraint open0).
    { assert (K : forall s, In s (merge_constraint open0) -> in_sets s (map (to_leaf r) need) = true).
      { intros s S'. destruct (MO1 s S') as (Ns & k & Hk). destruct s as [|x s'] eqn:Es; [congruence|]. rewrite <- Es in *.
        assert (X : In x s) by (rewrite Es; now left). apply Hk in X. destruct X as [Dx Kx].
        destruct (leaf_class_exists l c r x L R Dx cs I) as (s1 & k1 & S1 & _ & Hk1 & Ek1 & _).
        apply in_sets_iff. exists (to_leaf r s1). split; [apply in_map, (HN cs s1 I S1)|].
        intro y. rewrite Hk, (to_leaf_class l c r s1 k1 L R Hk1). rewrite <- Ek1, Kx. reflexivity. }
      clear - K. induction (merge_constraint open0) as [|s m IH]; [reflexivity|]. cbn [filter].
      rewrite (K s (or_introl eq_refl)). cbn [andb]. change (in_sets s (merge_constraint [])) with false. cbn [negb].
      f_equal. apply IH. intros t T. apply K. now right. }
    destruct open0 as [|o0 os] eqn:Eo; [congruence|]. rewrite <- Eo in *. clear o0 os Eo.
    rewrite Flt in V. apply obind_Some in V. destruct V as (li & Li & V).
    apply obind_Some in V. destruct V as ([dl taken] & G & V). cbn [fst snd app] in V.
    change (merge_constraint []) with (@nil pset) in V. cbn [app] in V.
    assert (Tk : forall s, In s taken -> In s (merge_constraint open0)).
    { intros s S'. destruct (prune_groups_In _ _ _ _ _ _ _ G s S') as [[]|(q & Iq)].
      apply (omap_In _ _ _ Li) in Iq. destruct Iq as (x & X & F). apply obind_Some in F. destruct F as (q' & _ & F).
      injection F as -> _. exact X. }
    set (d := fun k => existsb (fun s => existsb (fun i => Z.eqb (lam (pl_name l) i) k) s) taken).
    assert (HP : forall i, In i (concat taken) <-> ldom l i /\ d (lam (pl_name l) i) = true).
    { intro i. rewrite in_concat. unfold d. rewrite existsb_exists. split.
      - intros (s & S' & X). destruct (MO1 s (Tk s S')) as (_ & k & Hk). split; [apply Hk; exact X|].
        exists s. split; [exact S'|]. apply existsb_exists. exists i. split; [exact X|apply Z.eqb_refl].
      - intros (Bi & s & S' & X). apply existsb_exists in X. destruct X as (i' & X & E). apply Z.eqb_eq in E.
        exists s. split; [exact S'|]. destruct (MO1 s (Tk s S')) as (_ & k & Hk). apply Hk in X. destruct X.
        apply Hk. split; [exact Bi|congruence]. }
    assert (CvS : forall i, ldom l i -> exists t, In t (taken ++ merge_constraint open0) /\ In i t).
    { intros i Bi. destruct (MO2 i Bi) as (t & T & X). exists t. split; [apply in_app_iff; auto|exact X]. }
    match type of V with ofold _ _ ?s1 = _ => set (st1 := s1) in V end.
    assert (E1 : ps_leaf st1 = dset (pl_name l) taken (ps_leaf st)) by reflexivity.
    assert (HD1 : decided d [] st1). { destruct HD as [_ HD2]. split; [intros a []|exact HD2]. }
    exists d. destruct (sync_ok d l _ taken L CvS HP (pl_rows l) [] st1 st' (incl_refl _) HD1 V) as [H1 H2].
    split; [exact H1|]. rewrite E1 in H2. exact (proj1 (leaf_ok_dset d st l taken st' L H2 HP)).
  Qed.

  (** the leaves of one center once it is decided *)
  Lemma turn_rest d c need : forall ls' D st st', incl ls' ls -> decided d D st -> In c D ->
    ofold (visit ls cc lg imp sparsity c need) ls' st = Some st' ->
    exists D', incl D D' /\ decided d D' st' /\
      (forall l, In l ls' -> In c (centers l) -> incl (centers l) D' /\ leaf_ok d st' l) /\
      (forall l, In l ls -> leaf_ok d st l -> leaf_ok d st' l).
  Proof.
    induction ls' as [|l ls' IH]; intros D st st' Inc HD Cd H; cbn [ofold] in H.
    - injection H as <-. exists D. split; [apply incl_refl|]. split; [exact HD|]. split; [intros l []|auto].
    - apply obind_Some in H. destruct H as (st1 & V & H).
      assert (L : In l ls) by (apply Inc; now left).
      destruct (in_dec Nat.eq_dec c (centers l)) as [Y|N].
      + destruct (visit_decided d D st l c need st1 c L HD Cd Y Y V) as (H1 & H2 & H3).
        apply (IH (D ++ centers l)) in H; auto.
        * destruct H as (D' & I' & HD' & A & B). exists D'. split; [intros x X; apply I'; apply in_app_iff; auto|].
          split; [exact HD'|]. split; [|auto]. intros l' [<- |L'] C'; [|auto].
          split; [intros x X; apply I', in_app_iff; auto|auto].
        * intros x X. apply Inc. now right.
        * apply in_app_iff. auto.
      + assert (E : dget c (pl_rows l) = None) by (apply dget_None; exact N).
        unfold visit in V. rewrite E in V. injection V as <-.
        apply (IH D) in H; auto; [|intros x X; apply Inc; now right].
        destruct H as (D' & I' & HD' & A & B). exists D'. split; [exact I'|]. split; [exact HD'|]. split; [|auto].
        intros l' [<- |L'] C'; [contradiction|auto].
  Qed.
  Lemma turn_first d0 c need : (forall cs s, In (c, cs) cc -> In s cs -> In s need) ->
    forall ls' st st', incl ls' ls -> decided d0 [] st -> (exists l, In l ls' /\ In c (centers l)) ->
    ofold (visit ls cc lg imp sparsity c need) ls' st = Some st' ->
    exists d D', decided d D' st' /\
      (forall l, In l ls' -> In c (centers l) -> incl (centers l) D' /\ leaf_ok d st' l).
  Proof.
    intro HN. induction ls' as [|l ls' IH]; intros st st' Inc HD Ex H; cbn [ofold] in H.
    - destruct Ex as (l & [] & _).
    - apply obind_Some in H. destruct H as (st1 & V & H).
      assert (L : In l ls) by (apply Inc; now left).
      assert (Inc' : incl ls' ls) by (intros x X; apply Inc; now right).
      destruct (in_dec Nat.eq_dec c (centers l)) as [Y|N].
      + destruct (visit_first d0 st l c need st1 L HD Y HN V) as (d & H1 & H2).
        destruct (turn_rest d c need ls' (centers l) st1 st' Inc' H1 Y H) as (D' & I' & HD' & A & B).
        exists d, D'. split; [exact HD'|]. intros l' [<- |L'] C'; auto.
      + assert (E : dget c (pl_rows l) = None) by (apply dget_None; exact N).
        unfold visit in V. rewrite E in V. injection V as <-.
        destruct (IH st st' Inc' HD) as (d & D' & HD' & A); [destruct Ex as (l' & [<- |L'] & C'); [contradiction|eauto]|exact H|].
        exists d, D'. split; [exact HD'|]. intros l' [<- |L'] C'; [contradiction|auto].
  Qed.

  Lemma turns_rest d : forall cl done D st st', decided d D st ->
    (forall c l, In c done -> In l ls -> In c (centers l) -> incl (centers l) D /\ leaf_ok d st l) ->
    (forall a c b, cl = a ++ c :: b -> exists c' l, (In c' done \/ In c' a) /\ In l ls /\ In c (centers l) /\ In c' (centers l)) ->
    ofold (turn ls cc lg imp sparsity) cl st = Some st' ->
    exists D', decided d D' st' /\
      (forall c l, In c done \/ In c cl -> In l ls -> In c (centers l) -> incl (centers l) D' /\ leaf_ok d st' l).
  Proof.
    induction cl as [|c cl IH]; intros done D st st' HD HV HO H; cbn [ofold] in H.
    - injection H as <-. exists D. split; [exact HD|]. intros c l [X|[]] L C'; exact (HV c l X L C').
    - apply obind_Some in H. destruct H as (st1 & T & H). unfold turn in T.
      assert (Cd : In c D).
      { destruct (HO [] c cl eq_refl) as (c' & l & [X|[]] & L & C1 & C2). apply (HV c' l X L C2). exact C1. }
      destruct (turn_rest d c _ ls D st st1 (incl_refl _) HD Cd T) as (D1 & I1 & HD1 & A1 & B1).
      apply (IH (c :: done) D1) in H; auto.
      + destruct H as (D' & HD' & A'). exists D'. split; [exact HD'|]. intros a l X L C'. apply (A' a); auto.
        cbn [In] in *. tauto.
      + intros a l [<- |X] L C'; [apply A1; auto|]. destruct (HV a l X L C') as [V1 V2].
        split; [intros x X'; apply I1, V1, X'|apply B1; auto].
      + intros a x b E. destruct (HO (c :: a) x b) as (c' & l & X & Y); [rewrite E; reflexivity|].
        exists c', l. split; [cbn [In] in *; tauto|exact Y].
  Qed.

  Lemma all_turns cl st' : NoDup (map fst cc) ->
    (forall c, In c cl -> exists cs, In (c, cs) cc) ->
    (forall a c b, cl = a ++ c :: b -> a <> [] -> exists c' l, In c' a /\ In l ls /\ In c (centers l) /\ In c' (centers l)) ->
    (forall l, In l ls -> exists c, In c cl /\ In c (centers l)) ->
    (forall c, In c cl -> exists l, In l ls /\ In c (centers l)) ->
    ofold (turn ls cc lg imp sparsity) cl (mkPS [] [] [] []) = Some st' ->
    exists d D, decided d D st' /\ forall l, In l ls -> incl (centers l) D /\ leaf_ok d st' l.
  Proof.
    intros _ HK HO HL HC H. destruct cl as [|c cl].
    - cbn [ofold] in H. injection H as <-. exists (fun _ => false), []. split.
      + split; [intros c []|intros c _; split; reflexivity].
      + intros l L. destruct (HL l L) as (c & [] & _).
    - cbn [ofold] in H. apply obind_Some in H. destruct H as (st1 & T & H). unfold turn in T. cbn [ps_calc] in T.
      assert (HD0 : decided (fun _ => false) [] (mkPS [] [] [] [])).
      { split; [intros x []|intros x _; split; reflexivity]. }
      destruct (HK c (or_introl eq_refl)) as (cs & I).
      assert (HN : forall cs' s, In (c, cs') cc -> In s cs' ->
        In s (filter (fun s : pset => negb (subset s (dgetd [] c []))) (dgetd [] c cc))).
      { intros cs' s I' S'. apply filter_In. change (dgetd [] c []) with (@nil Z).
        assert (E : dgetd [] c cc = cs') by (unfold dgetd; rewrite (dget_NoDup _ _ _ CK I'); reflexivity).
        rewrite E. split; [exact S'|]. destruct (CQ _ _ I') as [A1 _]. destruct (A1 s S') as (Ns & _).
        rewrite (undecided_subset s Ns). reflexivity. }
      destruct (turn_first (fun _ => false) c _ HN ls _ st1 (incl_refl _) HD0 (HC c (or_introl eq_refl)) T) as (d & D & HD & A).
      { destruct (turns_rest d cl [c] D st1 st' HD) as (D' & HD' & A'); auto.
        * intros a l [<- |[]] L C'. apply A; auto.
        * intros a x b E. destruct (HO (c :: a) x b) as (c' & l & X & Y); [rewrite E; reflexivity|discriminate|].
          exists c', l. split; [cbn [In] in *; tauto|exact Y].
        * exists d, D'. split; [exact HD'|]. intros l L. destruct (HL l L) as (a & X & Y).
          apply (A' a l); auto. cbn [In] in *. tauto. }
  Qed.

End Lab.

Lemma dget_map {B C} (f : B -> C) k (m : list (nat * B)) :
  dget k (map (fun e => (fst e, f (snd e))) m) = option_map f (dget k m).
Proof.
  induction m as [|[a v] m IH]; [reflexivity|]. cbn [map dget fst snd]. destruct (k =? a); [reflexivity|exact IH].
Qed.
Lemma drop_none_In s x : In x (drop_none s) <-> In x s /\ x <> (-1)%Z.
Proof. unfold drop_none. rewrite filter_In, negb_true_iff, Z.eqb_neq. reflexivity. Qed.
Lemma dgetd_drop c (m : list (nat * pset)) j :
  In j (dgetd [] c (map (fun e => (fst e, drop_none (snd e))) m)) <-> In j (dgetd [] c m) /\ j <> (-1)%Z.
Proof.
  unfold dgetd. induction m as [|[a v] m IH]; [cbn [map dget In]; tauto|]. cbn [map dget fst snd].
  destruct (c =? a); [apply drop_none_In|exact IH].
Qed.
Lemma list_max_same (l : list nat) w : l <> [] -> (forall x, In x l -> x = w) -> list_max l = w.
Proof.
  intros N H. apply Nat.le_antisymm.
  - apply list_max_le. apply Forall_forall. intros x X. rewrite (H x X). apply le_n.
  - destruct l as [|x l]; [congruence|]. pose proof (proj1 (list_max_le (x :: l) (list_max (x :: l))) (le_n _)) as F.
    inversion F; subst. rewrite <- (H x) at 1 by now left. assumption.
Qed.

Definition leaf_width (l : pleaf) : nat := match pl_rows l with (_, r) :: _ => width r | [] => 0 end.

Lemma prep_all {A B} (f : A -> option B) l ys : omap f l = Some ys -> map Some ys = map f l.
Proof.
  revert ys. induction l as [|x l IH]; intros ys H; cbn [omap] in H.
  - injection H as <-. reflexivity.
  - apply obind_Some in H. destruct H as (y & E & H). apply obind_Some in H. destruct H as (zs & E2 & H).
    injection H as <-. cbn [map]. rewrite E, (IH _ E2). reflexivity.
Qed.
Lemma omap_total {A B} (f : A -> option B) l : (forall x, In x l -> exists y, f x = Some y) -> exists ys, omap f l = Some ys.
Proof.
  induction l as [|x l IH]; intro H; [exists []; reflexivity|].
  destruct (H x (or_introl eq_refl)) as (y & E). destruct IH as (ys & Es); [intros z Z'; apply H; now right|].
  exists (y :: ys). cbn [omap]. rewrite E. cbn [obind]. rewrite Es. reflexivity.
Qed.

Theorem labelled_consistent sg n kap lam imp sparsity pc pl :
  labelled sg n kap lam -> chained sg -> calc_prune_idx sg imp sparsity = Some (pc, pl) ->
  exists d : Z -> bool,
    (forall l c j, In l (sg_leaves sg) -> In c (centers_of l) ->
       (In j (dgetd [] c pc) <-> (0 <= j < Z.of_nat n)%Z /\ d (kap c j) = true)) /\
    (forall l, In l (sg_leaves sg) -> exists s, dget (lf_name l) pl = Some s /\
       (forall i, In i s -> exists c j, fed sg l c i j) /\
       (forall c i j, fed sg l c i j -> (In i s <-> d (lam (lf_name l) i) = true) /\
          (0 <= j < Z.of_nat n)%Z /\ kap c j = lam (lf_name l) i)).
Proof.
  intros LB CH H. destruct LB as [Hn HN HL HT].
  unfold calc_prune_idx in H.
  assert (Prep1 : forall l, In l (sg_leaves sg) -> exists dim d, lf_dims l = [(dim, d)] /\ centers_of l = map fst d /\
            prep_leaf (sg_mods sg) l = Some (mkPL (lf_name l) d true (lf_groups l))).
  { intros l L. destruct (HL l L) as (_ & _ & M1 & M2 & dim & d & w & D & _). exists dim, d.
    assert (Ec : centers_of l = map fst d) by (unfold centers_of; rewrite D; cbn [map concat snd]; apply app_nil_r).
    split; [exact D|]. split; [exact Ec|]. unfold prep_leaf. rewrite D. f_equal. f_equal.
    - assert (K : forall e, In e d -> nmemb (fst e) (sg_mods sg) = true).
      { intros e E. apply nmemb_In, M1. rewrite Ec. apply in_map. exact E. }
      clear - K. induction d as [|e d IH]; [reflexivity|]. cbn [filter]. rewrite (K e (or_introl eq_refl)).
      f_equal. apply IH. intros x X. apply K. now right.
    - apply forallb_forall. intros c C. apply nmemb_In, M2, C. }
  destruct (omap_total (prep_leaf (sg_mods sg)) (sg_leaves sg)) as (ls & Els).
  { intros l L. destruct (Prep1 l L) as (dim & d & _ & _ & E). eauto. }
  rewrite Els in H. pose proof (omap_In _ _ _ Els) as Ils.
  apply obind_Some in H. destruct H as (cc & Hcc & H). apply obind_Some in H. destruct H as (cg & _ & H).
  apply obind_Some in H. destruct H as (lgs & _ & H). apply obind_Some in H. destruct H as (st & Hst & H).
  injection H as <- <-. unfold by_center_importance in Hst.
  (* facts on prepared leaves *)
  assert (Back : forall l, In l ls -> exists l0 dim d w, In l0 (sg_leaves sg) /\ lf_dims l0 = [(dim, d)] /\
     centers_of l0 = map fst d /\ l = mkPL (lf_name l0) d true (lf_groups l0) /\ (0 < w) /\
     forall c r, In (c, r) d ->
        r <> [] /\ (forall row, In row r -> length row = w) /\
        (forall row i, In row r -> i < w -> nth i row [] <> [] /\
           forall j, In j (nth i row []) -> (0 <= j < Z.of_nat n)%Z /\ kap c j = lam (lf_name l0) (Z.of_nat i)) /\
        (forall j, (0 <= j < Z.of_nat n)%Z -> exists row i, In row r /\ i < w /\ In j (nth i row []))).
  { intros l L. apply Ils in L. destruct L as (l0 & L0 & E). destruct (Prep1 l0 L0) as (dim & d & D & Ec & E').
    destruct (HL l0 L0) as (_ & _ & _ & _ & dim' & d' & w & D' & W & P). rewrite D in D'. injection D' as <- <-.
    exists l0, dim, d, w. rewrite E' in E. injection E as <-. auto 10. }
  assert (Wd : forall l c r, In l ls -> In (c, r) (pl_rows l) -> width r = leaf_width l).
  { intros l c r L R. destruct (Back l L) as (l0 & dim & d & w & _ & _ & _ & -> & _ & P). cbn [pl_rows] in R.
    assert (G : forall c r, In (c, r) d -> width r = w).
    { intros a b I. destruct (P a b I) as (N & Len & _). unfold width. apply list_max_same.
      - destruct b; [congruence|discriminate].
      - intros x X. apply in_map_iff in X. destruct X as (row & <- & X). apply Len, X. }
    unfold leaf_width. cbn [pl_rows]. destruct d as [|[a b] d]; [destruct R|].
    rewrite (G c r R). symmetry. apply (G a b). now left. }
  assert (Wp : forall l c r, In l ls -> In (c, r) (pl_rows l) -> forall w, (forall row, In row r -> length row = w) -> r <> [] -> leaf_width l = w).
  { intros l c r L R w P N. rewrite <- (Wd l c r L R). unfold width. apply list_max_same.
    - destruct r; [congruence|discriminate].
    - intros x X. apply in_map_iff in X. destruct X as (row & <- & X). apply P, X. }
  assert (F1 : forall l c r row i j, In l ls -> In (c, r) (pl_rows l) -> In row r ->
    In j (nth (Z.to_nat i) row []) -> (0 <= i)%Z -> ldom leaf_width l i /\ dom n j /\ kap c j = lam (pl_name l) i).
  { intros l c r row i j L R W J B. destruct (Back l L) as (l0 & dim & d & w & _ & _ & _ & -> & Wpos & P).
    cbn [pl_rows pl_name] in *. destruct (P c r R) as (N & Len & Lab & _).
    assert (Bi : Z.to_nat i < w).
    { rewrite <- (Len row W). destruct (Nat.lt_ge_cases (Z.to_nat i) (length row)) as [X|X]; [exact X|].
      rewrite nth_overflow in J by exact X. destruct J. }
    destruct (Lab row (Z.to_nat i) W Bi) as [_ Lb]. destruct (Lb j J) as [Dj Ej]. rewrite Z2Nat.id in Ej by exact B.
    split; [|split; [exact Dj|exact Ej]]. unfold ldom.
    rewrite (Wp _ c r L R w Len N). lia. }
  assert (F2 : forall l c r i, In l ls -> In (c, r) (pl_rows l) -> ldom leaf_width l i ->
    exists row j, In row r /\ In j (nth (Z.to_nat i) row [])).
  { intros l c r i L R B. pose proof L as L'. destruct (Back l L) as (l0 & dim & d & w & _ & _ & _ & -> & Wpos & P).
    cbn [pl_rows pl_name] in *. destruct (P c r R) as (N & Len & Lab & _).
    unfold ldom in B. rewrite (Wp _ c r L' R w Len N) in B. destruct r as [|row r']; [congruence|].
    exists row. destruct (Lab row (Z.to_nat i) (or_introl eq_refl)) as [Ne _]; [lia|].
    destruct (nth (Z.to_nat i) row []) as [|j s]; [congruence|]. exists j. split; now left. }
  assert (F3 : forall l c r j, In l ls -> In (c, r) (pl_rows l) -> dom n j ->
    exists row i, In row r /\ (0 <= i)%Z /\ In j (nth (Z.to_nat i) row [])).
  { intros l c r j L R D. destruct (Back l L) as (l0 & dim & d & w & _ & _ & _ & -> & Wpos & P).
    cbn [pl_rows pl_name] in *. destruct (P c r R) as (_ & _ & _ & Cov). destruct (Cov j D) as (row & i & W & B & J).
    exists row, (Z.of_nat i). split; [exact W|]. split; [lia|]. rewrite Nat2Z.id. exact J. }
  assert (F4 : forall l c r a b, In l ls -> In (c, r) (pl_rows l) -> dom n a -> dom n b -> kap c a = kap c b ->
    clos_refl_trans Z (fun a b => exists l r row s, In l ls /\ In (c, r) (pl_rows l) /\ In row r /\ In s row /\ In a s /\ In b s) a b).
  { intros l c r a b L R Da Db E. destruct (Back l L) as (l0 & dim & d & w & L0 & D0 & Ec & -> & _). cbn [pl_rows] in R.
    assert (C0 : In c (centers_of l0)) by (rewrite Ec; apply in_map_iff; exists (c, r); auto).
    pose proof (HT l0 c a b L0 C0 Da Db E) as T. clear - T Prep1 Ils.
    induction T as [a b (l1 & i & s & (L1 & _ & dim1 & d1 & r1 & row & D1 & R1 & W & B & ->) & A & B')|a|a b e _ IH1 _ IH2].
    - apply rt_step. destruct (Prep1 l1 L1) as (dim2 & d2 & D2 & _ & E2). rewrite D1 in D2. injection D2 as <- <-.
      exists (mkPL (lf_name l1) d1 true (lf_groups l1)), r1, row, (nth (Z.to_nat i) row []).
      split; [apply Ils; eauto|]. split; [exact R1|]. split; [exact W|]. split; [|auto].
      apply nth_In. lia.
    - apply rt_refl.
    - eapply rt_trans; eassumption. }
  assert (Nm : NoDup (map pl_name ls)).
  { assert (E : map pl_name ls = map lf_name (sg_leaves sg)); [|rewrite E; exact HN].
    clear - Els. revert ls Els. induction (sg_leaves sg) as [|l lv IH]; intros ls Els; cbn [omap] in Els.
    - injection Els as <-. reflexivity.
    - apply obind_Some in Els. destruct Els as (y & E & H). apply obind_Some in H. destruct H as (zs & E2 & H).
      injection H as <-. cbn [map]. rewrite (IH _ E2). f_equal. unfold prep_leaf in E.
      destruct (lf_dims l) as [|[a b] [|]]; try discriminate. injection E as <-. reflexivity. }
  assert (Rl : forall l, In l ls -> pl_real l = true).
  { intros l L. destruct (Back l L) as (l0 & dim & d & w & _ & _ & _ & -> & _). reflexivity. }
  assert (Ky : forall l, In l ls -> NoDup (map fst (pl_rows l))).
  { intros l L. destruct (Back l L) as (l0 & dim & d & w & L0 & _ & Ec & -> & _). cbn [pl_rows]. rewrite <- Ec.
    apply (HL l0 L0). }
  destruct (agg_Q ls n kap lam leaf_width Hn Wd F1 F2 F3 F4 cc Hcc) as [CK CQ].
  assert (CKn : NoDup (map fst cc)) by (rewrite CK; apply init_keys_NoDup).
  rewrite (center_list_id n kap Hn cc CQ) in Hst.
  assert (AllE : map fst (all_entries ls) = concat (map centers_of (sg_leaves sg))).
  { clear - Els Prep1. revert ls Els. unfold all_entries. induction (sg_leaves sg) as [|l lv IH]; intros ls Els; cbn [omap] in Els.
    - injection Els as <-. reflexivity.
    - apply obind_Some in Els. destruct Els as (y & E & H). apply obind_Some in H. destruct H as (zs & E2 & H).
      injection H as <-. cbn [map concat]. rewrite map_app. f_equal.
      + destruct (Prep1 l (or_introl eq_refl)) as (dim & d & _ & Ec & E'). rewrite E' in E. injection E as <-. cbn [pl_rows]. auto.
      + apply IH; [intros x X; apply Prep1; now right|exact E2]. }
  assert (Ord : map fst cc = first_order sg).
  { rewrite CK, init_keys, AllE. reflexivity. }
  assert (Cen : forall l0, In l0 (sg_leaves sg) -> exists l, In l ls /\ centers l = centers_of l0 /\ pl_name l = lf_name l0).
  { intros l0 L0. destruct (Prep1 l0 L0) as (dim & d & _ & Ec & E'). exists (mkPL (lf_name l0) d true (lf_groups l0)).
    split; [apply Ils; eauto|]. split; [symmetry; exact Ec|reflexivity]. }
  assert (Cen' : forall l, In l ls -> exists l0, In l0 (sg_leaves sg) /\ centers l = centers_of l0 /\ pl_name l = lf_name l0).
  { intros l L. destruct (Back l L) as (l0 & dim & d & w & L0 & _ & Ec & -> & _). exists l0.
    split; [exact L0|]. split; [symmetry; exact Ec|reflexivity]. }
  assert (InK : forall c, In c (map fst cc) <-> exists l, In l ls /\ In c (centers l)).
  { intro c. rewrite CK, init_keys. rewrite fold_first_In. unfold all_entries. rewrite in_map_iff. split.
    - intros [[]|([a r] & <- & I)]. apply in_concat in I. destruct I as (x & X & I). apply in_map_iff in X. destruct X as (l & <- & L).
      exists l. split; [exact L|]. apply in_map_iff. exists (a, r). auto.
    - intros (l & L & I). right. apply in_map_iff in I. destruct I as ([a r] & <- & I). exists (a, r). split; [reflexivity|].
      apply in_concat. exists (pl_rows l). split; [apply in_map; exact L|exact I]. }
  assert (CCx : forall l c r, In l ls -> In (c, r) (pl_rows l) -> exists cs, In (c, cs) cc).
  { intros l c r L R. assert (I : In c (map fst cc)).
    { apply InK. exists l. split; [exact L|]. apply in_map_iff. exists (c, r). auto. }
    apply in_map_iff in I. destruct I as ([a cs] & E & I). cbn [fst] in E. subst a. eauto. }
  destruct (all_turns ls n kap lam leaf_width Hn Nm Rl Ky Wd F1 F2 F3 cc CQ CKn CCx
             (fun m => dgetd [] m lgs) imp sparsity (map fst cc) st CKn) as (d & D & HD & HV).
  - intros c I. apply in_map_iff in I. destruct I as ([a cs] & E & I). cbn [fst] in E. subst a. eauto.
  - intros a c b E Ne. rewrite Ord in E. destruct (CH a c b E Ne) as (c' & l0 & A & L0 & C1 & C2).
    destruct (Cen l0 L0) as (l & L & Ec & _). exists c', l. rewrite Ec. auto.
  - intros l L. destruct (Back l L) as (l0 & _ & _ & _ & L0 & _). destruct (Cen' l L) as (l1 & L1 & Ec & _).
    destruct (HL l1 L1) as ((c & C) & _). exists c. rewrite <- Ec in C. split; [apply InK; eauto|exact C].
  - intros c I. apply InK. exact I.
  - exact Hst.
  - exists d. split.
    + intros l0 c j L0 C0. destruct (Cen l0 L0) as (l & L & Ec & _). rewrite <- Ec in C0.
      destruct (HV l L) as [Inc _]. destruct (proj1 HD c (Inc c C0)) as [_ G].
      split.
      * intro X. apply dgetd_drop in X. apply G. apply X.
      * intro X. apply dgetd_drop. split; [apply G; exact X|]. destruct X. lia.
    + intros l0 L0. destruct (Prep1 l0 L0) as (dim & dd & D0 & Ec & E').
      set (l := mkPL (lf_name l0) dd true (lf_groups l0)) in *.
      assert (L : In l ls) by (apply Ils; eauto).
      destruct (HV l L) as [_ (ps & G & Hps)]. change (pl_name l) with (lf_name l0) in *.
      exists (drop_none (concat ps)).
      split; [etransitivity; [exact (dget_map (fun x : list pset => drop_none (concat x)) (lf_name l0) (ps_leaf st))|];
              exact (f_equal (option_map (fun x : list pset => drop_none (concat x))) G)|].
      assert (Mods : forall c, In c (centers_of l0) -> In c (sg_mods sg)) by (apply (HL l0 L0)).
      split.
      * intros i I. apply drop_none_In in I. destruct I as [I _]. apply Hps in I. destruct I as [B _].
        destruct (HL l0 L0) as ((c & C) & _). pose proof C as C'. rewrite Ec in C. apply in_map_iff in C.
        destruct C as ([c' r] & E & R). cbn [fst] in E. subst c'.
        destruct (F2 l c r i L R B) as (row & j & W & J). exists c, j. exists (nth (Z.to_nat i) row []).
        split; [|split; [exact J|]].
        -- split; [exact L0|]. split; [apply Mods; exact C'|]. exists dim, dd, r, row.
           split; [exact D0|]. split; [exact R|]. split; [exact W|]. split; [|reflexivity].
           apply (nth_In_bound row i j); [apply B|exact J].
        -- destruct (F1 l c r row i j L R W J (proj1 B)) as (_ & Dj & _). unfold dom in Dj. lia.
      * intros c i j (s & (_ & M & dim1 & d1 & r & row & D1 & R & W & B & ->) & J & Nj).
        rewrite D0 in D1. injection D1 as <- <-.
        destruct (F1 l c r row i j L R W J (proj1 B)) as (Bi & Dj & Ej).
        split; [|split; [exact Dj|exact Ej]]. rewrite drop_none_In, Hps. change (pl_name l) with (lf_name l0).
        split; [tauto|]. intro X. split; [auto|]. unfold ldom in Bi. lia.
Qed.

Lemma removed_consistent sg n kap lam imp sparsity pc pl :
  labelled sg n kap lam -> chained sg -> calc_prune_idx sg imp sparsity = Some (pc, pl) ->
  (forall l, In l (sg_leaves sg) -> exists s, dget (lf_name l) pl = Some s /\
     (forall i, In i s -> exists c j, fed sg l c i j) /\
     (forall c i j, fed sg l c i j -> (In i s <-> In j (dgetd [] c pc)))) /\
  (forall l c j, In l (sg_leaves sg) -> In c (centers_of l) -> In j (dgetd [] c pc) -> (0 <= j < Z.of_nat n)%Z) /\
  (forall l c j l' c' j', In l (sg_leaves sg) -> In c (centers_of l) -> In l' (sg_leaves sg) -> In c' (centers_of l') ->
     (0 <= j < Z.of_nat n)%Z -> (0 <= j' < Z.of_nat n)%Z -> kap c j = kap c' j' ->
     (In j (dgetd [] c pc) <-> In j' (dgetd [] c' pc))) /\
  (forall (rs : list (nat * rows)) (mu : nat -> Z),
     (forall c r row i j, In (c, r) rs -> In row r -> In j (nth i row []) ->
        (exists l, In l (sg_leaves sg) /\ In c (centers_of l)) /\ (0 <= j < Z.of_nat n)%Z /\ kap c j = mu i) ->
     forall c r row i j, In (c, r) rs -> In row r -> In j (nth i row []) ->
       (In (Z.of_nat i) (get_pruned_idx pc rs) <-> In j (dgetd [] c pc))).
Proof.
  intros LB CH H. destruct (labelled_consistent _ _ _ _ _ _ _ _ LB CH H) as (d & HC & HL).
  assert (Fc : forall l c i j, fed sg l c i j -> In l (sg_leaves sg) /\ In c (centers_of l)).
  { intros l c i j (s & (L & _ & dim & dd & r & row & D & R & _) & _). split; [exact L|].
    unfold centers_of. rewrite D. cbn [map concat snd]. rewrite app_nil_r. apply in_map_iff. exists (c, r). auto. }
  split; [|split; [|split]].
  - intros l L. destruct (HL l L) as (s & G & F1 & F2). exists s. split; [exact G|]. split; [exact F1|].
    intros c i j F. destruct (F2 c i j F) as (E & B & K). destruct (Fc _ _ _ _ F) as [_ Cc].
    rewrite E, (HC l c j L Cc), K. tauto.
  - intros l c j L C J. apply (HC l c j L C) in J. apply J.
  - intros l c j l' c' j' L C L' C' B B' E. rewrite (HC l c j L C), (HC l' c' j' L' C'), E. tauto.
  - intros rs mu HR c r row i j R W J.
    assert (Key : forall c r row i j, In (c, r) rs -> In row r -> In j (nth i row []) -> (In j (dgetd [] c pc) <-> d (mu i) = true)).
    { intros c1 r1 row1 i1 j1 R1 W1 J1. destruct (HR _ _ _ _ _ R1 W1 J1) as ((l & L & C) & B & K).
      rewrite (HC l c1 j1 L C), K. tauto. }
    rewrite (Key c r row i j R W J). unfold get_pruned_idx. rewrite in_concat. split.
    + intros (x & X & I). apply in_map_iff in X. destruct X as ([c1 r1] & <- & R1). cbn [fst snd] in I.
      apply in_concat in I. destruct I as (y & Y & I). apply in_map_iff in Y. destruct Y as (row1 & <- & W1).
      apply in_map_iff in I. destruct I as (i1 & E & I). apply Nat2Z.inj in E. subst i1.
      apply filter_In in I. destruct I as [_ N]. apply nonempty_iff in N.
      destruct (inter (nth i row1 []) (dgetd [] c1 pc)) as [|j1 t] eqn:Ei; [congruence|].
      assert (J1 : In j1 (inter (nth i row1 []) (dgetd [] c1 pc))) by (rewrite Ei; now left).
      unfold inter in J1. apply filter_In in J1. destruct J1 as [J1 J2]. apply mem_In in J2.
      apply (Key c1 r1 row1 i j1 R1 W1 J1). exact J2.
    + intro Dm. eexists. split; [apply in_map_iff; exists (c, r); split; [reflexivity|exact R]|]. cbn [fst snd].
      apply in_concat. eexists. split; [apply in_map_iff; exists row; split; [reflexivity|exact W]|].
      apply in_map_iff. exists i. split; [reflexivity|]. apply filter_In. split.
      * apply in_seq. destruct (Nat.lt_ge_cases i (length row)) as [X|X]; [split; [apply Nat.le_0_l|exact X]|].
        exfalso. pose proof (nth_overflow row (@nil Z) X) as Eo. unfold pset in *. rewrite Eo in J. destruct J.
      * apply nonempty_iff. intro E. assert (I : In j (inter (nth i row []) (dgetd [] c pc))).
        { unfold inter. apply filter_In. split; [exact J|]. apply mem_In. apply (Key c r row i j R W J). exact Dm. }
        exact (eq_ind _ (fun t => In j t) I _ E).
Qed.

Lemma nth_same_index n i : i < n -> nth i (map (fun i => [Z.of_nat i]) (seq 0 n)) [] = [Z.of_nat i].
Proof.
  intro H. rewrite (nth_indep _ [] [Z.of_nat 0]) by (rewrite map_length, seq_length; exact H).
  rewrite (map_nth (fun i => [Z.of_nat i])), seq_nth by exact H. reflexivity.
Qed.
Lemma plain_labelled n mods leaves : 0 < n -> NoDup (map fst leaves) ->
  (forall e, In e leaves -> snd e <> [] /\ NoDup (snd e) /\ incl (snd e) mods) ->
  labelled (plain_net n mods leaves) n (fun _ j => j) (fun _ i => i).
Proof.
  intros Hn HN HL. split; [exact Hn| | |].
  - cbn [plain_net sg_leaves]. rewrite map_map. cbn [lf_name]. exact HN.
  - intros l L. cbn [plain_net sg_leaves sg_mods] in *. apply in_map_iff in L. destruct L as ([nm cs] & <- & L).
    destruct (HL _ L) as (Ne & ND & Inc). cbn [fst snd] in *.
    assert (Ec : forall x y, centers_of (mkLeaf nm [(1%nat, map (fun c => (c, same_index n)) cs)] x y) = cs).
    { intros x y. unfold centers_of. cbn [lf_dims map concat snd]. rewrite app_nil_r, map_map. cbn [fst]. apply map_id. }
    rewrite Ec. cbn [lf_centers lf_dims lf_name]. split; [destruct cs as [|c cs]; [congruence|exists c; now left]|].
    split; [exact ND|]. split; [exact Inc|]. split; [exact Inc|].
    exists 1, (map (fun c => (c, same_index n)) cs), n. split; [reflexivity|]. split; [exact Hn|].
    intros c r R. apply in_map_iff in R. destruct R as (c' & E & _). injection E as _ <-.
    unfold same_index. split; [discriminate|]. split.
    { intros row [<- |[]]. rewrite map_length, seq_length. reflexivity. }
    split.
    + intros row i [<- |[]] B. rewrite nth_same_index by exact B. split; [discriminate|].
      intros j [<- |[]]. split; [lia|reflexivity].
    + intros j B. exists (map (fun i => [Z.of_nat i]) (seq 0 n)), (Z.to_nat j). split; [now left|].
      split; [lia|]. rewrite nth_same_index by lia. left. lia.
  - intros l c a b _ _ _ _ ->. apply rt_refl.
Qed.
