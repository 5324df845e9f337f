(** Proofs about copied reshapes and transposes. *)
From Coq Require Import List Arith Bool Lia.
From Verif Require Import OutTransModel OutTransSpec OutTransProofs BranchModel BranchSpec.
Import ListNotations.

Lemma is_same_iff k : is_same k = true <-> exists f, k = BSame f.
Proof. destruct k; cbn; split; try discriminate; try (intros (? & ?); discriminate); eauto. Qed.
Lemma is_bout_iff k : is_bout k = true <-> k = BOut.
Proof. destruct k; cbn; split; try discriminate; auto. Qed.
Lemma succ_In g n r : In r (b_succ g n) <-> exists t, In (n, r, t) (bed g).
Proof.
  unfold b_succ. rewrite in_map_iff. split.
  - intros ([[a b] c] & E & H). apply filter_In in H. destruct H as [H F]. cbn in *. apply Nat.eqb_eq in F. subst. eauto.
  - intros (t & H). exists (n, r, t). split; [reflexivity|]. apply filter_In. cbn. now rewrite Nat.eqb_refl.
Qed.
Lemma edge_iff g s d t : b_consistent g -> In (s, d, t) (bed g) <-> s = bprod g t /\ In d (bids g) /\ In t (bin (bn g d)).
Proof.
  intros C. rewrite <- ecount_In, (C s d t). rewrite <- (o_mem_In d). rewrite (count_occ_In Nat.eq_dec). destruct (s =? bprod g t) eqn:E.
  - apply Nat.eqb_eq in E. destruct (o_mem d (bids g)); cbn [andb]; intuition (lia || discriminate).
  - apply Nat.eqb_neq in E. cbn [andb]. intuition lia.
Qed.
Lemma same_shape g n f : b_wf g -> In n (bids g) -> bk (bn g n) = BSame f -> exists u t, bin (bn g n) = [u] /\ bout (bn g n) = [t].
Proof. intros (_ & W) H K. destruct (W n H) as (_ & _ & _ & S). exact (S f K). Qed.

(** the nodes that are chosen *)
Definition selected (g : bg) (n : nat) : Prop := In n (map (fun e : oedge => fst (fst e)) (filter (branch_edge g) (bed g))).
Lemma selected_branches g n : b_wf g -> b_consistent g -> (selected g n <-> branches g n).
Proof.
  intros W C. unfold selected. rewrite in_map_iff. split.
  - intros ([[s d] l] & E & H). apply filter_In in H. destruct H as [H B]. cbn in E. subst s. unfold branch_edge in B. cbn [fst snd] in B.
    rewrite !andb_true_iff, !is_same_iff, Nat.ltb_lt, Nat.eqb_eq in B. destruct B as [[[K L] [f2 K2]] Q].
    apply (edge_iff g n d l C) in H. destruct H as (P & D & IN). destruct (same_shape g d f2 W D K2) as (u2 & t2 & U2 & T2).
    rewrite U2 in IN, Q. destruct IN as [<-|[]]. cbn in Q. assert (W' := W). destruct W' as (_ & W'). destruct (W' d D) as (_ & X & _).
    assert (IU : In u2 (bin (bn g d))) by (rewrite U2; now left). destruct (X u2 IU) as (_ & PN & PO). rewrite <- P in PN, PO.
    destruct K as (f & K). destruct (same_shape g n f W PN K) as (u & t & U & T). rewrite T in PO, Q. destruct PO as [<-|[]]. clear Q.
    (* all edges of n are labelled t *)
    assert (LB : forall a b, In (n, a, b) (bed g) -> b = t).
    { intros a b Z. apply (edge_iff g n a b C) in Z. destruct Z as (Z1 & Z2 & Z3). destruct (W' a Z2) as (_ & Y & _). destruct (Y b Z3) as (_ & _ & Y3).
      rewrite <- Z1, T in Y3. destruct Y3 as [Y3|[]]. congruence. }
    assert (OT : exists r', r' <> d /\ In (n, r', t) (bed g)).
    { assert (EC : ecount n d t (bed g) = 1).
      { rewrite (C n d t), <- P, Nat.eqb_refl, (proj2 (o_mem_In d (bids g)) D), U2. cbn. destruct (Nat.eq_dec t t); [reflexivity|congruence]. }
      unfold b_succ in L. rewrite map_length in L.
      assert (G : forall l, (forall a b, In (n, a, b) l -> b = t) -> (forall r', r' <> d -> ~ In (n, r', t) l) ->
                length (filter (fun e : oedge => fst (fst e) =? n) l) = ecount n d t l).
      { induction l as [|[[a b] c] l IH]; intros A B; [reflexivity|]. unfold ecount in *. cbn [filter fst snd]. destruct (a =? n) eqn:AN; cbn [andb].
        - apply Nat.eqb_eq in AN. subst a. assert (c = t) by (apply (A b c); now left). subst c. rewrite Nat.eqb_refl, andb_true_r.
          destruct (b =? d) eqn:BD; [|apply Nat.eqb_neq in BD; elim (B b BD); now left]. cbn [length]. f_equal. apply IH; [intros; eapply A; right; eauto|].
          intros r' R Z. apply (B r' R). now right.
        - apply IH; [intros; eapply A; right; eauto|]. intros r' R Z. apply (B r' R). now right. }
      destruct (Exists_dec (fun e => fst (fst e) = n /\ snd (fst e) <> d) (bed g)) as [X1|X1].
      { intros e. destruct (Nat.eq_dec (fst (fst e)) n); [|right; tauto]. destruct (Nat.eq_dec (snd (fst e)) d); [right; tauto|left; tauto]. }
      - apply Exists_exists in X1. destruct X1 as ([[a b] c] & X2 & X3 & X4). cbn in *. subst a. exists b. split; [exact X4|]. rewrite <- (LB b c X2). exact X2.
      - rewrite G in L; [lia|exact LB|]. intros r' R Z. apply X1. apply Exists_exists. exists (n, r', t). auto. }
    destruct OT as (r' & R & Z). apply (edge_iff g n r' t C) in Z. destruct Z as (_ & Z2 & Z3).
    split; [exact PN|]. split; [eauto|]. exists t, d, r'. rewrite T. repeat split; auto; [now left|eauto].
  - intros (N & (f & K) & t & r & r' & T & R & R' & D & IR & IR' & f2 & K2).
    assert (W' := W). destruct W' as (_ & W'). destruct (W' n N) as (_ & _ & X & _). destruct (X t T) as [_ P].
    assert (E1 : In (n, r, t) (bed g)) by (apply (edge_iff g n r t C); auto). assert (E2 : In (n, r', t) (bed g)) by (apply (edge_iff g n r' t C); auto).
    exists (n, r, t). split; [reflexivity|]. apply filter_In. split; [exact E1|]. unfold branch_edge. cbn [fst snd].
    destruct (same_shape g n f W N K) as (u & t' & U & T'). destruct (same_shape g r f2 W R K2) as (u2 & t2 & U2 & T2).
    rewrite T' in T. destruct T as [<-|[]]. rewrite U2 in IR. destruct IR as [->|[]]. rewrite K, K2, T', U2. cbn [is_same nth andb].
    rewrite Nat.eqb_refl, !andb_true_r. apply Nat.ltb_lt.
    assert (S1 : In r (b_succ g n)) by (apply succ_In; eauto). assert (S2 : In r' (b_succ g n)) by (apply succ_In; eauto).
    destruct (b_succ g n) as [|a [|b l]]; [contradiction| |cbn; lia]. destruct S1 as [->|[]], S2 as [->|[]]. contradiction.
Qed.

(** * Copying *)
Definition made (g : bg) (t : nat) : Prop := t < bnext g /\ In (bprod g t) (bids g) /\ In t (bout (bn g (bprod g t))).
Definition act_ok {V} (g : bg) (v : nat -> V) (a : bact) : Prop :=
  let '(r, i, m) := a in In r (bids g) /\ bk (bn g r) <> BOut /\ i < length (bin (bn g r)) /\ v m = v (nth i (bin (bn g r)) 0) /\ made g m.
Record binv {V} (den : nat -> list V -> list V) (g0 : bg) (v0 : nat -> V) (g : bg) (acts : list bact) (v : nat -> V) : Prop := mkBI {
  bi_wf : b_wf g; bi_con : b_consistent g; bi_comp : b_computes den g v;
  bi_ids : forall n, In n (bids g0) -> In n (bids g) /\ bn g n = bn g0 n;
  bi_next : bnext g0 <= bnext g; bi_prod : forall t, t < bnext g0 -> bprod g t = bprod g0 t;
  bi_val : forall t, t < bnext g0 -> v t = v0 t;
  bi_ed : exists new, bed g = bed g0 ++ new;
  bi_new : forall n, In n (bids g) -> In n (bids g0) \/ (bnext g0 <= n /\ exists f n0 u, branches g0 n0 /\ In u (bin (bn g0 n0)) /\ bn g n = mkBN (BSame f) [u] [n]);
  bi_acts : Forall (act_ok g v) acts;
  bi_act1 : forall r i m, In (r, i, m) acts -> bnext g0 <= m;
  bi_act2 : forall r i r' i' m, In (r, i, m) acts -> In (r', i', m) acts -> r = r' }.
Lemma positions_In t l i : In i (o_positions t l) <-> i < length l /\ nth i l 0 = t.
Proof. unfold o_positions. rewrite filter_In, in_seq, Nat.eqb_eq. intuition lia. Qed.
Lemma positions_nil t l : In t l -> o_positions t l <> [].
Proof.
  intros H E. apply (In_nth _ _ 0) in H. destruct H as (i & L & N). assert (X : In i (o_positions t l)) by (apply positions_In; auto). now rewrite E in X.
Qed.

Section Copy.
Context {V : Type} (den : nat -> list V -> list V) (cst : bool) (g0 : bg) (v0 : nat -> V) (W0 : b_wf g0) (CST : cst = true \/ no_const g0).
Lemma branch_shape n : branches g0 n -> exists f u t, bn g0 n = mkBN (BSame f) [u] [t].
Proof.
  intros (N & (f & K) & _). destruct (same_shape g0 n f W0 N K) as (u & t & U & T). exists f, u, t. destruct (bn g0 n); cbn in *; congruence.
Qed.
Lemma copy_ok n t r g acts v : branches g0 n -> bout (bn g0 n) = [t] -> binv den g0 v0 g acts v -> In r (bids g) -> bk (bn g r) <> BOut -> In t (bin (bn g r)) ->
  exists g' v', b_copy cst n (g, acts) r = Some (g', acts ++ map (fun i => (r, i, bnext g)) (o_positions t (bin (bn g r)))) /\
    binv den g0 v0 g' (acts ++ map (fun i => (r, i, bnext g)) (o_positions t (bin (bn g r)))) v' /\
    (forall x, In x (bids g) -> In x (bids g') /\ bn g' x = bn g x) /\
    (forall x y l, In (x, y, l) (bed g') -> In (x, y, l) (bed g) \/ exists f, bk (bn g' y) = BSame f).
Proof.
  intros B T I R K IN. destruct (branch_shape n B) as (f & u & t' & S). assert (t' = t) by (rewrite S in T; cbn in T; congruence). subst t'.
  assert (NI : In n (bids g0)) by apply B. destruct (bi_ids _ _ _ _ _ _ I n NI) as [NG SN]. rewrite S in SN.
  assert (WG := bi_wf _ _ _ _ _ _ I). assert (WG' := WG). destruct WG' as [ND W]. destruct (W n NG) as (NL & WI & WO & _). rewrite SN in WI, WO. cbn [bin bout] in WI, WO.
  destruct (WI u (or_introl eq_refl)) as (UL & UP & UO). destruct (WO t (or_introl eq_refl)) as (TL & TP).
  assert (U0 : u < bnext g0). { destruct W0 as [_ W00]. destruct (W00 n NI) as (_ & X & _). rewrite S in X. exact (proj1 (X u (or_introl eq_refl))). }
  set (m := bnext g). set (g' := mkBG (o_upd (bn g) m (mkBN (BSame f) [u] [m])) (bids g ++ [m]) (bed g ++ [(bprod g u, m, u)]) (o_upd (bprod g) m m) (Datatypes.S m)).
  set (v' := fun x => if x =? m then v t else v x).
  set (acts' := acts ++ map (fun i => (r, i, m)) (o_positions t (bin (bn g r)))).
  assert (SM : forall x, In x (bids g) -> x < m) by (intros x X; exact (proj1 (W x X))).
  assert (OLD : forall x, In x (bids g) -> bn g' x = bn g x).
  { intros x X. apply SM in X. cbn. unfold o_upd. destruct (x =? m) eqn:E; [apply Nat.eqb_eq in E; lia|reflexivity]. }
  assert (NEW : bn g' m = mkBN (BSame f) [u] [m]) by (cbn; unfold o_upd; now rewrite Nat.eqb_refl).
  assert (PR : forall x, x < m -> bprod g' x = bprod g x).
  { intros x X. cbn. unfold o_upd. destruct (x =? m) eqn:E; [apply Nat.eqb_eq in E; lia|reflexivity]. }
  assert (PM : bprod g' m = m) by (cbn; unfold o_upd; now rewrite Nat.eqb_refl).
  assert (IDS : forall x, In x (bids g') <-> In x (bids g) \/ x = m) by (intros x; cbn; rewrite in_app_iff; cbn; intuition).
  assert (VO : forall x, x < m -> v' x = v x) by (intros x X; unfold v'; destruct (x =? m) eqn:E; [apply Nat.eqb_eq in E; lia|reflexivity]).
  assert (VM : v' m = v t) by (unfold v'; now rewrite Nat.eqb_refl).
  assert (INS : forall x y, In x (bids g) -> In y (bin (bn g x)) -> y < m) by (intros x y X Y; destruct (W x X) as (_ & Z & _); exact (proj1 (Z y Y))).
  assert (OUTS : forall x y, In x (bids g) -> In y (bout (bn g x)) -> y < m) by (intros x y X Y; destruct (W x X) as (_ & _ & Z & _); exact (proj1 (Z y Y))).
  assert (MADE : forall x, made g x -> made g' x).
  { intros x (X1 & X2 & X3). unfold made. rewrite PR by exact X1. split; [cbn; lia|]. split; [apply IDS; now left|]. now rewrite OLD. }
  assert (MM : made g' m) by (unfold made; rewrite PM; split; [cbn; lia|split; [apply IDS; now right|rewrite NEW; now left]]).
  exists g', v'. split; [|split; [|split]].
  - unfold b_copy. rewrite SN. cbn [bin bout nth bk]. fold m.
    assert (FC : match bk (bn g (bprod g u)) with BConst => true | _ => false end && negb cst = false).
    { destruct CST as [->|NC]; [apply andb_false_r|]. rewrite (bi_prod _ _ _ _ _ _ I u U0).
      assert (X := NC n u B). rewrite S in X. specialize (X (or_introl eq_refl)).
      assert (Y : In (bprod g0 u) (bids g0)). { destruct W0 as [_ W00]. destruct (W00 n NI) as (_ & Z & _). rewrite S in Z. exact (proj1 (proj2 (Z u (or_introl eq_refl)))). }
      rewrite (proj2 (bi_ids _ _ _ _ _ _ I _ Y)). destruct (bk (bn g0 (bprod g0 u))); try reflexivity. congruence. }
    rewrite FC. assert (BO : is_bout (bk (bn g r)) = false) by (destruct (bk (bn g r)); try reflexivity; congruence). rewrite BO.
    assert (PN := positions_nil _ _ IN). unfold acts'. destruct (o_positions t (bin (bn g r))); [congruence|]. reflexivity.
  - constructor.
    + split.
      * cbn. apply NoDup_Add with (a := m) (l := bids g); [|split; [exact ND|intros X; apply SM in X; lia]].
        assert (A := Add_app m (bids g) []). rewrite app_nil_r in A. exact A.
      * intros x X. apply IDS in X. destruct X as [X| ->].
        -- rewrite OLD by exact X. destruct (W x X) as (X1 & X2 & X3 & X4). split; [cbn; fold m in X1; lia|]. split; [|split].
           ++ intros y Y. apply MADE. exact (X2 y Y).
           ++ intros y Y. rewrite PR by (eapply OUTS; eauto). split; [apply OUTS in Y; [cbn; lia|exact X]|exact (proj2 (X3 y Y))].
           ++ exact X4.
        -- rewrite NEW. cbn [bin bout bk]. split; [cbn; lia|]. split; [|split].
           ++ intros y [<-|[]]. apply MADE. split; [exact UL|split; assumption].
           ++ intros y [<-|[]]. split; [cbn; lia|exact PM].
           ++ eauto.
    + intros a d x. cbn [bed g']. rewrite ecount_app, (bi_con _ _ _ _ _ _ I a d x).
      assert (E1 : ecount a d x [(bprod g u, m, u)] = if (bprod g u =? a) && (m =? d) && (u =? x) then 1 else 0).
      { unfold ecount. cbn [filter fst snd]. destruct ((bprod g u =? a) && (m =? d) && (u =? x)); reflexivity. }
      rewrite E1. clear E1. destruct (Nat.eq_dec d m) as [->|DM].
      * assert (M1 : o_mem m (bids g) = false) by (apply o_mem_not; intros X; apply SM in X; lia).
        assert (M2 : o_mem m (bids g ++ [m]) = true) by (apply o_mem_In, in_or_app; right; now left).
        change (bids g') with (bids g ++ [m]). rewrite M1, M2, andb_false_r, andb_true_r, Nat.eqb_refl, andb_true_r, NEW. cbn [bin count_occ]. rewrite (Nat.eqb_sym (bprod g u) a).
        destruct (Nat.eq_dec u x) as [<-|UX].
        -- rewrite Nat.eqb_refl, andb_true_r. rewrite PR by exact UL. cbn. destruct (a =? bprod g u); reflexivity.
        -- apply Nat.eqb_neq in UX. rewrite UX, andb_false_r. cbn. destruct (a =? _); reflexivity.
      * assert (MD : (m =? d) = false) by (apply Nat.eqb_neq; auto). rewrite MD, andb_false_r. cbn [andb]. rewrite Nat.add_0_r.
        assert (M2 : o_mem d (bids g ++ [m]) = o_mem d (bids g)).
        { apply eq_true_iff_eq. rewrite !o_mem_In, in_app_iff. cbn. intuition congruence. }
        change (bids g') with (bids g ++ [m]). rewrite M2. destruct (o_mem d (bids g)) eqn:D; [|now rewrite !andb_false_r].
        apply o_mem_In in D. rewrite OLD by exact D. destruct (Nat.eq_dec x m) as [->|XM].
        -- assert (Z : count_occ Nat.eq_dec (bin (bn g d)) m = 0) by (apply count_occ_not_In; intros X; apply (INS d m D) in X; lia).
           rewrite Z. destruct (_ && _), (_ && _); reflexivity.
        -- assert (Q : bprod g' x = bprod g x) by (cbn; unfold o_upd; apply Nat.eqb_neq in XM; now rewrite XM). now rewrite Q.
    + intros x X. apply IDS in X. destruct X as [X| ->].
      * rewrite OLD by exact X. assert (Y := bi_comp _ _ _ _ _ _ I x X).
        rewrite (map_ext_in v' v (bout (bn g x))) by (intros y Z; apply VO; eapply OUTS; eauto).
        rewrite (map_ext_in v' v (bin (bn g x))) by (intros y Z; apply VO; eapply INS; eauto). exact Y.
      * rewrite NEW. cbn [bk bout bin map]. rewrite VM, VO by exact UL. assert (Y := bi_comp _ _ _ _ _ _ I n NG). rewrite SN in Y. exact Y.
    + intros x X. destruct (bi_ids _ _ _ _ _ _ I x X) as [A1 A2]. split; [apply IDS; now left|]. now rewrite OLD.
    + cbn. assert (X := bi_next _ _ _ _ _ _ I). fold m in X. lia.
    + intros x X. assert (Y := bi_next _ _ _ _ _ _ I). fold m in Y. rewrite PR by lia. now apply (bi_prod _ _ _ _ _ _ I).
    + intros x X. assert (Y := bi_next _ _ _ _ _ _ I). fold m in Y. rewrite VO by lia. now apply (bi_val _ _ _ _ _ _ I).
    + destruct (bi_ed _ _ _ _ _ _ I) as (new & E). exists (new ++ [(bprod g u, m, u)]). cbn. now rewrite E, <- app_assoc.
    + intros x X. apply IDS in X. destruct X as [X| ->].
      * rewrite OLD by exact X. exact (bi_new _ _ _ _ _ _ I x X).
      * right. split; [exact (bi_next _ _ _ _ _ _ I)|]. exists f, n, u. split; [exact B|]. split; [rewrite S; now left|exact NEW].
    + apply Forall_app. split.
      * assert (X := bi_acts _ _ _ _ _ _ I). rewrite Forall_forall in *. intros [[a b] c] Y. destruct (X _ Y) as (X1 & X2 & X3 & X4 & X5).
        unfold act_ok. rewrite OLD by exact X1. split; [apply IDS; now left|]. split; [exact X2|]. split; [exact X3|]. split; [|now apply MADE].
        rewrite VO by apply X5. rewrite X4. symmetry. apply VO. apply (INS a); [exact X1|]. now apply nth_In.
      * rewrite Forall_forall. intros a A. apply in_map_iff in A. destruct A as (i & <- & A). apply positions_In in A. destruct A as [A1 A2].
        unfold act_ok. rewrite OLD by exact R. split; [apply IDS; now left|]. split; [exact K|]. split; [exact A1|]. split; [|exact MM].
        rewrite A2, VM. symmetry. apply VO. exact TL.
    + intros a b c X. apply in_app_or in X. destruct X as [X|X]; [exact (bi_act1 _ _ _ _ _ _ I a b c X)|]. apply in_map_iff in X.
      destruct X as (i & X & _). injection X as <- <- <-. exact (bi_next _ _ _ _ _ _ I).
    + assert (OL : forall a b c, In (a, b, c) acts -> c < m).
      { intros a b c X. assert (Y := bi_acts _ _ _ _ _ _ I). rewrite Forall_forall in Y. destruct (Y _ X) as (_ & _ & _ & _ & Z & _). exact Z. }
      intros a b a' b' c X Y. apply in_app_or in X, Y. destruct X as [X|X], Y as [Y|Y].
      * exact (bi_act2 _ _ _ _ _ _ I _ _ _ _ _ X Y).
      * apply in_map_iff in Y. destruct Y as (i & Y & _). injection Y as <- <- <-. apply OL in X. lia.
      * apply in_map_iff in X. destruct X as (i & X & _). injection X as <- <- <-. apply OL in Y. lia.
      * apply in_map_iff in X, Y. destruct X as (i & X & _), Y as (j & Y & _). congruence.
  - intros x X. split; [apply IDS; now left|now apply OLD].
  - intros x y l X. cbn [bed g'] in X. apply in_app_or in X. destruct X as [X|[X|[]]]; [now left|right]. injection X as <- <- <-. exists f. now rewrite NEW.
Qed.
End Copy.

(** which node stays *)
Lemma preserve_In g : forall l a, exists p, fold_left (fun p m => match p with None => Some m | Some _ => if is_bout (bk (bn g m)) then Some m else p end) l (Some a) = Some p /\
  (p = a \/ In p l) /\ (is_bout (bk (bn g p)) = true \/ (p = a /\ forall x, In x l -> is_bout (bk (bn g x)) = false)).
Proof.
  induction l as [|x l IH]; intros a; cbn [fold_left].
  - exists a. split; [reflexivity|]. split; [now left|]. right. split; [reflexivity|intros x []].
  - destruct (is_bout (bk (bn g x))) eqn:E.
    + destruct (IH x) as (p & P1 & P2 & P3). exists p. split; [exact P1|]. split; [destruct P2 as [->|P2]; [right; now left|right; now right]|].
      left. destruct P3 as [P3|[-> _]]; [exact P3|exact E].
    + destruct (IH a) as (p & P1 & P2 & P3). exists p. split; [exact P1|]. split; [destruct P2; [now left|right; now right]|].
      destruct P3 as [P3|[-> P3]]; [now left|]. right. split; [reflexivity|]. intros y [<-|Y]; auto.
Qed.
Lemma preserve_spec g l : match preserve g l with
  | None => l = []
  | Some p => In p l /\ ((exists x, In x l /\ is_bout (bk (bn g x)) = true) -> is_bout (bk (bn g p)) = true) end.
Proof.
  unfold preserve. destruct l as [|a l]; [reflexivity|]. cbn [fold_left]. destruct (preserve_In g l a) as (p & P1 & P2 & P3). rewrite P1.
  split; [destruct P2 as [->|P2]; [now left|now right]|]. intros (x & X & E). destruct P3 as [P3|[-> P3]]; [exact P3|].
  destruct X as [<-|X]; [exact E|]. rewrite P3 in E by exact X. discriminate.
Qed.

Section Loop.
Context {V : Type} (den : nat -> list V -> list V) (cst : bool) (ord : list nat -> list nat) (g0 : bg) (v0 : nat -> V).
Context (W0 : b_wf g0) (C0 : b_consistent g0) (CST : cst = true \/ no_const g0) (O1 : one_output g0) (ORD : an_order ord).
(** no edges to new OUTPUT nodes *)
Definition outs_old (g : bg) : Prop := forall x y l, In (x, y, l) (bed g) -> In (x, y, l) (bed g0) \/ exists f, bk (bn g y) = BSame f.
Lemma copies_ok n t : branches g0 n -> bout (bn g0 n) = [t] -> forall rs g acts v, binv den g0 v0 g acts v -> outs_old g ->
  (forall r, In r rs -> In r (bids g) /\ bk (bn g r) <> BOut /\ In t (bin (bn g r))) ->
  exists g' acts' v', b_copies cst n rs (g, acts) = Some (g', acts') /\ binv den g0 v0 g' acts' v' /\ outs_old g' /\ incl acts acts' /\
    (forall x, In x (bids g) -> In x (bids g') /\ bn g' x = bn g x) /\
    (forall r i, In r rs -> In i (o_positions t (bin (bn g r))) -> exists m, In (r, i, m) acts').
Proof.
  intros B T. induction rs as [|r rs IH]; intros g acts v I OO H.
  - exists g, acts, v. cbn [b_copies]. split; [reflexivity|]. split; [exact I|]. split; [exact OO|]. split; [apply incl_refl|]. split; [auto|]. intros r i [].
  - destruct (H r (or_introl eq_refl)) as (H1 & H2 & H3). destruct (copy_ok den cst g0 v0 W0 CST n t r g acts v B T I H1 H2 H3) as (g1 & v1 & E & I1 & X1 & X2).
    set (acts1 := acts ++ map (fun i => (r, i, bnext g)) (o_positions t (bin (bn g r)))) in *.
    destruct (IH g1 acts1 v1 I1) as (g2 & acts2 & v2 & E2 & I2 & OO2 & L2 & Y1 & Y2).
    + intros x y l X. destruct (X2 x y l X) as [Z|Z]; [|now right]. destruct (OO x y l Z) as [Q|(f & Q)]; [now left|]. right. exists f.
      apply (edge_iff g x y l (bi_con _ _ _ _ _ _ I)) in Z. destruct Z as (_ & Z & _). now rewrite (proj2 (X1 y Z)).
    + intros x X. destruct (H x (or_intror X)) as (Z1 & Z2 & Z3). destruct (X1 x Z1) as [Q1 Q2]. rewrite Q2. auto.
    + exists g2, acts2, v2. cbn [b_copies]. rewrite E. split; [exact E2|]. split; [exact I2|]. split; [exact OO2|]. split; [|split].
      * intros a A. apply L2. apply in_or_app. now left.
      * intros x X. destruct (X1 x X) as [Q1 Q2]. destruct (Y1 x Q1) as [Q3 Q4]. split; [exact Q3|congruence].
      * intros x i [<-|X] P.
        -- exists (bnext g). apply L2. apply in_or_app. right. apply (in_map (fun i => (r, i, bnext g))). exact P.
        -- destruct (H x (or_intror X)) as (Z1 & _). apply Y2; [exact X|]. now rewrite (proj2 (X1 x Z1)).
Qed.
(** all readers of [n] but one have an action *)
Definition covered (acts : list bact) (n : nat) : Prop :=
  exists p, forall r i t, In r (bids g0) -> In t (bout (bn g0 n)) -> In i (o_positions t (bin (bn g0 r))) -> r = p \/ exists m, In (r, i, m) acts.
Lemma node_ok n g acts v : branches g0 n -> binv den g0 v0 g acts v -> outs_old g ->
  exists g' acts' v', b_node cst ord (g, acts) n = Some (g', acts') /\ binv den g0 v0 g' acts' v' /\ outs_old g' /\ incl acts acts' /\ covered acts' n.
Proof.
  intros B I OO. destruct (branch_shape g0 W0 n B) as (f & u & t & S). assert (T : bout (bn g0 n) = [t]) by now rewrite S.
  assert (NI : In n (bids g0)) by apply B. destruct (bi_ids _ _ _ _ _ _ I n NI) as [NG SN].
  assert (CG := bi_con _ _ _ _ _ _ I). assert (WG := bi_wf _ _ _ _ _ _ I).
  assert (RD : forall r, In r (b_succ g n) <-> In r (bids g) /\ In t (bin (bn g r))).
  { intros r. rewrite succ_In. split.
    - intros (l & X). apply (edge_iff g n r l CG) in X. destruct X as (X1 & X2 & X3). destruct WG as [_ W]. destruct (W r X2) as (_ & Y & _).
      destruct (Y l X3) as (_ & _ & Z). rewrite <- X1, SN, T in Z. destruct Z as [<-|[]]. auto.
    - intros [X1 X2]. exists t. apply (edge_iff g n r t CG). split; [|auto]. destruct WG as [_ W]. destruct (W n NG) as (_ & _ & Y & _).
      symmetry. apply (Y t). rewrite SN, T. now left. }
  unfold b_node. cbn [fst]. assert (P := preserve_spec g (b_succ g n)). destruct (preserve g (b_succ g n)) as [p|].
  - destruct P as [P1 P2]. destruct (ORD (filter (fun m => negb (m =? p)) (b_succ g n))) as [_ OI].
    destruct (copies_ok n t B T (ord (filter (fun m => negb (m =? p)) (b_succ g n))) g acts v I OO) as (g' & acts' & v' & E & I' & OO' & L & X1 & X2).
    { intros r X. apply OI, filter_In in X. destruct X as [X NP]. apply negb_true_iff, Nat.eqb_neq in NP. assert (X' := X). apply RD in X'. destruct X' as [X1 X2].
      split; [exact X1|]. split; [|exact X2]. intros K. apply NP.
      assert (KP : bk (bn g p) = BOut) by (apply is_bout_iff, P2; exists r; split; [exact X|now apply is_bout_iff]).
      assert (OLD : forall x, In x (b_succ g n) -> bk (bn g x) = BOut -> In x (bids g0) /\ In t (bin (bn g0 x)) /\ bk (bn g0 x) = BOut).
      { intros x Y KX. assert (Y' := Y). apply succ_In in Y'. destruct Y' as (l & Y'). destruct (OO n x l Y') as [Z|(f' & Z)]; [|congruence].
        apply (edge_iff g0 n x l C0) in Z. destruct Z as (_ & Z & _). destruct (bi_ids _ _ _ _ _ _ I x Z) as [_ Q]. apply RD in Y. rewrite Q in *. tauto. }
      destruct (OLD r X K) as (A1 & A2 & A3). destruct (OLD p P1 KP) as (A4 & A5 & A6).
      apply (O1 n t r p B); auto. rewrite T. now left. }
    exists g', acts', v'. split; [exact E|]. split; [exact I'|]. split; [exact OO'|]. split; [exact L|]. exists p. intros r i x R X PO.
    rewrite T in X. destruct X as [<-|[]]. destruct (Nat.eq_dec r p) as [->|NP]; [now left|]. right. destruct (bi_ids _ _ _ _ _ _ I r R) as [RG RN].
    apply X2; [|now rewrite RN]. apply OI, filter_In. split; [|now apply negb_true_iff, Nat.eqb_neq]. apply RD. split; [exact RG|]. rewrite RN.
    apply positions_In in PO. destruct PO as [P3 <-]. now apply nth_In.
  - exists g, acts, v. cbn [b_copies]. split; [reflexivity|]. split; [exact I|]. split; [exact OO|]. split; [apply incl_refl|]. exists 0. intros r i x R X PO.
    exfalso. rewrite T in X. destruct X as [<-|[]]. destruct (bi_ids _ _ _ _ _ _ I r R) as [RG RN]. apply positions_In in PO. destruct PO as [P3 P4].
    assert (Z : In r (b_succ g n)) by (apply RD; split; [exact RG|]; rewrite RN, <- P4; now apply nth_In). rewrite P in Z. contradiction.
Qed.
Lemma nodes_ok : forall ns g acts v, (forall n, In n ns -> branches g0 n) -> binv den g0 v0 g acts v -> outs_old g ->
  exists g' acts' v', b_nodes cst ord ns (g, acts) = Some (g', acts') /\ binv den g0 v0 g' acts' v' /\ outs_old g' /\ incl acts acts' /\ forall n, In n ns -> covered acts' n.
Proof.
  induction ns as [|n ns IH]; intros g acts v B I OO.
  - exists g, acts, v. cbn [b_nodes]. split; [reflexivity|]. split; [exact I|]. split; [exact OO|]. split; [apply incl_refl|]. intros n [].
  - destruct (node_ok n g acts v (B n (or_introl eq_refl)) I OO) as (g1 & a1 & v1 & E1 & I1 & OO1 & L1 & X1).
    destruct (IH g1 a1 v1 (fun m H => B m (or_intror H)) I1 OO1) as (g2 & a2 & v2 & E2 & I2 & OO2 & L2 & X2).
    exists g2, a2, v2. cbn [b_nodes]. rewrite E1. split; [exact E2|]. split; [exact I2|]. split; [exact OO2|]. split; [eapply incl_tran; eauto|].
    intros m [<-|M]; [|now apply X2]. destruct X1 as (p & X1). exists p. intros r i t R T P. destruct (X1 r i t R T P) as [->|(m & Q)]; [now left|]. right. exists m. now apply L2.
Qed.
End Loop.

(** * The actions *)
Lemma set_nth_length i x : forall l, length (set_nth i x l) = length l.
Proof. revert i. induction i as [|i IH]; intros [|y l]; cbn; auto. Qed.
Lemma set_nth_same i x : forall l d, i < length l -> nth i (set_nth i x l) d = x.
Proof. induction i as [|i IH]; intros [|y l] d H; cbn in *; try lia; apply IH; lia. Qed.
Lemma set_nth_other i j x : forall l d, i <> j -> nth j (set_nth i x l) d = nth j l d.
Proof.
  revert j. induction i as [|i IH]; intros [|j] [|y l] d H; cbn; try reflexivity; try congruence; apply IH; lia.
Qed.
Lemma set_nth_In i x y : forall l, In y (set_nth i x l) -> y = x \/ In y l.
Proof. induction i as [|i IH]; intros [|a l] H; cbn in *; auto; try (destruct H as [H|H]; auto; fail). destruct H as [H|H]; [auto|]. destruct (IH l H); auto. Qed.
Lemma set_nth_map {A} (h : nat -> A) i x : forall l, i < length l -> h x = h (nth i l 0) -> map h (set_nth i x l) = map h l.
Proof. induction i as [|i IH]; intros [|a l] L E; cbn in *; try lia; [now rewrite E|]. f_equal. apply IH; [lia|exact E]. Qed.
Lemma set_nth_count i x t : forall l, i < length l ->
  count_occ Nat.eq_dec (set_nth i x l) t + (if nth i l 0 =? t then 1 else 0) = count_occ Nat.eq_dec l t + (if x =? t then 1 else 0).
Proof.
  induction i as [|i IH]; intros [|a l] L; cbn [length set_nth nth count_occ] in *; try lia.
  - destruct (x =? t) eqn:E, (a =? t) eqn:F, (Nat.eq_dec x t), (Nat.eq_dec a t); rewrite ?Nat.eqb_eq, ?Nat.eqb_neq in *; try contradiction; lia.
  - assert (X := IH l ltac:(lia)). destruct (Nat.eq_dec a t); lia.
Qed.
Lemma ecount_cons s d t a l : ecount s d t (a :: l) = ecount s d t [a] + ecount s d t l.
Proof. exact (ecount_app s d t [a] l). Qed.
Lemma remove_one s d t e : forall l k i, nth_error l i = Some e ->
  ecount s d t (map snd (filter (fun ie : nat * oedge => negb (o_mem (fst ie) [k + i])) (combine (seq k (length l)) l))) + ecount s d t [e] = ecount s d t l.
Proof.
  induction l as [|a l IH]; intros k i N; [destruct i; discriminate|]. cbn [length seq combine]. destruct i as [|i].
  - injection N as ->. rewrite Nat.add_0_r.
    assert (A : filter (fun ie : nat * oedge => negb (o_mem (fst ie) [k])) ((k, e) :: combine (seq (S k) (length l)) l) = combine (seq (S k) (length l)) l).
    { cbn [filter fst o_mem existsb]. rewrite Nat.eqb_refl. cbn [orb negb].
      apply filter_all. intros [x y] H. apply in_combine_l, in_seq in H. cbn. destruct (x =? k) eqn:E; [apply Nat.eqb_eq in E; lia|reflexivity]. }
    rewrite A, map_snd_combine by apply seq_length. rewrite (ecount_cons s d t e l). lia.
  - assert (X := IH (S k) i N). replace (S k + i) with (k + S i) in X by lia.
    assert (A : forall L, filter (fun ie : nat * oedge => negb (o_mem (fst ie) [k + S i])) ((k, a) :: L) = (k, a) :: filter (fun ie : nat * oedge => negb (o_mem (fst ie) [k + S i])) L).
    { intros L. cbn [filter fst o_mem existsb]. destruct (k =? k + S i) eqn:E; [apply Nat.eqb_eq in E; lia|]. reflexivity. }
    rewrite A. cbn [map snd]. rewrite ecount_cons, (ecount_cons s d t a l). lia.
Qed.
Lemma ecount_one s d t a b c : ecount s d t [(a, b, c)] = if (a =? s) && (b =? d) && (c =? t) then 1 else 0.
Proof. unfold ecount. cbn [filter fst snd]. destruct ((a =? s) && (b =? d) && (c =? t)); reflexivity. Qed.

Section Act.
Context {V : Type} (den : nat -> list V -> list V) (v : nat -> V).
Lemma act_step_ok g r i m : b_wf g -> b_consistent g -> b_computes den g v -> act_ok g v (r, i, m) ->
  b_wf (b_act g (r, i, m)) /\ b_consistent (b_act g (r, i, m)) /\ b_computes den (b_act g (r, i, m)) v /\
  bids (b_act g (r, i, m)) = bids g /\ bprod (b_act g (r, i, m)) = bprod g /\ bnext (b_act g (r, i, m)) = bnext g /\
  (forall n, bk (bn (b_act g (r, i, m)) n) = bk (bn g n) /\ bout (bn (b_act g (r, i, m)) n) = bout (bn g n) /\
     bin (bn (b_act g (r, i, m)) n) = if n =? r then set_nth i m (bin (bn g r)) else bin (bn g n)) /\
  (forall n, map v (bin (bn (b_act g (r, i, m)) n)) = map v (bin (bn g n))).
Proof.
  intros W C CO (R & K & L & VM & (ML & MP & MO)). set (g' := b_act g (r, i, m)).
  assert (N : forall n, bk (bn g' n) = bk (bn g n) /\ bout (bn g' n) = bout (bn g n) /\ bin (bn g' n) = if n =? r then set_nth i m (bin (bn g r)) else bin (bn g n)).
  { intros n. unfold g'. cbn [b_act bn]. unfold o_upd. destruct (n =? r) eqn:E; [apply Nat.eqb_eq in E; subst; auto|auto]. }
  assert (M : forall n, map v (bin (bn g' n)) = map v (bin (bn g n))).
  { intros n. rewrite (proj2 (proj2 (N n))). destruct (n =? r) eqn:E; [|reflexivity]. apply Nat.eqb_eq in E. subst. now apply set_nth_map. }
  set (old := nth i (bin (bn g r)) 0). assert (OI : In old (bin (bn g r))) by now apply nth_In.
  assert (W' := W). destruct W' as [ND W']. destruct (W' r R) as (_ & RI & _). destruct (RI old OI) as (OL & OP & OO).
  split; [|split; [|split; [|split; [reflexivity|split; [reflexivity|split; [reflexivity|split; assumption]]]]]].
  - split; [exact ND|]. intros n H. change (bids g') with (bids g) in *. change (bnext g') with (bnext g). change (bprod g') with (bprod g).
    destruct (W' n H) as (A1 & A2 & A3 & A4). destruct (N n) as (N1 & N2 & N3). split; [exact A1|]. split; [|split].
    + intros t T. rewrite (proj1 (proj2 (N (bprod g t)))). rewrite N3 in T. destruct (n =? r) eqn:E; [|now apply A2]. apply Nat.eqb_eq in E. subst n.
      apply set_nth_In in T. destruct T as [->|T]; [auto|now apply A2].
    + intros t T. rewrite N2 in T. now apply A3.
    + intros f F. rewrite N1 in F. destruct (A4 f F) as (u & t & U & T). rewrite N2, N3. destruct (n =? r) eqn:E; [|eauto].
      apply Nat.eqb_eq in E. subst n. rewrite U in L |- *. destruct i as [|i]; [|cbn in L; lia]. cbn. eauto.
  - intros s d t. change (bids g') with (bids g). change (bprod g') with (bprod g).
    assert (E1 : exists a b, ecount s d t (bed g') + ecount s d t [(bprod g old, r, old)] = ecount s d t (bed g) + ecount s d t [(bprod g m, r, m)] /\ a = b :> nat).
    { exists 0, 0. split; [|reflexivity]. unfold g'. cbn [b_act bed]. fold old.
      destruct (find _ _) as [[k [[a b] c]]|] eqn:F.
      - apply find_some in F. destruct F as [F1 F2]. cbn [fst snd] in F2. rewrite !andb_true_iff, !Nat.eqb_eq in F2. destruct F2 as [[-> ->] _].
        assert (NE : nth_error (bed g) k = Some (a, r, old)).
        { revert F1. assert (Q : forall (l : list oedge) j x, In (k, x) (combine (seq j (length l)) l) -> nth_error l (k - j) = Some x /\ j <= k).
          { induction l as [|y l IH]; intros j x X; [destruct X|]. cbn [length seq combine] in X. destruct X as [X|X].
            - injection X as <- <-. rewrite Nat.sub_diag. split; [reflexivity|lia].
            - destruct (IH (S j) x X) as [X1 X2]. split; [|lia]. replace (k - j) with (S (k - S j)) by lia. exact X1. }
          intros F1. destruct (Q _ _ _ F1) as [Q1 _]. now rewrite Nat.sub_0_r in Q1. }
        assert (PA : a = bprod g old) by (apply nth_error_In in NE; apply (edge_iff g a r old C) in NE; tauto). subst a.
        cbn [fst]. assert (NE' : nth_error (bed g ++ [(bprod g m, r, m)]) k = Some (bprod g old, r, old)).
        { rewrite nth_error_app1; [exact NE|]. apply nth_error_Some. congruence. }
        assert (X := remove_one s d t _ _ 0 k NE'). cbn [Nat.add] in X. etransitivity; [exact X|]. apply ecount_app.
      - exfalso. assert (IE : In (bprod g old, r, old) (bed g)) by (apply (edge_iff g _ r old C); auto).
        apply In_nth_error in IE. destruct IE as (k & IE).
        assert (IC : In (k, (bprod g old, r, old)) (combine (seq 0 (length (bed g))) (bed g))).
        { assert (Q : forall (l : list oedge) j k x, nth_error l k = Some x -> In (j + k, x) (combine (seq j (length l)) l)).
          { induction l as [|y l IH]; intros j k' x X; [destruct k'; discriminate|]. cbn [length seq combine]. destruct k' as [|k'].
            - injection X as ->. rewrite Nat.add_0_r. now left.
            - right. replace (j + S k') with (S j + k') by lia. now apply IH. }
          exact (Q _ 0 k _ IE). }
        apply (find_none _ _ F) in IC. cbn [fst snd] in IC. rewrite !Nat.eqb_refl, (proj2 (o_mem_In old _) OO) in IC. discriminate. }
    destruct E1 as (_ & _ & E1 & _). rewrite (C s d t), !ecount_one in E1.
    assert (B : (if (s =? bprod g t) && o_mem d (bids g) then count_occ Nat.eq_dec (bin (bn g' d)) t else 0) + (if (bprod g old =? s) && (r =? d) && (old =? t) then 1 else 0) =
                (if (s =? bprod g t) && o_mem d (bids g) then count_occ Nat.eq_dec (bin (bn g d)) t else 0) + (if (bprod g m =? s) && (r =? d) && (m =? t) then 1 else 0)).
    { rewrite (proj2 (proj2 (N d))). destruct (d =? r) eqn:DR.
      - apply Nat.eqb_eq in DR. subst d. rewrite (proj2 (o_mem_In r _) R), Nat.eqb_refl, !andb_true_r. assert (X := set_nth_count i m t (bin (bn g r)) L). fold old in X.
        destruct (old =? t) eqn:OT, (m =? t) eqn:MT; rewrite ?andb_true_r, ?andb_false_r, ?Nat.eqb_eq in *; subst; rewrite ?(Nat.eqb_sym (bprod g _) s); destruct (s =? _); cbn in *; lia.
      - assert (RD : (r =? d) = false) by (rewrite Nat.eqb_sym; exact DR). rewrite RD, !andb_false_r. reflexivity. }
    lia.
  - intros n H. change (bids g') with (bids g) in H. destruct (N n) as (N1 & N2 & _). rewrite N1, N2, M. exact (CO n H).
Qed.
Lemma act_kept g a b : act_ok g v a -> b_wf g -> act_ok g v b -> act_ok (b_act g a) v b.
Proof.
  destruct a as [[r i] m], b as [[r' i'] m']. intros (R & K & L & VM & (ML & MP & MO)) W (R' & K' & L' & VM' & (ML' & MP' & MO')).
  assert (N : forall n, bk (bn (b_act g (r, i, m)) n) = bk (bn g n) /\ bout (bn (b_act g (r, i, m)) n) = bout (bn g n) /\
     bin (bn (b_act g (r, i, m)) n) = if n =? r then set_nth i m (bin (bn g r)) else bin (bn g n)).
  { intros n. cbn [b_act bn]. unfold o_upd. destruct (n =? r) eqn:E; [apply Nat.eqb_eq in E; subst; auto|auto]. }
  destruct (N r') as (N1 & N2 & N3). unfold act_ok, made. rewrite N1, N3, (proj1 (proj2 (N (bprod (b_act g (r, i, m)) m')))).
  change (bids (b_act g (r, i, m))) with (bids g). change (bprod (b_act g (r, i, m))) with (bprod g). change (bnext (b_act g (r, i, m))) with (bnext g).
  repeat split; auto.
  - destruct (r' =? r) eqn:E; [|exact L']. apply Nat.eqb_eq in E. subst. now rewrite set_nth_length.
  - destruct (r' =? r) eqn:E; [|exact VM']. apply Nat.eqb_eq in E. subst. destruct (Nat.eq_dec i' i) as [->|D].
    + rewrite set_nth_same by exact L. congruence.
    + rewrite set_nth_other by auto. exact VM'.
Qed.
Lemma acts_ok : forall acts g, b_wf g -> b_consistent g -> b_computes den g v -> Forall (act_ok g v) acts -> let g' := fold_left b_act acts g in
  b_wf g' /\ b_consistent g' /\ b_computes den g' v /\ bids g' = bids g /\ bprod g' = bprod g /\ bnext g' = bnext g /\
  (forall n, bk (bn g' n) = bk (bn g n) /\ bout (bn g' n) = bout (bn g n)) /\ (forall n, map v (bin (bn g' n)) = map v (bin (bn g n))) /\
  (forall n, bk (bn g n) = BOut -> bin (bn g' n) = bin (bn g n)) /\
  (forall n x, In x (bin (bn g' n)) -> exists i, (exists m, m = x /\ In (n, i, m) acts) \/ (i < length (bin (bn g n)) /\ nth i (bin (bn g n)) 0 = x /\ forall m, ~ In (n, i, m) acts)).
Proof.
  induction acts as [|[[r i] m] acts IH]; intros g W C CO F; cbn [fold_left].
  - do 9 (split; [solve [auto]|]). intros n x X. apply (In_nth _ _ 0) in X. destruct X as (i & L & X). exists i. right. split; [exact L|]. split; [exact X|]. intros m [].
  - inversion F as [|? ? F1 F2]; subst. destruct (act_step_ok g r i m W C CO F1) as (A1 & A2 & A3 & A4 & A5 & A6 & A7 & A8).
    assert (F3 : Forall (act_ok (b_act g (r, i, m)) v) acts).
    { rewrite Forall_forall in *. intros b B. apply act_kept; auto. }
    destruct (IH _ A1 A2 A3 F3) as (B1 & B2 & B3 & B4 & B5 & B6 & B7 & B8 & B9 & B10).
    split; [exact B1|]. split; [exact B2|]. split; [exact B3|]. split; [congruence|]. split; [congruence|]. split; [congruence|]. split; [|split; [|split]].
    + intros n. destruct (B7 n) as [X1 X2], (A7 n) as (Y1 & Y2 & _). split; congruence.
    + intros n. now rewrite B8, A8.
    + intros n K. destruct (A7 n) as (Y1 & _ & Y3). rewrite B9 by congruence. rewrite Y3. destruct (n =? r) eqn:E; [|reflexivity]. apply Nat.eqb_eq in E. subst.
      destruct F1 as (_ & F1 & _). congruence.
    + intros n x X. destruct (B10 n x X) as (j & [(m' & Y1 & Y2)|(Y1 & Y2 & Y3)]).
      * exists j. left. exists m'. split; [exact Y1|now right].
      * destruct (A7 n) as (_ & _ & Z). rewrite Z in Y1, Y2. destruct (n =? r) eqn:E.
        -- apply Nat.eqb_eq in E. subst n. rewrite set_nth_length in Y1. destruct (Nat.eq_dec i j) as [->|D].
           ++ rewrite set_nth_same in Y2 by exact Y1. exists j. left. exists m. split; [exact Y2|now left].
           ++ rewrite set_nth_other in Y2 by exact D. exists j. right. split; [exact Y1|]. split; [exact Y2|]. intros m' [Q|Q]; [congruence|now apply (Y3 m')].
        -- apply Nat.eqb_neq in E. exists j. right. split; [exact Y1|]. split; [exact Y2|]. intros m' [Q|Q]; [congruence|now apply (Y3 m')].
Qed.
End Act.

(** * The pass *)
Theorem branch_expand_ok {V} (den : nat -> list V -> list V) cst ord g v : b_wf g -> b_consistent g -> an_order ord -> b_computes den g v ->
  cst = true \/ no_const g -> one_output g ->
  exists g' v', branch_expand cst ord g = Some g' /\ b_wf g' /\ b_consistent g' /\ b_computes den g' v' /\ b_keeps g v g' v' /\
    (no_chain g -> forall n, ~ branches g' n).
Proof.
  intros W C ORD CO CST O1.
  assert (I0 : binv den g v g [] v).
  { constructor; auto; try (intros; contradiction). exists []. now rewrite app_nil_r. }
  assert (OO : outs_old g g) by (intros x y l H; now left).
  set (ns := ord (map (fun e : oedge => fst (fst e)) (filter (branch_edge g) (bed g)))).
  assert (NS : forall n, In n ns <-> branches g n) by (intros n; unfold ns; rewrite (proj2 (ORD _)); apply (selected_branches g n W C)).
  destruct (nodes_ok den cst ord g v W C CST O1 ORD ns g [] v (fun n H => proj1 (NS n) H) I0 OO) as (g1 & acts & v1 & E & I & _ & _ & COV).
  destruct (acts_ok den v1 acts g1 (bi_wf _ _ _ _ _ _ I) (bi_con _ _ _ _ _ _ I) (bi_comp _ _ _ _ _ _ I) (bi_acts _ _ _ _ _ _ I)) as (B1 & B2 & B3 & B4 & B5 & B6 & B7 & B8 & B9 & B10).
  set (g' := fold_left b_act acts g1) in *.
  exists g', v1. split; [unfold branch_expand; change (map _ (filter (branch_edge g) (bed g))) with (map (fun e : oedge => fst (fst e)) (filter (branch_edge g) (bed g))); unfold ns in E; unfold bact in *; rewrite E; reflexivity|]. split; [exact B1|]. split; [exact B2|]. split; [exact B3|]. split.
  - split; [|exact (bi_val _ _ _ _ _ _ I)]. intros n H. destruct (bi_ids _ _ _ _ _ _ I n H) as [X1 X2]. destruct (B7 n) as [Y1 Y2].
    rewrite B4, Y1, Y2, B8, X2. split; [exact X1|]. split; [reflexivity|]. split; [reflexivity|]. split.
    + apply map_ext_in. intros t T. apply (bi_val _ _ _ _ _ _ I). destruct W as [_ W]. destruct (W n H) as (_ & Z & _). exact (proj1 (Z t T)).
    + intros K. rewrite B9 by congruence. now rewrite X2.
  - intros NC n (N & (f & K) & x & r & r' & X & R & R' & D & IR & IR' & f2 & K2). rewrite B4 in N, R, R'. destruct (B7 n) as [Y1 Y2]. rewrite Y1 in K. rewrite Y2 in X.
    rewrite (proj1 (B7 r)) in K2.
    assert (WG := bi_wf _ _ _ _ _ _ I). destruct WG as [_ WG]. assert (W' := W). destruct W' as [_ W'].
    (* inputs before the actions are old *)
    assert (OLDIN : forall a i, In a (bids g1) -> i < length (bin (bn g1 a)) -> nth i (bin (bn g1 a)) 0 < bnext g /\
              (In a (bids g) \/ forall f', bk (bn g (bprod g (nth i (bin (bn g1 a)) 0))) <> BSame f')).
    { intros a i A L. destruct (bi_new _ _ _ _ _ _ I a A) as [Z|(_ & f' & n0 & u & Z1 & Z2 & Z3)].
      - split; [|now left]. destruct (bi_ids _ _ _ _ _ _ I a Z) as [_ Q]. rewrite Q in *. destruct (W' a Z) as (_ & Y & _). apply Y. now apply nth_In.
      - rewrite Z3 in *. cbn [bin length] in *. destruct i as [|i]; [|lia]. cbn [nth]. split; [|right].
        + destruct Z1 as (Z1 & _). destruct (W' n0 Z1) as (_ & Y & _). exact (proj1 (Y u Z2)).
        + intros f''. exact (NC n0 u f'' Z1 Z2). }
    destruct (B10 r x IR) as (i & [(m & M1 & M2)|(L1 & L2 & L3)]); destruct (B10 r' x IR') as (j & [(m' & M1' & M2')|(L1' & L2' & L3')]).
    + subst m m'. apply D. exact (bi_act2 _ _ _ _ _ _ I _ _ _ _ _ M2 M2').
    + subst m. apply (bi_act1 _ _ _ _ _ _ I) in M2. destruct (OLDIN r' j R' L1') as [Z _]. lia.
    + subst m'. apply (bi_act1 _ _ _ _ _ _ I) in M2'. destruct (OLDIN r i R L1) as [Z _]. lia.
    + destruct (OLDIN r i R L1) as [XL Z]. destruct (OLDIN r' j R' L1') as [_ Z']. rewrite L2 in XL, Z. rewrite L2' in Z'.
      assert (PX : bprod g x = n). { rewrite <- (bi_prod _ _ _ _ _ _ I x XL). destruct (WG n N) as (_ & _ & Q & _). exact (proj2 (Q x X)). }
      assert (NG : In n (bids g)).
      { destruct (bi_new _ _ _ _ _ _ I n N) as [Q|(Q & f' & n0 & u & _ & _ & Q3)]; [exact Q|]. exfalso. rewrite Q3 in X. destruct X as [<-|[]]. lia. }
      destruct (bi_ids _ _ _ _ _ _ I n NG) as [_ NN]. rewrite NN in K, X. rewrite PX in Z, Z'.
      assert (RG : In r (bids g)) by (destruct Z as [Z|Z]; [exact Z|elim (Z f K)]). assert (RG' : In r' (bids g)) by (destruct Z' as [Z'|Z']; [exact Z'|elim (Z' f K)]).
      destruct (bi_ids _ _ _ _ _ _ I r RG) as [_ RN]. destruct (bi_ids _ _ _ _ _ _ I r' RG') as [_ RN'].
      assert (BR : branches g n).
      { split; [exact NG|]. split; [eauto|]. exists x, r, r'. rewrite RN in L1, L2, K2. rewrite RN' in L1', L2'. repeat split; auto; [rewrite <- L2|rewrite <- L2'|eauto]; now apply nth_In. }
      apply NS in BR. destruct (COV n BR) as (p & P).
      destruct (P r i x RG X) as [Q|(m & Q)]; [apply positions_In; rewrite <- RN; auto| |elim (L3 m Q)].
      destruct (P r' j x RG' X) as [Q'|(m & Q')]; [apply positions_In; rewrite <- RN'; auto| |elim (L3' m Q')].
      congruence.
Qed.

(** * Checking a graph *)
Definition b_consistent_b (N : nat) (g : bg) : bool :=
  forallb (fun e : oedge => (fst (fst e) <? N) && (snd (fst e) <? N) && (snd e <? N)) (bed g) && below N (bids g) &&
  forallb (fun n => below N (bin (bn g n))) (bids g) && below N (map (bprod g) (seq 0 N)) &&
  forallb (fun s => forallb (fun d => forallb (fun t => ecount s d t (bed g) =? (if (s =? bprod g t) && o_mem d (bids g) then count_occ Nat.eq_dec (bin (bn g d)) t else 0))
    (seq 0 N)) (seq 0 N)) (seq 0 N).
Lemma b_consistent_check N g : b_consistent_b N g = true -> b_consistent g.
Proof.
  unfold b_consistent_b. rewrite !andb_true_iff. intros ((((A & B) & C) & D) & E) s d t.
  assert (Z : ~ (s < N /\ d < N /\ t < N) -> ecount s d t (bed g) = 0).
  { intros H. destruct (ecount s d t (bed g)) eqn:Q; [reflexivity|]. elim H. assert (X : In (s, d, t) (bed g)) by (apply ecount_In; lia).
    rewrite forallb_forall in A. apply A in X. cbn [fst snd] in X. rewrite !andb_true_iff, !Nat.ltb_lt in X. tauto. }
  assert (R : ~ (s < N /\ d < N /\ t < N) -> (if (s =? bprod g t) && o_mem d (bids g) then count_occ Nat.eq_dec (bin (bn g d)) t else 0) = 0).
  { intros H. destruct (o_mem d (bids g)) eqn:M; [|now rewrite andb_false_r]. apply o_mem_In in M. destruct (s =? bprod g t) eqn:S; [|reflexivity].
    apply Nat.eqb_eq in S. cbn [andb]. apply count_occ_not_In. intros X. apply H. rewrite forallb_forall in C. assert (TN := below_In _ _ _ (C d M) X).
    split; [|split; [exact (below_In _ _ _ B M)|exact TN]]. rewrite S. apply (below_In _ _ _ D). apply in_map, in_seq. lia. }
  destruct (lt_dec s N) as [HS|HS]; [|rewrite Z, R; tauto]. destruct (lt_dec d N) as [HD|HD]; [|rewrite Z, R; tauto]. destruct (lt_dec t N) as [HT|HT]; [|rewrite Z, R; tauto].
  rewrite forallb_forall in E. specialize (E s (proj2 (in_seq N 0 s) (conj (Nat.le_0_l s) HS))). rewrite forallb_forall in E.
  specialize (E d (proj2 (in_seq N 0 d) (conj (Nat.le_0_l d) HD))). rewrite forallb_forall in E.
  specialize (E t (proj2 (in_seq N 0 t) (conj (Nat.le_0_l t) HT))). now apply Nat.eqb_eq.
Qed.
Ltac b_wf_tac :=
  split; [repeat (constructor; [cbn; intuition discriminate|]); constructor|];
  intros n H; cbn in H; repeat (destruct H as [<-|H]; [cbn; split; [lia|];
     split; [intros x X; cbn in X; repeat (destruct X as [<-|X]; [cbn; intuition lia|]); destruct X|];
     split; [intros x X; cbn in X; repeat (destruct X as [<-|X]; [cbn; intuition lia|]); destruct X|];
     intros f K; first [discriminate|do 2 eexists; split; reflexivity]|]); destruct H.
Lemma order_one ord x : an_order ord -> ord [x] = [x].
Proof.
  intros O. destruct (O [x]) as [N I]. destruct (ord [x]) as [|a [|b l]].
  - elim (proj2 (I x)). now left.
  - destruct (proj1 (I a) (or_introl eq_refl)) as [<-|[]]. reflexivity.
  - exfalso. destruct (proj1 (I a) (or_introl eq_refl)) as [<-|[]]. destruct (proj1 (I b) (or_intror (or_introl eq_refl))) as [<-|[]].
    inversion N as [|? ? X _]. apply X. now left.
Qed.
(** a reshape read by a reshape that branches *)
Definition ch_n (n : nat) : bnode :=
  match n with
  | 0 => mkBN BIn [] [0] | 1 => mkBN (BSame 1) [0] [1] | 2 => mkBN (BSame 2) [1] [2] | 3 => mkBN (BSame 3) [2] [3] | 4 => mkBN (BOp 4) [2] [4]
  | 5 => mkBN BOut [3] [] | 6 => mkBN BOut [4] [] | _ => mkBN BIn [] [] end.
Definition ch_g : bg := mkBG ch_n (seq 0 7) [(0,1,0);(1,2,1);(2,3,2);(2,4,2);(3,5,3);(4,6,4)] (fun t => t) 7.
Lemma chain_lemma : exists g, b_wf g /\ b_consistent g /\ one_output g /\ no_const g /\
  forall cst ord, an_order ord -> exists g' n, branch_expand cst ord g = Some g' /\ branches g' n.
Proof.
  exists ch_g. split; [b_wf_tac|]. split; [apply (b_consistent_check 7); reflexivity|]. split; [|split].
  - intros n t r r' (B & (f & K) & _) T R R' KR KR' I I'. cbn in R, R'.
    repeat (destruct R as [<-|R]; [try discriminate KR|]); try (destruct R);
    repeat (destruct R' as [<-|R']; [try discriminate KR'|]); try (destruct R'); try reflexivity; cbn in I, I'; intuition congruence.
  - intros n t (B & (f & K) & x & r & r' & X & R & R' & D & IR & IR' & _) T. cbn in B.
    repeat (destruct B as [<-|B]; [try discriminate K; cbn in T; repeat (destruct T as [<-|T]; [discriminate|]); destruct T|]). destruct B.
  - intros cst ord O.
    assert (E : forall A (h : bg * list bact -> A) (d : A), match b_nodes cst ord (ord [2]) (ch_g, []) with Some s => h s | None => d end =
                match b_copies cst 2 (ord [4]) (ch_g, []) with Some s => h s | None => d end).
    { intros A h d. rewrite (order_one ord 2 O). cbn [b_nodes]. change (b_node cst ord (ch_g, []) 2) with (b_copies cst 2 (ord [4]) (ch_g, [])). now destruct (b_copies _ _ _ _) as [[? ?]|]. }
    unfold branch_expand. change (map _ (filter (branch_edge ch_g) (bed ch_g))) with [2].
    rewrite (order_one ord 4 O) in E. specialize (E _ (fun s => Some (fold_left b_act (snd s) (fst s))) None).
    exists (fold_left b_act [(4, 0, 7)] (mkBG (o_upd ch_n 7 (mkBN (BSame 2) [1] [7])) (seq 0 8) [(0,1,0);(1,2,1);(2,3,2);(2,4,2);(3,5,3);(4,6,4);(1,7,1)] (o_upd (fun t => t) 7 7) 8)), 1.
    split.
    + transitivity (match b_nodes cst ord (ord [2]) (ch_g, []) with Some s => Some (fold_left b_act (snd s) (fst s)) | None => None end).
      * now destruct (b_nodes _ _ _ _) as [[? ?]|].
      * rewrite E. destruct cst; reflexivity.
    + split; [cbn; tauto|]. split; [exists 1; reflexivity|]. exists 1, 2, 7. split; [cbn; tauto|]. split; [cbn; tauto|]. split; [cbn; tauto|]. split; [discriminate|].
      split; [now left|]. split; [now left|]. exists 2. reflexivity.
Qed.
(** a branching reshape with two OUTPUT nodes *)
Definition tw_n (n : nat) : bnode :=
  match n with
  | 0 => mkBN BIn [] [0] | 1 => mkBN (BSame 1) [0] [1] | 2 => mkBN (BSame 2) [1] [2] | 3 => mkBN BOut [1] [] | 4 => mkBN BOut [1] [] | 5 => mkBN BOut [2] [] | _ => mkBN BIn [] [] end.
Definition tw_g : bg := mkBG tw_n (seq 0 6) [(0,1,0);(1,2,1);(1,3,1);(1,4,1);(2,5,2)] (fun t => t) 6.
Lemma copies_none cst n : forall rs s r, In r rs -> (forall g acts, (forall x, x < bnext (fst s) -> bn g x = bn (fst s) x) -> bnext (fst s) <= bnext g -> b_copy cst n (g, acts) r = None) -> b_copies cst n rs s = None.
Proof.
  induction rs as [|a rs IH]; intros [g acts] r R H; [destruct R|]. cbn [b_copies]. destruct R as [<-|R].
  - rewrite (H g acts); auto.
  - destruct (b_copy cst n (g, acts) a) as [[g' acts']|] eqn:E; [|reflexivity]. apply (IH (g', acts') r R). cbn [fst] in *.
    assert (X : bnext g' = S (bnext g) /\ forall x, x < bnext g -> bn g' x = bn g x).
    { unfold b_copy in E. destruct (_ && negb cst); [discriminate|]. destruct (is_bout (bk (bn g a))); [discriminate|]. destruct (o_positions _ _); [discriminate|]. injection E as <- _. cbn [bn bnext].
      split; [reflexivity|]. intros x X. unfold o_upd. destruct (x =? bnext g) eqn:Q; [apply Nat.eqb_eq in Q; lia|reflexivity]. }
    destruct X as [X1 X2]. intros g2 a2 Y1 Y2. apply H; [|lia]. intros x L. rewrite Y1 by lia. now apply X2.
Qed.
Lemma two_outputs_lemma : exists g, b_wf g /\ b_consistent g /\ no_const g /\ no_chain g /\ forall cst ord, an_order ord -> branch_expand cst ord g = None.
Proof.
  exists tw_g. split; [b_wf_tac|]. split; [apply (b_consistent_check 6); reflexivity|].
  assert (Q : forall n t, branches tw_g n -> In t (bin (bn tw_g n)) -> bk (bn tw_g (bprod tw_g t)) = BIn).
  { intros n t (B & (f & K) & x & r & r' & X & R & R' & D & IR & IR' & f2 & K2) T. cbn in B.
    repeat (destruct B as [<-|B]; [try discriminate K; try (cbn in T; repeat (destruct T as [<-|T]; [reflexivity|]); destruct T)|]); try destruct B.
    all: cbn in X; destruct X as [<-|[]]; cbn in R; repeat (destruct R as [<-|R]; [try discriminate K2; cbn in IR; intuition discriminate|]); destruct R. }
  split; [intros n t B T; rewrite (Q n t B T); discriminate|]. split; [intros n t f B T; rewrite (Q n t B T); discriminate|].
  intros cst ord O. unfold branch_expand. change (map _ (filter (branch_edge tw_g) (bed tw_g))) with [1]. rewrite (order_one ord 1 O). cbn [b_nodes].
  change (b_node cst ord (tw_g, []) 1) with (b_copies cst 1 (ord [2; 3]) (tw_g, [])).
  rewrite (copies_none cst 1 (ord [2; 3]) (tw_g, []) 3); [reflexivity|apply O; right; now left|].
  intros g acts H _. cbn [fst] in H. unfold b_copy. destruct (_ && _); [reflexivity|]. rewrite (H 3) by (cbn; lia). reflexivity.
Qed.
(** a branching reshape of a constant *)
Definition co_n (n : nat) : bnode :=
  match n with
  | 0 => mkBN BConst [] [0] | 1 => mkBN (BSame 1) [0] [1] | 2 => mkBN (BSame 2) [1] [2] | 3 => mkBN BOut [1] [] | 4 => mkBN BOut [2] [] | _ => mkBN BIn [] [] end.
Definition co_g : bg := mkBG co_n (seq 0 5) [(0,1,0);(1,2,1);(1,3,1);(2,4,2)] (fun t => t) 5.
Lemma constant_lemma : exists g, b_wf g /\ b_consistent g /\ one_output g /\ no_chain g /\ forall ord, an_order ord -> branch_expand false ord g = None.
Proof.
  exists co_g. split; [b_wf_tac|]. split; [apply (b_consistent_check 5); reflexivity|].
  assert (Q : forall n, branches co_g n -> n = 1).
  { intros n (B & (f & K) & x & r & r' & X & R & R' & D & IR & IR' & f2 & K2). cbn in B.
    repeat (destruct B as [<-|B]; [try discriminate K; try reflexivity|]); try destruct B.
    all: cbn in X; destruct X as [<-|[]]; cbn in R; repeat (destruct R as [<-|R]; [try discriminate K2; cbn in IR; intuition discriminate|]); destruct R. }
  split; [|split].
  - intros n t r r' B T R R' KR KR' I I'. apply Q in B. subst n. cbn in T. destruct T as [<-|[]]. cbn in R, R'.
    repeat (destruct R as [<-|R]; [try discriminate KR; try (cbn in I; intuition discriminate)|]); try (destruct R);
    repeat (destruct R' as [<-|R']; [try discriminate KR'; try (cbn in I'; intuition discriminate)|]); try (destruct R'); reflexivity.
  - intros n t f B T. apply Q in B. subst n. cbn in T. destruct T as [<-|[]]. discriminate.
  - intros ord O. unfold branch_expand. change (map _ (filter (branch_edge co_g) (bed co_g))) with [1]. rewrite (order_one ord 1 O). cbn [b_nodes].
    change (b_node false ord (co_g, []) 1) with (b_copies false 1 (ord [2]) (co_g, [])). rewrite (order_one ord 2 O). reflexivity.
Qed.
