(** Proofs for [TransformModel]. *)
From Coq Require Import List Arith Bool Lia Sorting.Sorted.
From Verif Require Import OutTransModel OutTransSpec OutTransProofs BranchProofs HalfProofs TransformModel TransformSpec.
Import ListNotations.

Lemma ss_app_one l m : StronglySorted lt l -> (forall n, In n l -> n < m) -> StronglySorted lt (l ++ [m]).
Proof.
  induction l as [|a l IH]; cbn; intros H L; [repeat constructor|]. inversion H as [|? ? H1 H2]; subst. constructor; [apply IH; auto|].
  apply Forall_app. split; [exact H2|]. constructor; [apply L; now left|constructor].
Qed.
Lemma ss_filter (k : nat -> bool) l : StronglySorted lt l -> StronglySorted lt (filter k l).
Proof.
  induction 1 as [|a l H IH F]; cbn; [constructor|]. destruct (k a); [|exact IH]. constructor; [exact IH|]. rewrite Forall_forall in *.
  intros x X. apply filter_In in X. apply F, X.
Qed.
Lemma ss_nodup l : StronglySorted lt l -> NoDup l.
Proof. induction 1 as [|a l H IH F]; constructor; [|exact IH]. intros X. rewrite Forall_forall in F. specialize (F _ X). lia. Qed.
Lemma sort_id l : StronglySorted lt l -> t_sort l = l.
Proof.
  induction 1 as [|a l H IH F]; [reflexivity|]. unfold t_sort in *. cbn [fold_right]. rewrite IH. destruct l as [|b l]; [reflexivity|].
  cbn [t_insert]. assert (A : a < b) by (inversion F; assumption). destruct (a <=? b) eqn:E; [reflexivity|]. apply Nat.leb_gt in E. lia.
Qed.
Lemma updn {A} (f : nat -> A) k x : o_upd f k x k = x.
Proof. unfold o_upd. now rewrite Nat.eqb_refl. Qed.
Lemma updo {A} (f : nat -> A) k x n : n <> k -> o_upd f k x n = f n.
Proof. intros H. unfold o_upd. apply Nat.eqb_neq in H. now rewrite H. Qed.
Lemma mem_app_one d l m : o_mem d (l ++ [m]) = o_mem d l || (d =? m).
Proof. unfold o_mem. rewrite existsb_app. cbn. now rewrite orb_false_r. Qed.
Lemma mem_true d l : o_mem d l = true <-> In d l.
Proof. unfold o_mem. rewrite existsb_exists. split; [intros (x & X & E); apply Nat.eqb_eq in E; now subst|intros H; exists d; split; [exact H|apply Nat.eqb_refl]]. Qed.
Lemma mem_false d l : o_mem d l = false <-> ~ In d l.
Proof. rewrite <- mem_true. destruct (o_mem d l); intuition congruence. Qed.
Lemma map_upd {V} (w : nat -> V) m a l : ~ In m l -> map (o_upd w m a) l = map w l.
Proof. intros H. apply map_ext_in. intros x X. apply updo. intros ->. tauto. Qed.

Section Pass.
Context {V : Type} (den : nat -> list V -> V) (cv : nat -> V) (exp : nat -> texp) (outs : list nat) (g : tg) (v : nat -> V).
Hypothesis W : t_wf outs g.
Hypothesis C : t_consistent g.
Hypothesis O : gens_ordered g.
Hypothesis X : exp_right den cv exp g.
Hypothesis VV : t_computes den cv g v.
Let sel := filter (t_gen g) (tids g).
Let D := flat_map (fun n => t_souts g n ++ [n]) sel.

Record Inv (P R : list nat) (pend : nat -> nat -> bool) (h : tg) (w : nat -> V) : Prop := {
  i_sorted : StronglySorted lt (tids h);
  i_lt : forall n, In n (tids h) -> n < tnext h;
  i_next : tnext g <= tnext h;
  i_old : forall n, n < tnext g -> (In n (tids h) <-> In n (tids g) /\ ~ In n D) /\ tn h n = tn g n;
  i_prod : forall x p, tprod h x = Some p -> In p (tids h) /\ In x (tout (tn h p));
  i_out : forall n x, In n (tids h) -> In x (tout (tn h n)) -> x < tnext h /\ tprod h x = Some n;
  i_stay : forall x n, tprod g x = Some n -> ~ In n sel -> tprod h x = Some n;
  i_none : forall x n, tprod g x = Some n -> In n sel -> ~ In n P -> tprod h x = None;
  i_some : forall x n, tprod g x = Some n -> In n P -> tprod h x <> None;
  i_edges : forall s d x, ecount s d x (ted h) = match tprod h x with
     Some p => if (s =? p) && o_mem d (tids h) && negb (pend x d) then count_occ Nat.eq_dec (tin (tn h d)) x else 0 | None => 0 end;
  i_new : forall d, In d (tids h) -> tnext g <= d -> (forall f, tk (tn h d) <> KGen f) /\
     (forall x, In x (tin (tn h d)) -> x < tnext h /\ tprod h x <> None /\
        (x < tnext g -> exists s, In s sel /\ (In x (tin (tn g s)) \/ In x (tout (tn g s))))) /\
     (tk (tn h d) = KOut -> tout (tn h d) = [] /\ exists x s, In s R /\ tin (tn h d) = [x] /\ In x (tout (tn g s)) /\ In x outs);
  i_uniq : forall d d', In d (tids h) -> In d' (tids h) -> tnext g <= d -> tnext g <= d' -> tk (tn h d) = KOut -> tk (tn h d') = KOut ->
     tin (tn h d) = tin (tn h d') -> d = d';
  i_has : forall s x, In s R -> In x (tout (tn g s)) -> In x outs -> exists d, In d (tids h) /\ tnext g <= d /\ tk (tn h d) = KOut /\ tin (tn h d) = [x];
  i_comp : t_computes den cv h w;
  i_val : forall x, x < tnext g -> w x = v x
}.
Definition none (x d : nat) : bool := false.

Lemma sel_in n : In n sel -> In n (tids g) /\ exists f, tk (tn g n) = KGen f.
Proof.
  unfold sel. rewrite filter_In. unfold t_gen. intros (A & B). apply andb_prop in B. destruct B as [B _]. split; [exact A|].
  destruct (tk (tn g n)); try discriminate. eauto.
Qed.
Lemma sel_out n : In n sel -> exists t, tout (tn g n) = [t] /\ t < tnext g /\ tprod g t = Some n.
Proof.
  intros H. destruct (sel_in n H) as (A & f & B). destruct (proj1 (proj2 W) n A) as (_ & _ & Q1 & _ & Q2). destruct (Q2 f B) as (t & T).
  exists t. split; [exact T|]. apply Q1. rewrite T. now left.
Qed.
Lemma edge_g s d x : In (s, d, x) (ted g) <-> tprod g x = Some s /\ In d (tids g) /\ In x (tin (tn g d)).
Proof.
  rewrite <- ecount_In, C. destruct (tprod g x) as [p|]; [|split; [lia|intros (E & _); discriminate]].
  destruct (Nat.eqb_spec s p) as [->|N]; cbn [andb].
  - destruct (o_mem d (tids g)) eqn:M.
    + apply mem_true in M. pose proof (count_occ_In Nat.eq_dec (tin (tn g d)) x). intuition.
    + apply mem_false in M. split; [lia|tauto].
  - split; [lia|]. intros (E & _). congruence.
Qed.
Lemma sel_iff n : In n (tids g) -> (In n sel <-> replaced g n).
Proof.
  intros I. unfold sel, replaced, is_read. rewrite filter_In. unfold t_gen. rewrite andb_true_iff, Nat.leb_le. split.
  - intros (_ & G & L). split; [destruct (tk (tn g n)); try discriminate; eauto|].
    destruct (t_oute g n) as [|[[s d] x] r] eqn:F; [cbn in L; lia|].
    assert (E : In (s, d, x) (t_oute g n)) by (rewrite F; now left). unfold t_oute in E.
    apply filter_In in E. destruct E as (E & Q). cbn in Q. apply Nat.eqb_eq in Q. subst s. apply edge_g in E. destruct E as (E1 & E2 & E3).
    exists d, x. split; [exact E2|]. split; [|exact E3]. exact (proj2 (proj1 (proj2 (proj2 W)) x n E1)).
  - intros ((f & F) & d & x & H1 & H2 & H3). split; [exact I|]. rewrite F. split; [reflexivity|].
    assert (E : In (n, d, x) (t_oute g n)).
    { apply filter_In. split; [|cbn; apply Nat.eqb_refl]. apply edge_g. split; [|tauto]. apply (proj1 (proj2 W) n I). exact H2. }
    destruct (t_oute g n) as [|e r]; [destruct E|cbn [length]; lia].
Qed.
Lemma D_iff n : In n D <-> In n sel \/ (exists s x, In s sel /\ In n (tids g) /\ tk (tn g n) = KOut /\ tprod g x = Some s /\ In x (tin (tn g n))).
Proof.
  unfold D. rewrite in_flat_map. split.
  - intros (s & S1 & S2). apply in_app_iff in S2. destruct S2 as [S2|[<-|[]]]; [|now left]. right. unfold t_souts in S2. apply in_map_iff in S2.
    destruct S2 as ([[a b] x] & <- & E). apply filter_In in E. destruct E as (E & K). unfold t_oute in E. apply filter_In in E. destruct E as (E & Q).
    cbn in *. apply Nat.eqb_eq in Q. subst a. apply edge_g in E. exists s, x. destruct E as (E1 & E2 & E3). repeat split; auto.
    destruct (tk (tn g b)); try discriminate; reflexivity.
  - intros [H|(s & x & H1 & H2 & H3 & H4 & H5)]; [exists n; split; [exact H|apply in_app_iff; right; now left]|].
    exists s. split; [exact H1|]. apply in_app_iff. left. unfold t_souts. apply in_map_iff. exists (s, n, x). split; [reflexivity|].
    apply filter_In. split; [|cbn; rewrite H3; reflexivity]. unfold t_oute. apply filter_In. split; [|cbn; apply Nat.eqb_refl]. apply edge_g. auto.
Qed.
Lemma prod_not_D x n : tprod g x = Some n -> ~ In n sel -> ~ In n D.
Proof.
  intros E N Q. apply D_iff in Q. destruct Q as [Q|(s & y & _ & I & K & _)]; [tauto|]. destruct (proj1 (proj2 (proj2 W)) x n E) as (_ & T).
  destruct (proj1 (proj2 W) n I) as (_ & _ & _ & Q & _). destruct (Q K) as (Q1 & _). rewrite Q1 in T. destruct T.
Qed.
Lemma prod_lt x n : tprod g x = Some n -> x < tnext g /\ n < tnext g.
Proof.
  intros E. destruct (proj1 (proj2 (proj2 W)) x n E) as (I & T). destruct (proj1 (proj2 W) n I) as (L & _ & Q & _). split; [apply (Q x T)|exact L].
Qed.
Lemma cut_prod x : tprod (t_cut g sel D) x = match tprod g x with Some n => if o_mem n sel then None else Some n | None => None end.
Proof.
  cbn [t_cut tprod]. destruct (existsb (fun n => o_mem x (tout (tn g n))) sel) eqn:E.
  - apply existsb_exists in E. destruct E as (n & N1 & N2). apply mem_true in N2. destruct (sel_in n N1) as (I & _).
    destruct (proj1 (proj2 W) n I) as (_ & _ & Q & _). rewrite (proj2 (Q x N2)). rewrite (proj2 (mem_true n sel) N1). reflexivity.
  - destruct (tprod g x) as [n|] eqn:T; [|reflexivity]. destruct (o_mem n sel) eqn:M; [|reflexivity]. exfalso. apply mem_true in M.
    assert (B : existsb (fun n => o_mem x (tout (tn g n))) sel = true); [|congruence]. apply existsb_exists. exists n. split; [exact M|].
    apply mem_true. apply (proj1 (proj2 (proj2 W)) x n T).
Qed.
Lemma cut_ids n : In n (tids (t_cut g sel D)) <-> In n (tids g) /\ ~ In n D.
Proof. cbn. rewrite filter_In, negb_true_iff, mem_false. tauto. Qed.
Lemma inv_cut : Inv [] [] none (t_cut g sel D) v.
Proof.
  assert (ID : forall n, In n (tids (t_cut g sel D)) <-> In n (tids g) /\ ~ In n D) by exact cut_ids.
  split.
  - cbn. exact (ss_filter _ _ (proj1 W)).
  - intros n N. apply ID in N. cbn. exact (proj1 (proj1 (proj2 W) n (proj1 N))).
  - cbn. lia.
  - intros n L. split; [apply ID|reflexivity].
  - intros x p. rewrite cut_prod. destruct (tprod g x) as [q|] eqn:T; [|discriminate]. destruct (o_mem q sel) eqn:M; [discriminate|].
    intros E. inversion E; subst q. apply mem_false in M. rewrite ID. destruct (proj1 (proj2 (proj2 W)) x p T) as (T1 & T2).
    split; [split; [exact T1|exact (prod_not_D x p T M)]|exact T2].
  - intros n x N T. apply ID in N. destruct N as (N1 & N2). cbn [t_cut tn tnext] in *. destruct (proj1 (proj2 W) n N1) as (_ & _ & Q & _).
    destruct (Q x T) as (Q1 & Q2). split; [exact Q1|]. rewrite cut_prod, Q2. destruct (o_mem n sel) eqn:M; [|reflexivity]. exfalso. apply N2, D_iff.
    left. now apply mem_true.
  - intros x n T N. rewrite cut_prod, T. rewrite (proj2 (mem_false n sel) N). reflexivity.
  - intros x n T N _. rewrite cut_prod, T. rewrite (proj2 (mem_true n sel) N). reflexivity.
  - intros x n T [].
  - intros s d x. rewrite cut_prod. cbn [t_cut ted]. rewrite ecount_keep, C. cbn [t_cut tids tn]. unfold none. cbn [negb].
    destruct (tprod g x) as [p|] eqn:T; [|destruct (_ || _); reflexivity].
    destruct (o_mem p sel) eqn:M.
    + destruct (Nat.eqb_spec s p) as [->|]; [|cbn [andb]; destruct (_ || _); reflexivity].
      apply mem_true in M. assert (Q : o_mem p D = true) by (apply mem_true, D_iff; now left). rewrite Q. reflexivity.
    + apply mem_false in M. pose proof (prod_not_D x p T M) as ND. apply mem_false in ND. rewrite andb_true_r.
      destruct (Nat.eqb_spec s p) as [->|]; [|cbn [andb]; destruct (_ || _); reflexivity]. rewrite ND. cbn [andb orb].
      assert (Q : o_mem d (filter (fun n => negb (o_mem n D)) (tids g)) = o_mem d (tids g) && negb (o_mem d D)).
      { destruct (o_mem d (tids g) && negb (o_mem d D)) eqn:E.
        - apply andb_prop in E. apply mem_true, filter_In. rewrite mem_true in E. exact E.
        - apply mem_false. rewrite filter_In, <- mem_true. intros (A & B). rewrite A, B in E. discriminate. }
      rewrite Q. destruct (o_mem d D), (o_mem d (tids g)); reflexivity.
  - intros d N L. exfalso. apply ID in N. pose proof (proj1 (proj1 (proj2 W) d (proj1 N))). lia.
  - intros d d' N _ L. exfalso. apply ID in N. pose proof (proj1 (proj1 (proj2 W) d (proj1 N))). lia.
  - intros s x [].
  - intros n N. apply ID in N. cbn [t_cut tn]. exact (VV n (proj1 N)).
  - auto.
Qed.

(** * A new node *)
Definition node_val (k : tkind) (ws : list V) (a : V) : Prop :=
  match k with KOp f => a = den f ws | KConst c => a = cv c | _ => False end.
Lemma ids_node h k xs yo n : In n (tids (fst (t_node h k xs yo))) <-> In n (tids h) \/ n = tnext h.
Proof. cbn. rewrite in_app_iff. cbn. intuition. Qed.
Lemma node_edges P R h w k xs y : Inv P R none h w -> tprod h y = None -> (forall x, In x xs -> x < tnext h /\ tprod h x <> None) ->
  forall s d x, ecount s d x (ted (fst (t_node h k xs (Some y)))) =
    match o_upd (tprod h) y (Some (tnext h)) x with
    | Some p => if (s =? p) && o_mem d (tids h ++ [tnext h]) && negb ((x =? y) && negb (d =? tnext h)) then count_occ Nat.eq_dec (tin (o_upd (tn h) (tnext h) (mkTN k xs [y]) d)) x else 0
    | None => 0 end.
Proof.
  intros I Y XS s d x. cbn [t_node fst ted]. rewrite ecount_app, (i_edges _ _ _ _ _ I).
  rewrite (ecount_ins s d x (fun u => match tprod h u with Some p => p | None => 0 end)). rewrite mem_app_one. unfold none. cbn [negb].
  assert (ND : o_mem (tnext h) (tids h) = false) by (apply mem_false; intros Q; apply (i_lt _ _ _ _ _ I) in Q; lia).
  assert (CY : count_occ Nat.eq_dec xs y = 0) by (apply count_occ_not_In; intros Q; apply XS in Q; tauto).
  destruct (Nat.eqb_spec x y) as [->|NY]; cbn [andb negb].
  - rewrite updn, Y, CY. cbn [andb]. destruct (Nat.eqb_spec d (tnext h)) as [->|N]; cbn [negb].
    + rewrite updn. cbn [tin]. rewrite CY. destruct (_ && _ && _), (_ && _); reflexivity.
    + rewrite andb_false_r. destruct (_ && _); reflexivity.
  - rewrite (updo _ y) by exact NY. rewrite (Nat.eqb_sym (tnext h) d). destruct (tprod h x) as [p|] eqn:T.
    + destruct (Nat.eqb_spec d (tnext h)) as [->|N].
      * rewrite updn, ND. cbn [tin orb andb]. rewrite !andb_false_r, !andb_true_r. destruct (s =? p); reflexivity.
      * rewrite updo by exact N. cbn [andb]. rewrite orb_false_r, !andb_true_r. lia.
    + assert (CX : count_occ Nat.eq_dec xs x = 0) by (apply count_occ_not_In; intros Q; apply XS in Q; tauto).
      rewrite CX. destruct (_ && _); reflexivity.
Qed.
Lemma node_fresh P R h w k xs a : Inv P R none h w -> node_val k (map w xs) a ->
  (forall x, In x xs -> x < tnext h /\ tprod h x <> None /\ (x < tnext g -> exists s, In s sel /\ In x (tin (tn g s)))) ->
  Inv P R none (fst (t_node h k xs None)) (o_upd w (tnext h) a).
Proof.
  intros I NV XS. set (m := tnext h) in *.
  assert (LT : forall n, In n (tids h) -> n < m) by apply (i_lt _ _ _ _ _ I).
  assert (NX : i_next _ _ _ _ _ I = i_next _ _ _ _ _ I) by reflexivity. clear NX. pose proof (i_next _ _ _ _ _ I) as NX. fold m in NX.
  assert (PL : forall x p, tprod h x = Some p -> x < m).
  { intros x p E. destruct (i_prod _ _ _ _ _ I x p E) as (E1 & E2). exact (proj1 (i_out _ _ _ _ _ I p x E1 E2)). }
  assert (PM : tprod h m = None) by (destruct (tprod h m) eqn:E; [apply PL in E; lia|reflexivity]).
  assert (KG : (forall f, k <> KGen f) /\ k <> KOut) by (destruct k; cbn in NV; try tauto; split; intros; discriminate).
  set (h' := fst (t_node h k xs None)).
  assert (TN : tn h' = o_upd (tn h) m (mkTN k xs [m])) by reflexivity.
  assert (TP : tprod h' = o_upd (tprod h) m (Some m)) by reflexivity.
  assert (NXT : tnext h' = S m) by reflexivity.
  assert (IDS : forall n, In n (tids h') <-> In n (tids h) \/ n = m) by (apply ids_node).
  assert (TO : forall n, In n (tids h) -> tn h' n = tn h n) by (intros n N; rewrite TN; apply updo; apply LT in N; lia).
  assert (TM : tn h' m = mkTN k xs [m]) by (rewrite TN; apply updn).
  assert (OP : forall x, x <> m -> tprod h' x = tprod h x) by (intros x N; rewrite TP; now apply updo).
  split.
  - cbn. apply ss_app_one; [apply (i_sorted _ _ _ _ _ I)|exact LT].
  - intros n N. apply IDS in N. rewrite NXT. destruct N as [N| ->]; [apply LT in N; lia|lia].
  - lia.
  - intros n L. rewrite IDS, TN, updo by lia. destruct (i_old _ _ _ _ _ I n L) as (A & B). split; [|exact B]. rewrite <- A. intuition lia.
  - intros x p. rewrite TP. destruct (Nat.eq_dec x m) as [->|N].
    + rewrite updn. intros E. inversion E; subst p. rewrite IDS, TM. cbn. auto.
    + rewrite updo by exact N. intros E. destruct (i_prod _ _ _ _ _ I x p E) as (A & B). rewrite IDS, (TO p A). auto.
  - intros n x N T. apply IDS in N. rewrite NXT. destruct N as [N| ->].
    + rewrite (TO n N) in T. destruct (i_out _ _ _ _ _ I n x N T) as (A & B). split; [fold m in A; lia|]. rewrite OP; [exact B|]. fold m in A. lia.
    + rewrite TM in T. destruct T as [<-|[]]. split; [lia|]. rewrite TP. apply updn.
  - intros x n T N. rewrite OP by (apply prod_lt in T; lia). exact (i_stay _ _ _ _ _ I x n T N).
  - intros x n T N Q. rewrite OP by (apply prod_lt in T; lia). exact (i_none _ _ _ _ _ I x n T N Q).
  - intros x n T N. rewrite OP by (apply prod_lt in T; lia). exact (i_some _ _ _ _ _ I x n T N).
  - intros s d x. assert (XS' : forall y, In y xs -> y < tnext h /\ tprod h y <> None) by (intros y Y; apply XS in Y; tauto).
    etransitivity; [exact (node_edges P R h w k xs m I PM XS' s d x)|]. fold m. rewrite <- TP, <- TN. change (tids h ++ [m]) with (tids h').
    destruct (tprod h' x) as [p|]; [|reflexivity]. unfold none. cbn [negb]. destruct (Nat.eqb_spec x m) as [->|N]; [|reflexivity]. cbn [andb].
    rewrite !negb_involutive, andb_true_r. destruct (Nat.eqb_spec d m) as [->|ND]; [now rewrite andb_true_r|]. rewrite andb_false_r.
    destruct (s =? p); [|reflexivity]. cbn [andb]. destruct (o_mem d (tids h')) eqn:M; [|reflexivity]. apply mem_true, IDS in M.
    destruct M as [M|M]; [|tauto]. rewrite (TO d M). symmetry. apply count_occ_not_In. intros Q.
    destruct (Nat.lt_ge_cases d (tnext g)) as [L|L].
    + destruct (i_old _ _ _ _ _ I d L) as (A & B). rewrite B in Q. destruct (proj1 (proj2 W) d (proj1 (proj1 A M))) as (_ & Z & _). apply Z in Q. lia.
    + apply (i_new _ _ _ _ _ I d M L) in Q. fold m in Q. lia.
  - intros d N L. apply IDS in N. destruct N as [N| ->].
    + rewrite (TO d N). destruct (i_new _ _ _ _ _ I d N L) as (A & B & Z). split; [exact A|]. split; [|exact Z]. intros x Q.
      destruct (B x Q) as (B1 & B2 & B3). fold m in B1. rewrite NXT, OP by lia. split; [lia|]. auto.
    + rewrite TM. cbn [tk tin tout]. split; [apply KG|]. split; [|intros E; exfalso; now apply KG]. intros x Q.
      destruct (XS x Q) as (B1 & B2 & B3). rewrite NXT, OP by (unfold m; lia). split; [unfold m; lia|]. split; [exact B2|].
      intros L'. destruct (B3 L') as (s & S1 & S2). eauto.
  - intros d d' N N'. apply IDS in N. apply IDS in N'. destruct N as [N| ->].
    + destruct N' as [N'| ->]; [rewrite (TO d N), (TO d' N'); apply (i_uniq _ _ _ _ _ I); assumption|]. rewrite TM. cbn. intros _ _ _ E. exfalso. now apply KG.
    + rewrite TM. cbn. intros _ _ E. exfalso. now apply KG.
  - intros s x S1 S2 S3. destruct (i_has _ _ _ _ _ I s x S1 S2 S3) as (d & D1 & D2 & D3 & D4). exists d. rewrite IDS, (TO d D1). auto.
  - intros n N. apply IDS in N. destruct N as [N| ->].
    + rewrite (TO n N). pose proof (i_comp _ _ _ _ _ I n N) as Q.
      assert (VI : map (o_upd w m a) (tin (tn h n)) = map w (tin (tn h n))).
      { apply map_upd. intros Z. destruct (Nat.lt_ge_cases n (tnext g)) as [L|L].
        - destruct (i_old _ _ _ _ _ I n L) as (A & B). rewrite B in Z. destruct (proj1 (proj2 W) n (proj1 (proj1 A N))) as (_ & Y & _). apply Y in Z. lia.
        - apply (i_new _ _ _ _ _ I n N L) in Z. fold m in Z. lia. }
      assert (VO : forall x, In x (tout (tn h n)) -> o_upd w m a x = w x).
      { intros x Z. apply updo. apply (i_out _ _ _ _ _ I n x N) in Z. fold m in Z. lia. }
      destruct (tk (tn h n)); try exact I; try exact Q; intros x Z; rewrite (VO x Z), ?VI; now apply Q.
    + rewrite TM. cbn [tk tin tout]. assert (VI : map (o_upd w m a) xs = map w xs) by (apply map_upd; intros Z; apply XS in Z; unfold m in Z; lia).
      rewrite VI. destruct k; cbn in NV; try tauto; intros x [<-|[]]; rewrite updn; exact NV.
  - intros x L. rewrite updo by lia. exact (i_val _ _ _ _ _ I x L).
Qed.
Definition OKx (h : tg) (x : nat) : Prop := x < tnext h /\ tprod h x <> None /\ (x < tnext g -> exists s, In s sel /\ In x (tin (tn g s))).
Definition pend_of (t x d : nat) : bool := (x =? t) && (d <? tnext g).
Lemma node_last P R h w n f t xs : Inv P R none h w -> In n sel -> ~ In n P -> tout (tn g n) = [t] -> (forall x, In x xs -> OKx h x) ->
  den f (map w xs) = v t -> Inv (n :: P) R (pend_of t) (fst (t_node h (KOp f) xs (Some t))) w.
Proof.
  intros I NS NP TT XS NV. set (m := tnext h) in *. destruct (sel_out n NS) as (t' & T1 & TL & TG). rewrite TT in T1. inversion T1; subst t'. clear T1.
  assert (LT : forall n, In n (tids h) -> n < m) by apply (i_lt _ _ _ _ _ I).
  pose proof (i_next _ _ _ _ _ I) as NX. fold m in NX.
  assert (PT : tprod h t = None) by exact (i_none _ _ _ _ _ I t n TG NS NP).
  assert (NT : ~ In t xs) by (intros Q; apply XS in Q; destruct Q as (_ & Q & _); tauto).
  set (h' := fst (t_node h (KOp f) xs (Some t))).
  assert (TN : tn h' = o_upd (tn h) m (mkTN (KOp f) xs [t])) by reflexivity.
  assert (TP : tprod h' = o_upd (tprod h) t (Some m)) by reflexivity.
  assert (NXT : tnext h' = S m) by reflexivity.
  assert (IDS : forall n, In n (tids h') <-> In n (tids h) \/ n = m) by (apply ids_node).
  assert (TO : forall n, In n (tids h) -> tn h' n = tn h n) by (intros q N; rewrite TN; apply updo; apply LT in N; lia).
  assert (TM : tn h' m = mkTN (KOp f) xs [t]) by (rewrite TN; apply updn).
  assert (OP : forall x, x <> t -> tprod h' x = tprod h x) by (intros x N; rewrite TP; now apply updo).
  assert (SM : forall x, tprod h x <> None -> tprod h' x <> None).
  { intros x Q. destruct (Nat.eq_dec x t) as [->|N]; [tauto|]. now rewrite OP. }
  split.
  - cbn. apply ss_app_one; [apply (i_sorted _ _ _ _ _ I)|exact LT].
  - intros q N. apply IDS in N. rewrite NXT. destruct N as [N| ->]; [apply LT in N; lia|lia].
  - lia.
  - intros q L. rewrite IDS, TN, updo by lia. destruct (i_old _ _ _ _ _ I q L) as (A & B). split; [|exact B]. rewrite <- A. intuition lia.
  - intros x p. rewrite TP. destruct (Nat.eq_dec x t) as [->|N].
    + rewrite updn. intros E. inversion E; subst p. rewrite IDS, TM. cbn. auto.
    + rewrite updo by exact N. intros E. destruct (i_prod _ _ _ _ _ I x p E) as (A & B). rewrite IDS, (TO p A). auto.
  - intros q x N T. apply IDS in N. rewrite NXT. destruct N as [N| ->].
    + rewrite (TO q N) in T. destruct (i_out _ _ _ _ _ I q x N T) as (A & B). fold m in A. split; [lia|]. rewrite OP; [exact B|]. intros ->. congruence.
    + rewrite TM in T. destruct T as [<-|[]]. split; [lia|]. rewrite TP. apply updn.
  - intros x q T N. rewrite OP by (intros ->; congruence). exact (i_stay _ _ _ _ _ I x q T N).
  - intros x q T N Q. assert (x <> t) by (intros ->; rewrite TG in T; inversion T; subst; apply Q; now left).
    rewrite OP by assumption. apply (i_none _ _ _ _ _ I x q T N). intros Z. apply Q. now right.
  - intros x q T [<-|N].
    + assert (x = t) as ->; [|rewrite TP, updn; discriminate]. destruct (proj1 (proj2 (proj2 W)) x n T) as (_ & Z). rewrite TT in Z. destruct Z as [Z|[]]. auto.
    + apply SM. exact (i_some _ _ _ _ _ I x q T N).
  - intros s d x. assert (XS' : forall y, In y xs -> y < tnext h /\ tprod h y <> None) by (intros y Y; destruct (XS y Y) as (A & B & _); auto).
    etransitivity; [exact (node_edges P R h w (KOp f) xs t I PT XS' s d x)|]. fold m. rewrite <- TP, <- TN. change (tids h ++ [m]) with (tids h').
    destruct (tprod h' x) as [p|]; [|reflexivity]. unfold pend_of. destruct (Nat.eqb_spec x t) as [->|N]; [|reflexivity]. cbn [andb].
    destruct (s =? p); [|reflexivity]. cbn [andb]. destruct (o_mem d (tids h')) eqn:M; [|reflexivity]. apply mem_true, IDS in M.
    destruct (Nat.eqb_spec d m) as [->|ND]; cbn [andb negb].
    + rewrite TM. cbn [tin]. rewrite (proj1 (count_occ_not_In Nat.eq_dec xs t) NT). destruct (negb _); reflexivity.
    + destruct M as [M|M]; [|tauto]. destruct (Nat.ltb_spec d (tnext g)) as [L|L]; [reflexivity|]. cbn [negb]. rewrite (TO d M). symmetry.
      apply count_occ_not_In. intros Q. apply (i_new _ _ _ _ _ I d M L) in Q. tauto.
  - intros d N L. apply IDS in N. destruct N as [N| ->].
    + rewrite (TO d N). destruct (i_new _ _ _ _ _ I d N L) as (A & B & Z). split; [exact A|]. split; [|exact Z]. intros x Q.
      destruct (B x Q) as (B1 & B2 & B3). fold m in B1. rewrite NXT. split; [lia|]. auto.
    + rewrite TM. cbn [tk tin tout]. split; [discriminate|]. split; [|discriminate]. intros x Q.
      destruct (XS x Q) as (B1 & B2 & B3). rewrite NXT. split; [unfold m; lia|]. split; [now apply SM|].
      intros L'. destruct (B3 L') as (s & S1 & S2). eauto.
  - intros d d' N N'. apply IDS in N. apply IDS in N'. destruct N as [N| ->].
    + destruct N' as [N'| ->]; [rewrite (TO d N), (TO d' N'); apply (i_uniq _ _ _ _ _ I); assumption|]. rewrite TM. cbn. intros _ _ _ E. discriminate.
    + rewrite TM. cbn. intros _ _ E. discriminate.
  - intros s x S1 S2 S3. destruct (i_has _ _ _ _ _ I s x S1 S2 S3) as (d & D1 & D2 & D3 & D4). exists d. rewrite IDS, (TO d D1). auto.
  - intros q N. apply IDS in N. destruct N as [N| ->].
    + rewrite (TO q N). exact (i_comp _ _ _ _ _ I q N).
    + rewrite TM. cbn [tk tin tout]. intros x [<-|[]]. rewrite NV. exact (i_val _ _ _ _ _ I t TL).
  - exact (i_val _ _ _ _ _ I).
Qed.
Lemma outnode P R h w n t : Inv P R (pend_of t) h w -> In n sel -> ~ In n R -> (forall s, In s R -> In s sel) -> tout (tn g n) = [t] -> tprod h t <> None -> In t outs ->
  Inv P (n :: R) (pend_of t) (t_outnode h t) w.
Proof.
  intros I NS NR RS TT PT TO0. set (m := tnext h) in *. destruct (sel_out n NS) as (t' & T1 & TL & TG). rewrite TT in T1. inversion T1; subst t'. clear T1.
  assert (LT : forall n, In n (tids h) -> n < m) by apply (i_lt _ _ _ _ _ I).
  pose proof (i_next _ _ _ _ _ I) as NX. fold m in NX.
  set (h' := t_outnode h t).
  assert (TN : tn h' = o_upd (tn h) m (mkTN KOut [t] [])) by reflexivity.
  assert (TP : tprod h' = tprod h) by reflexivity.
  assert (NXT : tnext h' = S m) by reflexivity.
  assert (IDS : forall n, In n (tids h') <-> In n (tids h) \/ n = m) by (intros q; cbn; rewrite in_app_iff; cbn; fold m; intuition).
  assert (TO : forall n, In n (tids h) -> tn h' n = tn h n) by (intros q N; rewrite TN; apply updo; apply LT in N; lia).
  assert (TM : tn h' m = mkTN KOut [t] []) by (rewrite TN; apply updn).
  assert (FR : forall d, In d (tids h) -> tnext g <= d -> tk (tn h d) = KOut -> tin (tn h d) <> [t]).
  { intros d N L K E. destruct (i_new _ _ _ _ _ I d N L) as (_ & _ & Z). destruct (Z K) as (_ & x & s & S1 & S2 & S3 & _). rewrite E in S2. inversion S2; subst x.
    destruct (sel_in s (RS s S1)) as (SI & _). destruct (proj1 (proj2 W) s SI) as (_ & _ & Q & _). destruct (Q t S3) as (_ & Q2). congruence. }
  split.
  - cbn. apply ss_app_one; [apply (i_sorted _ _ _ _ _ I)|exact LT].
  - intros q N. apply IDS in N. rewrite NXT. destruct N as [N| ->]; [apply LT in N; lia|lia].
  - lia.
  - intros q L. rewrite IDS, TN, updo by lia. destruct (i_old _ _ _ _ _ I q L) as (A & B). split; [|exact B]. rewrite <- A. intuition lia.
  - intros x p E. destruct (i_prod _ _ _ _ _ I x p E) as (A & B). rewrite IDS, (TO p A). auto.
  - intros q x N T. apply IDS in N. rewrite NXT. destruct N as [N| ->].
    + rewrite (TO q N) in T. destruct (i_out _ _ _ _ _ I q x N T) as (A & B). fold m in A. split; [lia|exact B].
    + rewrite TM in T. destruct T.
  - exact (i_stay _ _ _ _ _ I).
  - exact (i_none _ _ _ _ _ I).
  - exact (i_some _ _ _ _ _ I).
  - intros s d x. change (ted h') with (ted h ++ [(match tprod h t with Some p => p | None => 0 end, m, t)]). rewrite ecount_app, (i_edges _ _ _ _ _ I), ecount_one, TP.
    change (tids h') with (tids h ++ [m]). rewrite mem_app_one, TN.
    assert (ND : o_mem m (tids h) = false) by (apply mem_false; intros Q; apply LT in Q; lia).
    destruct (tprod h t) as [p|] eqn:PE; [|tauto]. rewrite (Nat.eqb_sym m d), (Nat.eqb_sym t x), (Nat.eqb_sym p s).
    assert (PM : pend_of t x m = false) by (unfold pend_of; destruct (Nat.ltb_spec m (tnext g)); [lia|apply andb_false_r]).
    destruct (Nat.eqb_spec d m) as [->|N].
    + rewrite updn, ND, PM. cbn [tin orb negb andb]. rewrite !andb_true_r. destruct (Nat.eqb_spec x t) as [->|NT].
      * rewrite PE. cbn [count_occ]. destruct (Nat.eq_dec t t); [|tauto]. destruct (s =? p); reflexivity.
      * rewrite andb_false_r. cbn [count_occ]. destruct (Nat.eq_dec t x); [congruence|]. destruct (tprod h x) as [p'|]; [|reflexivity].
        destruct (s =? p'); reflexivity.
    + rewrite updo by exact N. rewrite andb_false_r. cbn [andb]. rewrite orb_false_r, Nat.add_0_r. reflexivity.
  - intros d N L. apply IDS in N. destruct N as [N| ->].
    + rewrite (TO d N). destruct (i_new _ _ _ _ _ I d N L) as (A & B & Z). split; [exact A|]. split.
      * intros x Q. destruct (B x Q) as (B1 & B2 & B3). fold m in B1. rewrite NXT. split; [lia|]. auto.
      * intros K. destruct (Z K) as (Z1 & x & s & Z2 & Z3 & Z4 & Z5). split; [exact Z1|]. exists x, s. repeat split; auto. now right.
    + rewrite TM. cbn [tk tin tout]. split; [discriminate|]. split.
      * intros x [<-|[]]. rewrite NXT, TP. split; [lia|]. split; [exact PT|]. intros _. exists n. split; [exact NS|]. right. rewrite TT. now left.
      * intros _. split; [reflexivity|]. exists t, n. rewrite TT. repeat split; auto; now left.
  - intros d d' N N'. apply IDS in N. apply IDS in N'. destruct N as [N| ->].
    + destruct N' as [N'| ->]; [rewrite (TO d N), (TO d' N'); apply (i_uniq _ _ _ _ _ I); assumption|]. rewrite TM, (TO d N). cbn [tk tin tout]. intros L _ K _ E.
      exfalso. exact (FR d N L K E).
    + rewrite TM. cbn [tk tin tout]. intros _ L K K' E. destruct N' as [N'| ->]; [|reflexivity]. rewrite (TO d' N') in K', E. exfalso. exact (FR d' N' L K' (eq_sym E)).
  - intros s x [<-|S1] S2 S3.
    + exists m. rewrite IDS, TM. cbn. rewrite TT in S2. destruct S2 as [<-|[]]. auto.
    + destruct (i_has _ _ _ _ _ I s x S1 S2 S3) as (d & D1 & D2 & D3 & D4). exists d. rewrite IDS, (TO d D1). auto.
  - intros q N. apply IDS in N. destruct N as [N| ->].
    + rewrite (TO q N). exact (i_comp _ _ _ _ _ I q N).
    + rewrite TM. exact Logic.I.
  - exact (i_val _ _ _ _ _ I).
Qed.

(** * The edges of the readers *)
Lemma restore_eq t p : forall l h, (forall e, In e l -> fst e = t) -> tprod h t = Some p ->
  t_restore h l = Some (mkTG (tn h) (tids h) (ted h ++ map (fun d => (p, d, t)) (filter (fun d => o_mem d (tids h)) (map snd l))) (tprod h) (tnext h)).
Proof.
  induction l as [|[x d] l IH]; intros h L T; cbn [t_restore map filter].
  - rewrite app_nil_r. destruct h; reflexivity.
  - assert (x = t) as -> by (apply (L (x, d)); now left). assert (L' : forall e, In e l -> fst e = t) by (intros e Q; apply L; now right).
    cbn [snd]. destruct (o_mem d (tids h)); [|now apply IH]. rewrite T, IH by assumption. cbn [tn tids ted tprod tnext map]. now rewrite <- app_assoc.
Qed.
Lemma count_filter (k : nat -> bool) d : forall l, count_occ Nat.eq_dec (filter k l) d = if k d then count_occ Nat.eq_dec l d else 0.
Proof.
  induction l as [|a l IH]; [destruct (k d); reflexivity|]. cbn [filter]. destruct (k a) eqn:K; cbn [count_occ]; destruct (Nat.eq_dec a d) as [->|N]; try rewrite K in *; rewrite IH; try reflexivity; try (destruct (k d); reflexivity).
Qed.
Lemma count_oute n t d : forall E : list oedge, (forall e, In e E -> fst (fst e) = n -> snd e = t) ->
  count_occ Nat.eq_dec (map snd (map (fun e : oedge => (snd e, snd (fst e))) (filter (fun e => negb (is_tout (tk (tn g (snd (fst e)))))) (filter (fun e => fst (fst e) =? n) E)))) d =
  if is_tout (tk (tn g d)) then 0 else ecount n d t E.
Proof.
  induction E as [|[[a b] x] E IH]; intros H; [cbn; destruct (is_tout _); reflexivity|]. rewrite ecount_cons, ecount_one.
  assert (H' : forall e, In e E -> fst (fst e) = n -> snd e = t) by (intros e Q; apply H; now right). specialize (IH H').
  cbn [filter fst snd]. destruct (Nat.eqb_spec a n) as [->|N]; cbn [andb]; [|exact IH]. cbn [filter fst snd].
  assert (x = t) as -> by exact (H (n, b, x) (or_introl eq_refl) eq_refl). rewrite Nat.eqb_refl, andb_true_r.
  destruct (is_tout (tk (tn g b))) eqn:K; cbn [negb].
  - rewrite IH. destruct (Nat.eqb_spec b d) as [->|]; [rewrite K; reflexivity|]. reflexivity.
  - cbn [map snd fst count_occ]. rewrite IH. destruct (Nat.eq_dec b d) as [->|N2]; [rewrite Nat.eqb_refl, K; reflexivity|].
    apply Nat.eqb_neq in N2. rewrite N2. reflexivity.
Qed.
Lemma restored P R h w n t p : Inv P R (pend_of t) h w -> In n sel -> tout (tn g n) = [t] -> tprod h t = Some p ->
  exists h', t_restore h (t_mapping g n) = Some h' /\ Inv P R none h' w.
Proof.
  intros I NS TT PT. destruct (sel_out n NS) as (t' & T1 & TL & TG). rewrite TT in T1. inversion T1; subst t'. clear T1.
  assert (LB : forall e, In e (ted g) -> fst (fst e) = n -> snd e = t).
  { intros [[a b] x] Q E. cbn in E. subst a. apply edge_g in Q. destruct Q as (Q & _). destruct (proj1 (proj2 (proj2 W)) x n Q) as (_ & Z). rewrite TT in Z. destruct Z as [<-|[]]. reflexivity. }
  eexists. split.
  - apply restore_eq with (t := t); [|exact PT]. intros e Q. unfold t_mapping in Q. apply in_map_iff in Q. destruct Q as ([[a b] x] & <- & Q).
    apply filter_In in Q. destruct Q as (Q & _). unfold t_oute in Q. apply filter_In in Q. destruct Q as (Q & E). cbn in *. apply Nat.eqb_eq in E. exact (LB (a, b, x) Q E).
  - destruct I. split; cbn [tn tids ted tprod tnext]; try assumption. intros s d x. rewrite ecount_app, i_edges0, ecount_map, count_filter.
    assert (CM : count_occ Nat.eq_dec (map snd (t_mapping g n)) d = if is_tout (tk (tn g d)) then 0 else ecount n d t (ted g)) by exact (count_oute n t d (ted g) LB).
    rewrite CM, C, TG, Nat.eqb_refl. cbn [andb]. unfold pend_of, none. cbn [negb].
    destruct (Nat.eqb_spec x t) as [->|N]; [|rewrite andb_false_r; cbn [andb negb]; destruct (tprod h x); lia].
    rewrite PT, !andb_true_r. cbn [andb]. destruct (s =? p); [|reflexivity]. cbn [andb]. destruct (o_mem d (tids h)) eqn:M; [|cbn [andb]; reflexivity]. cbn [andb].
    apply mem_true in M. destruct (Nat.ltb_spec d (tnext g)) as [L|L]; cbn [negb].
    + destruct (i_old0 d L) as (A & B). apply A in M. destruct M as (M1 & M2). rewrite B, (proj2 (mem_true d (tids g)) M1).
      destruct (is_tout (tk (tn g d))) eqn:K; [|reflexivity]. symmetry. cbn. apply count_occ_not_In. intros Q. apply M2, D_iff. right. exists n, t.
      repeat split; auto. destruct (tk (tn g d)); try discriminate; reflexivity.
    + assert (M' : o_mem d (tids g) = false) by (apply mem_false; intros Q; pose proof (proj1 (proj1 (proj2 W) d Q)); lia).
      rewrite M'. destruct (is_tout _); lia.
Qed.

(** * The operators that replace one *)
Definition Ext (h : tg) (w : nat -> V) (h' : tg) (w' : nat -> V) : Prop :=
  tnext h <= tnext h' /\ (forall x, tprod h x <> None -> tprod h' x <> None) /\ (forall x, x < tnext h -> w' x = w x).
Lemma ext_ok h w h' w' x : Ext h w h' w' -> OKx h x -> OKx h' x.
Proof. intros (A & B & _) (Q1 & Q2 & Q3). split; [lia|]. split; [now apply B|exact Q3]. Qed.
Lemma ext_trans h w h' w' h2 w2 : Ext h w h' w' -> Ext h' w' h2 w2 -> Ext h w h2 w2.
Proof. intros (A & B & Z) (A' & B' & Z'). split; [lia|]. split; [auto|]. intros x L. rewrite Z' by lia. now apply Z. Qed.
Lemma ext_refl h w : Ext h w h w.
Proof. split; [lia|]. auto. Qed.
Lemma ext_map h w h' w' l : Ext h w h' w' -> (forall x, In x l -> OKx h x) -> map w' l = map w l.
Proof. intros (_ & _ & Z) Q. apply map_ext_in. intros x X0. apply Z. apply (Q x X0). Qed.
Lemma ext_node P R h w k xs a : Inv P R none h w -> Ext h w (fst (t_node h k xs None)) (o_upd w (tnext h) a).
Proof.
  intros I. split; [cbn; lia|]. split.
  - intros x Q. cbn. unfold o_upd. destruct (x =? tnext h); [discriminate|exact Q].
  - intros x L. apply updo. lia.
Qed.
Definition arg_val (ins temps : list V) (a : sref) : option V :=
  match a with RIn i => nth_error ins i | RTmp j => nth_error temps j | RNew c => Some (cv c) end.
Lemma nth_val (w : nat -> V) l i a : nth_error (map w l) i = Some a -> In (nth i l 0) l /\ w (nth i l 0) = a.
Proof.
  revert i. induction l as [|y l IH]; intros [|i] E; cbn in *; try discriminate; [inversion E; auto|]. destruct (IH i E). auto.
Qed.
Lemma args_ok P R ins temps : forall l h w vals, Inv P R none h w -> (forall x, In x ins -> OKx h x) -> (forall x, In x temps -> OKx h x) ->
  all_some (map (arg_val (map w ins) (map w temps)) l) = Some vals ->
  exists h' xs w', t_args ins temps h l = (h', xs) /\ Inv P R none h' w' /\ Ext h w h' w' /\ map w' xs = vals /\ forall x, In x xs -> OKx h' x.
Proof.
  induction l as [|a l IH]; intros h w vals I Q1 Q2 E; cbn [map all_some t_args] in *.
  - inversion E. exists h, [], w. split; [reflexivity|]. split; [exact I|]. split; [apply ext_refl|]. split; [reflexivity|]. intros x [].
  - destruct (arg_val (map w ins) (map w temps) a) as [b|] eqn:B; [|discriminate].
    destruct (all_some (map (arg_val (map w ins) (map w temps)) l)) as [bs|] eqn:BS; [|discriminate]. inversion E; subst vals. clear E.
    assert (A : exists h1 x w1, t_arg ins temps h a = (h1, x) /\ Inv P R none h1 w1 /\ Ext h w h1 w1 /\ w1 x = b /\ OKx h1 x).
    { destruct a as [i|j|c]; cbn [arg_val t_arg] in *.
      - destruct (nth_val w ins i b B). exists h, (nth i ins 0), w. split; [reflexivity|]. split; [exact I|]. split; [apply ext_refl|]. auto.
      - destruct (nth_val w temps j b B). exists h, (nth j temps 0), w. split; [reflexivity|]. split; [exact I|]. split; [apply ext_refl|]. auto.
      - inversion B; subst b. exists (fst (t_node h (KConst c) [] None)), (tnext h), (o_upd w (tnext h) (cv c)). split; [reflexivity|].
        split; [apply node_fresh; [exact I|reflexivity|intros x []]|]. split; [exact (ext_node P R h w (KConst c) [] (cv c) I)|]. split; [apply updn|].
        split; [cbn; lia|]. split; [cbn; rewrite updn; discriminate|]. intros L. pose proof (i_next _ _ _ _ _ I). lia. }
    destruct A as (h1 & x & w1 & A1 & A2 & A3 & A4 & A5). rewrite A1.
    assert (E1 : map w1 ins = map w ins) by (apply (ext_map h w h1 w1); auto). assert (E2 : map w1 temps = map w temps) by (apply (ext_map h w h1 w1); auto).
    destruct (IH h1 w1 bs A2) as (h2 & xs & w2 & B1 & B2 & B3 & B4 & B5).
    + intros y Y. apply (ext_ok h w h1 w1); auto.
    + intros y Y. apply (ext_ok h w h1 w1); auto.
    + rewrite E1, E2. exact BS.
    + rewrite B1. exists h2, (x :: xs), w2. split; [reflexivity|]. split; [exact B2|]. split; [exact (ext_trans _ _ _ _ _ _ A3 B3)|]. split.
      * cbn [map]. rewrite B4. f_equal. destruct B3 as (_ & _ & Z). rewrite Z by apply A5. exact A4.
      * intros y [<-|Y]; [exact (ext_ok _ _ _ _ _ B3 A5)|now apply B5].
Qed.
Lemma inputs_there h : forall xs, (forall x, In x xs -> OKx h x) -> fold_left t_input xs h = h.
Proof.
  induction xs as [|x xs IH]; intros Q; [reflexivity|]. cbn [fold_left]. unfold t_input at 2. destruct (Q x (or_introl eq_refl)) as (_ & Q2 & _).
  destruct (tprod h x); [|tauto]. apply IH. intros y Y. apply Q. now right.
Qed.
Lemma steps_ok P R ins t : forall e temps h w a, Inv P R none h w -> (forall x, In x ins -> OKx h x) -> (forall x, In x temps -> OKx h x) ->
  e_run den cv (map w ins) (map w temps) e = Some a ->
  exists h1 f xs w1, t_steps outs ins t e temps h = fst (t_operator outs h1 f xs (Some t)) /\ Inv P R none h1 w1 /\ (forall x, In x xs -> OKx h1 x) /\
    den f (map w1 xs) = a.
Proof.
  induction e as [|[f args] rest IH]; intros temps h w a I Q1 Q2 E; [discriminate|]. cbn [e_run t_steps] in *.
  change (map _ args) with (map (arg_val (map w ins) (map w temps)) args) in E.
  destruct (all_some (map (arg_val (map w ins) (map w temps)) args)) as [vals|] eqn:A; [|discriminate].
  destruct (args_ok P R ins temps args h w vals I Q1 Q2 A) as (h1 & xs & w1 & B1 & B2 & B3 & B4 & B5). rewrite B1.
  destruct rest as [|s rest].
  - inversion E. exists h1, f, xs, w1. rewrite B4. auto.
  - unfold t_operator. rewrite inputs_there by exact B5.
    set (h2 := fst (t_node h1 (KOp f) xs None)). assert (T : t_node h1 (KOp f) xs None = (h2, tnext h1)) by reflexivity. rewrite T.
    assert (NO : o_mem (tnext h1) outs = false).
    { apply mem_false. intros Z. apply (proj2 (proj2 (proj2 W))) in Z. pose proof (i_next _ _ _ _ _ B2). lia. }
    rewrite NO. set (w2 := o_upd w1 (tnext h1) (den f vals)).
    assert (I2 : Inv P R none h2 w2) by (apply node_fresh; [exact B2|cbn; now rewrite B4|exact B5]).
    assert (X2 : Ext h w h2 w2) by exact (ext_trans _ _ _ _ _ _ B3 (ext_node P R h1 w1 (KOp f) xs (den f vals) B2)).
    assert (OY : OKx h2 (tnext h1)) by (split; [cbn; lia|]; split; [cbn; rewrite updn; discriminate|]; intros L; pose proof (i_next _ _ _ _ _ B2); lia).
    apply (IH (temps ++ [tnext h1]) h2 w2 a I2).
    + intros x Z. exact (ext_ok _ _ _ _ _ X2 (Q1 x Z)).
    + intros x Z. apply in_app_iff in Z. destruct Z as [Z|[<-|[]]]; [exact (ext_ok _ _ _ _ _ X2 (Q2 x Z))|exact OY].
    + rewrite map_app, (ext_map _ _ _ _ _ X2 Q1), (ext_map _ _ _ _ _ X2 Q2). cbn [map]. unfold w2 at 1. rewrite updn. exact E.
Qed.
Lemma one_ok P h w n : Inv P P none h w -> (forall s, In s P -> In s sel) -> In n sel -> ~ In n P ->
  (forall p, In p sel -> p < n -> In p P) -> exists h' w', t_one exp outs g h n (t_mapping g n) = Some h' /\ Inv (n :: P) (n :: P) none h' w'.
Proof.
  intros I PS NS NP BF. destruct (sel_in n NS) as (NI & f & K). destruct (sel_out n NS) as (t & TT & TL & TG). unfold t_one. rewrite K, TT. cbn [nth].
  destruct (proj1 (proj2 W) n NI) as (_ & QI & _).
  assert (OI : forall x, In x (tin (tn g n)) -> OKx h x).
  { intros x Q. destruct (QI x Q) as (L & PX). pose proof (i_next _ _ _ _ _ I). split; [lia|]. split; [|intros _; exists n; auto].
    destruct (tprod g x) as [p|] eqn:E; [|tauto]. destruct (o_mem p sel) eqn:M.
    - apply mem_true in M. apply (i_some _ _ _ _ _ I x p E). apply BF; [exact M|]. destruct (sel_in p M) as (PI & f' & PK).
      apply (O p n f' f x PI NI PK K); [|exact Q]. apply (proj1 (proj2 (proj2 W)) x p E).
    - apply mem_false in M. rewrite (i_stay _ _ _ _ _ I x p E M). discriminate. }
  assert (EV : e_run den cv (map w (tin (tn g n))) (map w []) (exp f) = Some (v t)).
  { cbn [map]. rewrite (X n f (map w (tin (tn g n))) NI K (map_length _ _)). f_equal. pose proof (VV n NI) as Q. rewrite K in Q. rewrite (Q t) by (rewrite TT; now left).
    f_equal. apply map_ext_in. intros x Z. apply (i_val _ _ _ _ _ I). apply (QI x Z). }
  destruct (steps_ok P P (tin (tn g n)) t (exp f) [] h w (v t) I OI) as (h1 & f1 & xs & w1 & S1 & S2 & S3 & S4); [intros x []|exact EV|].
  rewrite S1. unfold t_operator. rewrite inputs_there by exact S3.
  set (h2 := fst (t_node h1 (KOp f1) xs (Some t))). assert (T : t_node h1 (KOp f1) xs (Some t) = (h2, t)) by reflexivity. rewrite T. cbn [fst].
  assert (I2 : Inv (n :: P) P (pend_of t) h2 w1) by (apply node_last; assumption).
  assert (PT : tprod h2 t = Some (tnext h1)) by (cbn; apply updn).
  destruct (o_mem t outs) eqn:M.
  - apply mem_true in M. assert (I3 : Inv (n :: P) (n :: P) (pend_of t) (t_outnode h2 t) w1) by (apply outnode; try assumption; rewrite PT; discriminate).
    destruct (restored _ _ _ _ n t (tnext h1) I3 NS TT) as (h' & R1 & R2); [exact PT|]. exists h', w1. auto.
  - apply mem_false in M. assert (I3 : Inv (n :: P) (n :: P) (pend_of t) h2 w1).
    { destruct I2. split; try assumption.
      - intros d N L. destruct (i_new0 d N L) as (A & B & Z). split; [exact A|]. split; [exact B|]. intros KK. destruct (Z KK) as (Z1 & x & s & Z2 & Z3 & Z4 & Z5).
        split; [exact Z1|]. exists x, s. repeat split; auto. now right.
      - intros s x [<-|Q] Q2 Q3; [|now apply (i_has0 s x)]. exfalso. rewrite TT in Q2. destruct Q2 as [<-|[]]. tauto. }
    destruct (restored _ _ _ _ n t (tnext h1) I3 NS TT PT) as (h' & R1 & R2). exists h', w1. auto.
Qed.
Lemma all_ok : forall l P h w, Inv P P none h w -> (forall s, In s P -> In s sel) -> StronglySorted lt l -> (forall n, In n l -> In n sel /\ ~ In n P) ->
  (forall p, In p sel -> In p P \/ In p l) -> exists h' w' P', t_all exp outs g h (combine l (map (t_mapping g) l)) = Some h' /\ Inv P' P' none h' w' /\ (forall p, In p P' <-> In p sel).
Proof.
  induction l as [|n l IH]; intros P h w I PS SL NL AL; cbn [map combine t_all].
  - exists h, w, P. split; [reflexivity|]. split; [exact I|]. intros p. split; [apply PS|]. intros Q. destruct (AL p Q) as [Q'|[]]; exact Q'.
  - inversion SL as [|? ? SL1 SL2]; subst. rewrite Forall_forall in SL2. destruct (NL n (or_introl eq_refl)) as (N1 & N2).
    destruct (one_ok P h w n I PS N1 N2) as (h1 & w1 & E & I1).
    + intros p Q L. destruct (AL p Q) as [A|[<-|A]]; [exact A|lia|]. specialize (SL2 p A). lia.
    + rewrite E. apply (IH (n :: P) h1 w1 I1).
      * intros s [<-|Q]; auto.
      * exact SL1.
      * intros q Q. split; [apply NL; now right|]. intros [<-|Z]; [specialize (SL2 n Q); lia|]. apply (NL q (or_intror Q)). exact Z.
      * intros p Q. destruct (AL p Q) as [A|[<-|A]]; [left; now right|left; now left|now right].
Qed.

Lemma pass_ok : exists g' v', transform_graph exp outs g = Some g' /\
  t_wf outs g' /\ t_consistent g' /\ t_computes den cv g' v' /\ (forall x, x < tnext g -> v' x = v x) /\
  (forall n, In n (tids g) -> (In n (tids g') <-> ~ goes g n) /\ (In n (tids g') -> tn g' n = tn g n)) /\
  (forall n, In n (tids g') -> ~ replaced g' n) /\
  (forall x, tprod g x <> None -> tprod g' x <> None) /\
  (forall x, has_output g x -> has_output g' x) /\
  (forall d d', In d (tids g') -> In d' (tids g') -> ~ In d (tids g) -> tk (tn g' d) = KOut -> tk (tn g' d') = KOut -> tin (tn g' d) = tin (tn g' d') -> d = d').
Proof.
  assert (SS : StronglySorted lt sel) by exact (ss_filter _ _ (proj1 W)).
  destruct (all_ok sel [] (t_cut g sel D) v inv_cut) as (h & w & P & E & I & PS); auto; [intros s []|].
  exists h, w. unfold transform_graph. fold sel. rewrite (sort_id sel SS). split; [exact E|].
  assert (OLD : forall n, In n (tids g) -> n < tnext g) by (intros n Q; exact (proj1 (proj1 (proj2 W) n Q))).
  assert (OLD' : forall n, In n (tids h) -> n < tnext g -> In n (tids g) /\ ~ In n D /\ tn h n = tn g n).
  { intros n Q L. destruct (i_old _ _ _ _ _ I n L) as (A & B). apply A in Q. tauto. }
  assert (PR : forall x, tprod g x <> None -> tprod h x <> None).
  { intros x Q. destruct (tprod g x) as [p|] eqn:T; [|tauto]. destruct (o_mem p sel) eqn:M.
    - apply mem_true, PS in M. exact (i_some _ _ _ _ _ I x p T M).
    - apply mem_false in M. rewrite (i_stay _ _ _ _ _ I x p T M). discriminate. }
  pose proof (i_next _ _ _ _ _ I) as NX.
  assert (WF : t_wf outs h).
  { split; [exact (i_sorted _ _ _ _ _ I)|]. split; [|split; [exact (i_prod _ _ _ _ _ I)|intros x Q; apply (proj2 (proj2 (proj2 W))) in Q; lia]].
    intros n N. split; [exact (i_lt _ _ _ _ _ I n N)|].
    assert (A1 : forall x, In x (tin (tn h n)) -> x < tnext h /\ tprod h x <> None).
    { intros x Q. destruct (Nat.lt_ge_cases n (tnext g)) as [L|L].
      - destruct (OLD' n N L) as (N1 & N2 & N3). rewrite N3 in Q. destruct (proj1 (proj2 W) n N1) as (_ & Z & _). destruct (Z x Q). split; [lia|auto].
      - destruct (i_new _ _ _ _ _ I n N L) as (_ & Z & _). destruct (Z x Q) as (Z1 & Z2 & _). auto. }
    split; [exact A1|]. split; [intros x; exact (i_out _ _ _ _ _ I n x N)|]. destruct (Nat.lt_ge_cases n (tnext g)) as [L|L].
    - destruct (OLD' n N L) as (N1 & N2 & N3). rewrite N3. destruct (proj1 (proj2 W) n N1) as (_ & _ & _ & Z). exact Z.
    - destruct (i_new _ _ _ _ _ I n N L) as (Z1 & _ & Z2). split; [|intros f Q; exfalso; exact (Z1 f Q)]. intros K. destruct (Z2 K) as (Z3 & x & s & _ & Z4 & _ & Z5). eauto. }
  split; [exact WF|]. split.
  { intros s d x. rewrite (i_edges _ _ _ _ _ I). destruct (tprod h x); [|reflexivity]. unfold none. cbn [negb]. now rewrite andb_true_r. }
  split; [exact (i_comp _ _ _ _ _ I)|]. split; [exact (i_val _ _ _ _ _ I)|].
  assert (GD : forall n, In n (tids g) -> (In n D <-> goes g n)).
  { intros n N. rewrite D_iff, (sel_iff n N). unfold goes. split.
    - intros [Q|(s & x & Q1 & Q2 & Q3 & Q4 & Q5)]; [now left|]. right. split; [exact Q3|]. destruct (sel_in s Q1) as (SI & _). exists s, x.
      split; [exact SI|]. split; [now apply sel_iff|]. split; [|exact Q5]. apply (proj1 (proj2 (proj2 W)) x s Q4).
    - intros [Q|(Q3 & s & x & Q1 & Q2 & Q4 & Q5)]; [now left|]. right. exists s, x. split; [now apply sel_iff|]. split; [exact N|]. split; [exact Q3|].
      split; [|exact Q5]. apply (proj1 (proj2 W) s Q1). exact Q4. }
  split.
  { intros n N. destruct (i_old _ _ _ _ _ I n (OLD n N)) as (A & B). split; [|intros _; exact B]. rewrite A, (GD n N). tauto. }
  split.
  { intros n N ((f & F) & d & x & D1 & D2 & D3). destruct (Nat.lt_ge_cases n (tnext g)) as [L|L]; [|destruct (i_new _ _ _ _ _ I n N L) as (Z & _); exact (Z f F)].
    destruct (OLD' n N L) as (N1 & N2 & N3). rewrite N3 in F, D2. assert (RN : ~ In n sel) by (intros Q; apply N2, D_iff; now left). apply RN, (sel_iff n N1).
    split; [now exists f|]. destruct (Nat.lt_ge_cases d (tnext g)) as [Ld|Ld].
    - destruct (OLD' d D1 Ld) as (E1 & E2 & E3). exists d, x. rewrite E3 in D3. auto.
    - destruct (i_new _ _ _ _ _ I d D1 Ld) as (_ & Z & _). destruct (Z x D3) as (_ & _ & Z3). destruct (proj1 (proj2 W) n N1) as (_ & _ & Q & _).
      destruct (Q x D2) as (XL & XP). destruct (Z3 XL) as (s & S1 & [S2|S2]); destruct (sel_in s S1) as (SI & _).
      + exists s, x. auto.
      + exfalso. destruct (proj1 (proj2 W) s SI) as (_ & _ & Q' & _). destruct (Q' x S2) as (_ & XP'). congruence. }
  split; [exact PR|]. split.
  { intros x (d & D1 & D2 & D3). destruct (i_old _ _ _ _ _ I d (OLD d D1)) as (A & B). destruct (o_mem d D) eqn:M.
    - apply mem_true, D_iff in M. destruct M as [M|(s & y & M1 & M2 & M3 & M4 & M5)].
      + destruct (sel_in d M) as (_ & f & F). congruence.
      + rewrite D3 in M5. destruct M5 as [<-|[]]. destruct (proj1 (proj2 W) d D1) as (_ & _ & _ & Z & _). destruct (Z D2) as (_ & z & Z1 & Z2). rewrite D3 in Z1. inversion Z1; subst z.
        destruct (i_has _ _ _ _ _ I s x) as (d' & E1 & E2 & E3 & E4); [now apply PS|apply (proj1 (proj2 (proj2 W)) x s M4)|exact Z2|]. exists d'. auto.
    - apply mem_false in M. exists d. rewrite B. split; [apply A; auto|]. auto. }
  intros d d' N N' ND K K' Q.
  assert (LD : tnext g <= d) by (destruct (Nat.lt_ge_cases d (tnext g)) as [L|L]; [exfalso; apply ND; apply (OLD' d N L)|exact L]).
  destruct (Nat.lt_ge_cases d' (tnext g)) as [L'|L']; [|exact (i_uniq _ _ _ _ _ I d d' N N' LD L' K K' Q)]. exfalso.
  destruct (OLD' d' N' L') as (A1 & A2 & A3). destruct (i_new _ _ _ _ _ I d N LD) as (_ & _ & Z). destruct (Z K) as (_ & x & s & Z1 & Z2 & Z3 & Z4).
  apply A2, D_iff. right. exists s, x. apply PS in Z1. rewrite A3 in K', Q. split; [exact Z1|]. split; [exact A1|]. split; [exact K'|]. split.
  - destruct (sel_in s Z1) as (SI & _). apply (proj1 (proj2 W) s SI). exact Z3.
  - rewrite <- Q, Z2. now left.
Qed.
End Pass.

(** * Examples *)
Lemma edges_of g : NoDup (tids g) ->
  ted g = flat_map (fun n => map (fun u => (match tprod g u with Some p => p | None => 0 end, n, u)) (tin (tn g n))) (tids g) ->
  (forall n x, In n (tids g) -> In x (tin (tn g n)) -> tprod g x <> None) -> t_consistent g.
Proof.
  intros N E H s d x. rewrite E.
  assert (A : forall l, NoDup l -> ecount s d x (flat_map (fun n => map (fun u => (match tprod g u with Some p => p | None => 0 end, n, u)) (tin (tn g n))) l) =
     if (s =? match tprod g x with Some p => p | None => 0 end) && o_mem d l then count_occ Nat.eq_dec (tin (tn g d)) x else 0).
  { induction l as [|n l IH]; intros Q; cbn [flat_map]; [cbn; now rewrite andb_false_r|]. inversion Q as [|? ? Q1 Q2]; subst. rewrite ecount_app, IH by exact Q2.
    rewrite (ecount_ins s d x (fun u => match tprod g u with Some p => p | None => 0 end)). cbn [o_mem existsb]. fold (o_mem d l). rewrite (Nat.eqb_sym n d).
    destruct (Nat.eqb_spec d n) as [->|ND].
    - rewrite (proj2 (mem_false n l) Q1), andb_false_r. cbn [andb orb]. rewrite andb_true_r. lia.
    - reflexivity. }
  rewrite (A (tids g) N). destruct (tprod g x) eqn:T; [reflexivity|]. destruct (_ && o_mem d (tids g)) eqn:M; [|reflexivity]. apply andb_prop in M. destruct M as [_ M].
  apply mem_true in M. apply count_occ_not_In. intros Q. exact (H d x M Q T).
Qed.
(** two operators of the converter's own kinds, the second reads the first; both are read by an operator, the second is an output *)
Definition xt_n (n : nat) : tnode := match n with
  | 0 => mkTN KIn [] [0] | 1 => mkTN (KConst 5) [] [1] | 2 => mkTN (KGen 7) [0; 1] [2] | 3 => mkTN (KGen 8) [2] [3]
  | 4 => mkTN (KOp 9) [2; 3; 2] [4] | 5 => mkTN KOut [3] [] | _ => mkTN KOut [4] [] end.
Definition xt : tg := mkTG xt_n [0; 1; 2; 3; 4; 5; 6] [(0,2,0); (1,2,1); (2,3,2); (2,4,2); (3,4,3); (2,4,2); (3,5,3); (4,6,4)]
  (fun x => if x <? 5 then Some x else None) 7.
Definition xt_outs := [3; 4].
Definition xt_exp (f : nat) : texp := match f with 7 => [(1, [RIn 0; RIn 1]); (2, [RTmp 0; RNew 3])] | _ => [(1, [RIn 0; RNew 4])] end.
Definition xt_den (f : nat) (vs : list nat) : nat := match f, vs with
  | 1, [a; b] => a + b | 2, [a; b] => a * b | 7, [a; b] => (a + b) * 3 | 8, [a] => a + 4 | 9, [a; b; c] => a + b + c | _, _ => 0 end.
Definition xt_v (x : nat) : nat := match x with 0 => 1 | 1 => 5 | 2 => 18 | 3 => 22 | _ => 58 end.
Ltac node_case :=
  split; [cbn; lia|]; split; [let x := fresh in let Q := fresh in intros x Q; cbn in Q; repeat (destruct Q as [<-|Q]; [split; [cbn; lia|vm_compute; discriminate]|]); destruct Q|];
  split; [let x := fresh in let Q := fresh in intros x Q; cbn in Q; repeat (destruct Q as [<-|Q]; [split; [cbn; lia|reflexivity]|]); destruct Q|];
  split; [let Q := fresh in intros Q; vm_compute in Q; first [discriminate Q | split; [reflexivity|eexists; split; [reflexivity|cbn; tauto]]]
         |let f := fresh in let Q := fresh in intros f Q; vm_compute in Q; first [discriminate Q | eexists; reflexivity]].
Lemma xt_ok : t_wf xt_outs xt /\ t_consistent xt /\ gens_ordered xt /\ exp_right xt_den (fun c => c) xt_exp xt /\ t_computes xt_den (fun c => c) xt xt_v.
Proof.
  split; [|split; [|split; [|split]]].
  - split; [|split; [|split]].
    + cbn. repeat constructor; lia.
    + intros n N. repeat (destruct N as [<-|N]; [node_case|]). destruct N.
    + intros x p Q. cbn in Q. do 5 (destruct x as [|x]; [cbn in Q; injection Q as <-; cbn; tauto|]). discriminate Q.
    + intros x [<-|[<-|[]]]; cbn; lia.
  - apply edges_of; [|reflexivity|].
    + apply ss_nodup. cbn. repeat constructor; lia.
    + intros n x N Q. repeat (destruct N as [<-|N]; [cbn in Q; repeat (destruct Q as [<-|Q]; [vm_compute; discriminate|]); destruct Q|]). destruct N.
  - intros n d f f' x N N' K K' Q Q'. repeat (destruct N as [<-|N]; [try discriminate K|]); try destruct N; repeat (destruct N' as [<-|N']; [try discriminate K'|]); try destruct N';
    cbn in Q, Q'; destruct Q as [<-|[]]; try lia; repeat (destruct Q' as [Q'|Q']; [discriminate Q'|]); destruct Q'.
  - intros n f vs N K L. repeat (destruct N as [<-|N]; [try discriminate K|]); try destruct N; injection K as <-; cbn in L.
    + destruct vs as [|a [|b [|c vs]]]; try discriminate L. reflexivity.
    + destruct vs as [|a [|b vs]]; try discriminate L. reflexivity.
  - intros n N. repeat (destruct N as [<-|N]; [cbn; trivial; intros x [<-|[]]; reflexivity|]). destruct N.
Qed.
(** the operator that reads the other one is older *)
Definition yt_n (n : nat) : tnode := match n with
  | 0 => mkTN KIn [] [0] | 1 => mkTN (KGen 8) [2] [1] | 2 => mkTN (KGen 8) [0] [2] | _ => mkTN KOut [1] [] end.
Definition yt : tg := mkTG yt_n [0; 1; 2; 3] [(2,1,2); (0,2,0); (1,3,1)] (fun x => if x <? 3 then Some x else None) 4.
Definition yt_v (x : nat) : nat := match x with 0 => 1 | 2 => 5 | _ => 9 end.
Lemma order_lemma : exists (den : nat -> list nat -> nat) cv exp outs g v g', t_wf outs g /\ t_consistent g /\ exp_right den cv exp g /\ t_computes den cv g v /\
  transform_graph exp outs g = Some g' /\ ~ t_consistent g' /\
  exists n c x d, In n (tids g') /\ tk (tn g' n) = KConst c /\ tout (tn g' n) = [x] /\ In (n, d, x) (ted g') /\ (forall m f, In m (tids g) -> tk (tn g m) <> KConst f).
Proof.
  exists xt_den, (fun c => c), xt_exp, [1], yt, yt_v. eexists. split; [|split; [|split; [|split; [|split; [vm_compute; reflexivity|]]]]].
  - split; [|split; [|split]].
    + cbn. repeat constructor; lia.
    + intros n N. repeat (destruct N as [<-|N]; [node_case|]). destruct N.
    + intros x p Q. cbn in Q. do 3 (destruct x as [|x]; [cbn in Q; injection Q as <-; cbn; tauto|]). discriminate Q.
    + intros x [<-|[]]; cbn; lia.
  - apply edges_of; [|reflexivity|].
    + apply ss_nodup. cbn. repeat constructor; lia.
    + intros n x N Q. repeat (destruct N as [<-|N]; [cbn in Q; repeat (destruct Q as [<-|Q]; [vm_compute; discriminate|]); destruct Q|]). destruct N.
  - intros n f vs N K L. repeat (destruct N as [<-|N]; [try discriminate K|]); try destruct N; injection K as <-; cbn in L; destruct vs as [|a [|b vs]]; try discriminate L; reflexivity.
  - intros n N. repeat (destruct N as [<-|N]; [cbn; trivial; intros x [<-|[]]; reflexivity|]). destruct N.
  - split.
    + intros Q. specialize (Q 5 6 2). vm_compute in Q. discriminate Q.
    + exists 5, 0, 2, 6. vm_compute. repeat split; try tauto. intros m f M. repeat (destruct M as [<-|M]; [discriminate|]). destruct M.
Qed.
