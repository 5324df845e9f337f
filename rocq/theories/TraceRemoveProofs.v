(* Proofs about removing a node of the traced graph. *)
From Coq Require Import List Arith Bool Lia.
From Verif Require Import TraceSpec TraceModel TraceProofs TraceAfterProofs.
Import ListNotations.

Lemma remove1_In : forall x l y, y <> x -> In y (remove1 x l) <-> In y l.
Proof.
  induction l as [|a t IH]; intros y Hy; cbn; [tauto|].
  destruct (Nat.eqb_spec a x) as [->|]; cbn; [|rewrite IH by exact Hy; tauto].
  split; [now right|]. intros [|]; [congruence|assumption].
Qed.

Lemma remove1_sub : forall x l y, In y (remove1 x l) -> In y l.
Proof.
  induction l as [|a t IH]; cbn; intros y H; [exact H|].
  destruct (a =? x); [now right|]. destruct H as [|H]; [now left|right; auto].
Qed.

Lemma remove1_split : forall x l, In x l -> exists l1 l2, l = l1 ++ x :: l2 /\ remove1 x l = l1 ++ l2.
Proof.
  induction l as [|a t IH]; intro H; [contradiction|]. cbn.
  destruct (Nat.eqb_spec a x) as [->|Hn]; [now exists [], t|].
  destruct H as [|H]; [congruence|]. destruct (IH H) as [l1 [l2 [-> ->]]]. now exists (a :: l1), l2.
Qed.

(* the names that a renaming of the removed node changes *)
Definition subr (x : nat) (new : ref) (r : ref) : ref := if r_name r =? x then new else r.

Section Tensors.
  Variables (x p : nat) (pc : bool) (u t : nat) (i0 : list nat).
  Let dt := [(u, t)].
  Let di := [(u, i0)].

  Lemma rewire_tensors_len : forall prevt previ k a b c,
    rewire_tensors x p pc dt di prevt previ k = (a, b, c) ->
    length a = length prevt /\ length b = length previ.
  Proof.
    induction prevt as [|s ps IH]; intros previ k a b c H; cbn in H; [inversion H; auto|].
    destruct previ as [|i is]; [inversion H; auto|].
    unfold dict_get in H; cbn in H. destruct (u =? s).
    - destruct (rewire_tensors x p pc dt di ps is (rename_kind (mkref false x i) (mkref pc p i0) k)) as [[a' b'] c'] eqn:E.
      inversion H; subst. cbn. destruct (IH _ _ _ _ _ E). split; congruence.
    - destruct (rewire_tensors x p pc dt di ps is k) as [[a' b'] c'] eqn:E.
      inversion H; subst. cbn. destruct (IH _ _ _ _ _ E). split; congruence.
  Qed.

  Lemma rewire_tensors_nth : forall prevt previ k a b c j s i,
    rewire_tensors x p pc dt di prevt previ k = (a, b, c) ->
    nth_error prevt j = Some s -> nth_error previ j = Some i ->
    nth_error a j = Some (if s =? u then t else s) /\ nth_error b j = Some (if s =? u then i0 else i).
  Proof.
    induction prevt as [|s0 ps IH]; intros previ k a b c j s i H H1 H2; [destruct j; discriminate|].
    destruct previ as [|i1 is]; [destruct j; discriminate|].
    cbn in H. unfold dict_get in H; cbn in H. destruct (Nat.eqb_spec u s0) as [Eu|Eu].
    - destruct (rewire_tensors x p pc dt di ps is (rename_kind (mkref false x i1) (mkref pc p i0) k)) as [[a' b'] c'] eqn:E.
      inversion H; subst a b c. destruct j as [|j]; cbn in *.
      + assert (s = u) by congruence. destruct (Nat.eqb_spec s u); [auto|congruence].
      + eapply IH; eauto.
    - destruct (rewire_tensors x p pc dt di ps is k) as [[a' b'] c'] eqn:E.
      inversion H; subst a b c. destruct j as [|j]; cbn in *.
      + assert (s0 = s) by congruence. assert (i1 = i) by congruence. subst s0 i1.
        destruct (Nat.eqb_spec s u); [congruence|]. auto.
      + eapply IH; eauto.
  Qed.

  Lemma rewire_tensors_kind : forall prevt previ k,
    snd (rewire_tensors x p pc dt di prevt previ k) =
    fold_left (fun k i => rename_kind (mkref false x i) (mkref pc p i0) k)
      (flat_map (fun ti => if fst ti =? u then [snd ti] else []) (combine prevt previ)) k.
  Proof.
    induction prevt as [|s ps IH]; intros previ k; cbn; [reflexivity|].
    destruct previ as [|i is]; [reflexivity|]. unfold dict_get; cbn. rewrite (Nat.eqb_sym s u).
    destruct (u =? s).
    - specialize (IH is (rename_kind (mkref false x i) (mkref pc p i0) k)).
      destruct (rewire_tensors x p pc dt di ps is (rename_kind (mkref false x i) (mkref pc p i0) k)) as [[a' b'] c'].
      cbn in *. exact IH.
    - specialize (IH is k). destruct (rewire_tensors x p pc dt di ps is k) as [[a' b'] c']. cbn in *. exact IH.
  Qed.

  Lemma rewire_tensors_idem : forall prevt previ k a b c, u <> t ->
    rewire_tensors x p pc dt di prevt previ k = (a, b, c) ->
    forall k', exists r, rewire_tensors x p pc dt di a b k' = (a, b, r) /\ r = k'.
  Proof.
    induction prevt as [|s ps IH]; intros previ k a b c Hut H k'; cbn in H; [inversion H; subst; cbn; eauto|].
    destruct previ as [|i is]; [inversion H; subst; cbn; eauto|].
    unfold dict_get in H; cbn in H. destruct (Nat.eqb_spec u s) as [Eu|Eu].
    - destruct (rewire_tensors x p pc dt di ps is (rename_kind (mkref false x i) (mkref pc p i0) k)) as [[a' b'] c'] eqn:E.
      inversion H; subst a b c. cbn. unfold dict_get; cbn.
      destruct (Nat.eqb_spec u t); [congruence|].
      destruct (IH _ _ _ _ _ Hut E k') as [r [-> ->]]. eauto.
    - destruct (rewire_tensors x p pc dt di ps is k) as [[a' b'] c'] eqn:E.
      inversion H; subst a b c. cbn. unfold dict_get; cbn. destruct (Nat.eqb_spec u s); [congruence|].
      destruct (IH _ _ _ _ _ Hut E k') as [r [-> ->]]. eauto.
  Qed.
End Tensors.

Lemma rename_fold_to : forall x new idxs names, r_name new <> x ->
  (forall r, In r names -> r_name r = x -> r_self r = false) ->
  fold_left (fun k i => rename (mkref false x i) new k) idxs names =
  map (fun r => if (r_name r =? x) && existsb (list_eqb (r_idx r)) idxs then new else r) names.
Proof.
  intros x new idxs. induction idxs as [|i t IH]; intros names Hxw Hs.
  - cbn. rewrite <- (map_id names) at 1. apply map_ext. intro r. now rewrite andb_false_r.
  - cbn [fold_left]. rewrite IH; [|exact Hxw|].
    + unfold rename. rewrite map_map. apply map_ext_in. intros r Hr. cbn [existsb].
      destruct (ref_eqb r (mkref false x i)) eqn:E.
      * apply ref_eqb_eq in E. subst r. cbn [r_name r_idx].
        rewrite Nat.eqb_refl. replace (r_name new =? x) with false by (symmetry; now apply Nat.eqb_neq).
        replace (list_eqb i i) with true by (symmetry; now apply list_eqb_eq). reflexivity.
      * destruct (Nat.eqb_spec (r_name r) x) as [Hnx|Hnx]; [|reflexivity]. cbn [andb].
        destruct (list_eqb (r_idx r) i) eqn:El; [|reflexivity].
        exfalso. apply list_eqb_eq in El. rewrite <- not_true_iff_false, ref_eqb_eq in E. apply E.
        rewrite <- (Hs _ Hr Hnx), <- Hnx, <- El. now destruct r.
    + intros r Hr Hn. unfold rename in Hr. apply in_map_iff in Hr as [r0 [E Hr0]].
      destruct (ref_eqb r0 (mkref false x i)).
      * rewrite <- E in Hn. congruence.
      * rewrite E in Hr0. auto.
Qed.

Lemma rename_kind_fold_to : forall x new idxs c names,
  fold_left (fun k i => rename_kind (mkref false x i) new k) idxs (KFun c names) =
  KFun c (fold_left (fun k i => rename (mkref false x i) new k) idxs names).
Proof. intros x new idxs. induction idxs as [|i t IH]; intros; cbn; [reflexivity|]. apply IH. Qed.

Lemma rename_kind_other_to : forall x new idxs k, (forall c names, k <> KFun c names) ->
  fold_left (fun k i => rename_kind (mkref false x i) new k) idxs k = k.
Proof.
  intros x new idxs. induction idxs as [|i t IH]; intros k H; cbn; [reflexivity|].
  destruct k; try (rewrite IH; [reflexivity|exact H]). exfalso. eapply H. reflexivity.
Qed.

Section Remove.
  Variable g : graph.
  Variables x p : nat.
  Variables t u : nat.
  Variable i0 : list nat.
  Hypothesis L : linked g.
  Hypothesis Hx : In x (g_fwd g).
  Hypothesis Hprevs : n_prevs (g_node g x) = [p].
  Hypothesis Hprevt : n_prevt (g_node g x) = [t].
  Hypothesis Hprevi : nth_error (n_previ (g_node g x)) 0 = Some i0.
  Hypothesis Hout : outputs_of (g_node g x) [u].
  Hypothesis Hshape : g_shape g t = g_shape g u.
  Hypothesis Hpx : p <> x.
  Hypothesis Hut : u <> t.
  (* what reads [x] takes its only output, not a part of it *)
  Hypothesis Hwhole : forall y i, live g y -> nth_error (n_prevs (g_node g y)) i = Some x ->
    nth_error (n_previ (g_node g y)) i = Some [].
  (* the tensors of [p] are made by [p] only *)
  Hypothesis Honly : forall q s, In s (produced (g_node g p)) -> In s (produced (g_node g q)) -> q = p.

  Let n := g_node g x.
  Let np := g_node g p.
  Let pc := is_const (n_kind np).
  Let dt := [(u, t)].
  Let di := [(u, i0)].
  Let new := mkref pc p i0.
  Let g1 := upd g p (set_nexts np (remove1 x (n_nexts np) ++ n_nexts n)).
  Let g2 := touch (rewire_removed x p pc dt di) (n_nexts n) g1.
  Let h := with_fwd g2 (remove1 x (g_fwd g2)).

  Lemma rm_next : In x (n_nexts (g_node g p)) /\ In t (produced (g_node g p)) /\ defined g p.
  Proof.
    destruct (lk_prev _ L x 0 p (or_introl Hx)) as [H1 [H2 [s [H3 H4]]]]; [now rewrite Hprevs|].
    rewrite Hprevt in H3. cbn in H3. assert (s = t) by congruence. subst s. auto.
  Qed.

  Lemma remove_node_eq : remove_node g x = Some h.
  Proof.
    unfold remove_node. rewrite (proj2 (mem_In x (g_fwd g)) Hx). cbn [negb]. rewrite Hprevs, Hprevt.
    unfold outputs_of in Hout. rewrite Hout.
    cbn [length map Nat.eqb negb traverse bind as_tensor combine forallb fst snd andb].
    rewrite Hshape. replace (list_eqb (g_shape g u) (g_shape g u)) with true by (symmetry; now apply list_eqb_eq).
    cbn [negb andb]. rewrite (proj2 (mem_In x _) (proj1 rm_next)). cbn [negb].
    destruct (n_previ (g_node g x)) as [|i is] eqn:E; [discriminate|]. cbn in Hprevi.
    assert (i = i0) by congruence. subst i. cbn [combine]. unfold h, g2, g1, touch, dt, di, np, n, pc.
    reflexivity.
  Qed.

  Lemma rewire_idem_rm : forall m, rewire_removed x p pc dt di (rewire_removed x p pc dt di m) = rewire_removed x p pc dt di m.
  Proof.
    intro m. unfold rewire_removed.
    destruct (rewire_tensors x p pc dt di (n_prevt m) (n_previ m) (n_kind m)) as [[a b] c] eqn:E.
    cbn [n_kind n_prevs n_nexts n_prevt n_nextt n_previ n_order n_rev].
    destruct (rewire_tensors_idem x p pc u t i0 _ _ _ _ _ _ Hut E c) as [r [E2 ->]].
    fold dt di in E2. rewrite E2. f_equal.
    rewrite map_map. apply map_ext. intro q. destruct (Nat.eqb_spec q x) as [->|Hq].
    - destruct (Nat.eqb_spec p x); congruence.
    - destruct (Nat.eqb_spec q x); congruence.
  Qed.

  Lemma rm_node : forall y, exists m, n_kind m = n_kind (g_node g y) /\ n_prevs m = n_prevs (g_node g y) /\
      n_prevt m = n_prevt (g_node g y) /\ n_nextt m = n_nextt (g_node g y) /\
      n_previ m = n_previ (g_node g y) /\ n_rev m = n_rev (g_node g y) /\
      n_nexts m = (if y =? p then remove1 x (n_nexts np) ++ n_nexts n else n_nexts (g_node g y)) /\
      g_node h y = if mem y (n_nexts n) then rewire_removed x p pc dt di m else m.
  Proof.
    intro y. exists (g_node g1 y).
    assert (E2 : g_node h y = if mem y (n_nexts n) then rewire_removed x p pc dt di (g_node g1 y) else g_node g1 y)
      by (unfold h; cbn [g_node with_fwd]; apply touch_node, rewire_idem_rm).
    rewrite E2. unfold g1. rewrite upd_node.
    destruct (Nat.eqb_spec y p) as [->|Hy]; repeat (split; [reflexivity|]); reflexivity.
  Qed.

  Ltac rw E := unfold rewire_removed;
    destruct (rewire_tensors x p pc dt di _ _ _) as [[? ?] ?] eqn:E.

  Lemma rm_nexts : forall y, n_nexts (g_node h y) =
    if y =? p then remove1 x (n_nexts np) ++ n_nexts n else n_nexts (g_node g y).
  Proof.
    intro y. destruct (rm_node y) as [m [_ [_ [_ [_ [_ [_ [H ->]]]]]]]].
    destruct (mem y (n_nexts n)); [rw E; exact H|exact H].
  Qed.

  Lemma rm_nextt : forall y, n_nextt (g_node h y) = n_nextt (g_node g y).
  Proof.
    intro y. destruct (rm_node y) as [m [_ [_ [_ [H [_ [_ [_ ->]]]]]]]].
    destruct (mem y (n_nexts n)); [rw E; exact H|exact H].
  Qed.

  Lemma rm_rev : forall y, n_rev (g_node h y) = n_rev (g_node g y).
  Proof.
    intro y. destruct (rm_node y) as [m [_ [_ [_ [_ [_ [H [_ ->]]]]]]]].
    destruct (mem y (n_nexts n)); [rw E; exact H|exact H].
  Qed.

  Lemma rm_previ_len : forall y, length (n_previ (g_node h y)) = length (n_previ (g_node g y)).
  Proof.
    intro y. destruct (rm_node y) as [m [_ [_ [_ [_ [H [_ [_ ->]]]]]]]].
    destruct (mem y (n_nexts n)); [|now rewrite H]. rw E. cbn.
    apply rewire_tensors_len in E. rewrite <- H. apply E.
  Qed.

  Lemma rm_prevt_len : forall y, length (n_prevt (g_node h y)) = length (n_prevt (g_node g y)).
  Proof.
    intro y. destruct (rm_node y) as [m [_ [_ [H [_ [_ [_ [_ ->]]]]]]]].
    destruct (mem y (n_nexts n)); [|now rewrite H]. rw E. cbn.
    apply rewire_tensors_len in E. rewrite <- H. apply E.
  Qed.

  Lemma rm_const : forall y, is_const (n_kind (g_node h y)) = is_const (n_kind (g_node g y)).
  Proof.
    intro y. destruct (rm_node y) as [m [H [_ [_ [_ [_ [_ [_ ->]]]]]]]].
    destruct (mem y (n_nexts n)); [|now rewrite H].
    pose proof (rewire_tensors_kind x p pc u t i0 (n_prevt m) (n_previ m) (n_kind m)) as Hk.
    fold dt di in Hk. rw E. cbn in *. subst k. rewrite H.
    destruct (n_kind (g_node g y)); try (rewrite rename_kind_other_to; [reflexivity|discriminate]).
    now rewrite rename_kind_fold_to.
  Qed.

  Lemma rm_prevs : forall y, live g y ->
    n_prevs (g_node h y) = map (fun q => if q =? x then p else q) (n_prevs (g_node g y)).
  Proof.
    intros y Hl. destruct (rm_node y) as [m [_ [H [_ [_ [_ [_ [_ ->]]]]]]]].
    destruct (mem y (n_nexts n)) eqn:E; [rw E2; cbn; now rewrite H|]. rewrite H.
    apply mem_false in E. rewrite <- (map_id (n_prevs (g_node g y))) at 1. apply map_ext_in. intros q Hq.
    destruct (Nat.eqb_spec q x) as [->|]; [|reflexivity]. exfalso. apply E.
    apply In_nth_error in Hq as [i Hi]. now apply (lk_prev _ L y i x Hl Hi).
  Qed.

  (* the tensor and the index at a position *)
  Lemma rm_at : forall y i q, live g y -> nth_error (n_prevs (g_node g y)) i = Some q ->
    exists s idx, nth_error (n_prevt (g_node g y)) i = Some s /\ nth_error (n_previ (g_node g y)) i = Some idx /\
      In s (produced (g_node g q)) /\
      nth_error (n_prevt (g_node h y)) i = Some (if q =? x then t else s) /\
      nth_error (n_previ (g_node h y)) i = Some (if q =? x then i0 else idx) /\ (q = x <-> s = u /\ In y (n_nexts n)).
  Proof.
    intros y i q Hl Hq. destruct (lk_prev _ L y i q Hl Hq) as [_ [Hnx [s [Hs Hpr]]]].
    assert (Hidx : exists idx, nth_error (n_previ (g_node g y)) i = Some idx).
    { pose proof (rd_align _ (lk_rendered _ L) y Hl) as Hal.
      assert (i < length (n_prevs (g_node g y))) by (apply nth_error_Some; congruence).
      destruct (nth_error (n_previ (g_node g y)) i) eqn:E; [eauto|]. apply nth_error_None in E. lia. }
    destruct Hidx as [idx Hidx]. exists s, idx. repeat (split; [assumption|]).
    assert (Hiff : q = x <-> s = u /\ In y (n_nexts n)).
    { split.
      - intros ->. rewrite (produced_TT _ _ Hout) in Hpr. destruct Hpr as [->|[]]. split; [reflexivity|exact Hnx].
      - intros [-> Hin]. assert (K : nth_error (n_prevs (g_node g y)) i = Some x).
        { apply (lk_own _ L y i x u Hl Hin Hs).
          - rewrite (produced_TT _ _ Hout). now left.
          - apply nth_error_Some; congruence. }
        congruence. }
    destruct (rm_node y) as [m [_ [_ [H3 [_ [H5 [_ [_ ->]]]]]]]].
    destruct (mem y (n_nexts n)) eqn:E.
    - apply mem_In in E. rw E2. cbn.
      destruct (rewire_tensors_nth x p pc u t i0 _ _ _ _ _ _ i s idx E2) as [K1 K2]; [now rewrite H3|now rewrite H5|].
      rewrite K1, K2. destruct (Nat.eqb_spec q x) as [Eq|Eq], (Nat.eqb_spec s u) as [Es|Es]; auto.
      + exfalso. now apply Es, Hiff.
      + exfalso. apply Eq, Hiff. auto.
    - apply mem_false in E. rewrite H3, H5. destruct (Nat.eqb_spec q x) as [Eq|Eq]; auto.
      exfalso. apply Hiff in Eq. tauto.
  Qed.

  Lemma map_combine_nth : forall A B C (f : A * B -> C) (l : list A) (l2 : list B) (m : list C),
    length l <= length l2 -> length m = length l ->
    (forall i a b, nth_error l i = Some a -> nth_error l2 i = Some b -> nth_error m i = Some (f (a, b))) ->
    map f (combine l l2) = m.
  Proof.
    induction l as [|a l IH]; intros [|b l2] [|c m] H1 H2 H3; cbn in *; try lia; try reflexivity.
    f_equal.
    - specialize (H3 0 a b eq_refl eq_refl). cbn in H3. congruence.
    - apply IH; [lia|lia|]. intros i a' b' K1 K2. exact (H3 (S i) a' b' K1 K2).
  Qed.

  Lemma nth_refs : forall g0 y i q idx, nth_error (n_prevs (g_node g0 y)) i = Some q ->
    nth_error (n_previ (g_node g0 y)) i = Some idx ->
    nth_error (refs g0 y) i = Some (mkref (is_const (n_kind (g_node g0 q))) q idx).
  Proof.
    intros g0 y i q idx H1 H2. unfold refs. rewrite nth_error_map.
    rewrite (nth_combine _ _ _ _ i q idx H1 H2). reflexivity.
  Qed.

  Lemma refs_len : forall g0 y, length (n_prevs (g_node g0 y)) <= length (n_previ (g_node g0 y)) ->
    length (refs g0 y) = length (n_prevs (g_node g0 y)).
  Proof. intros. unfold refs. rewrite map_length, combine_length. lia. Qed.

  Lemma nth_ext_error : forall A (l m : list A), (forall i, nth_error l i = nth_error m i) -> l = m.
  Proof.
    induction l as [|a l IH]; intros [|b m] H; [reflexivity|specialize (H 0); discriminate|specialize (H 0); discriminate|].
    f_equal; [specialize (H 0); cbn in H; congruence|]. apply IH. intro i. exact (H (S i)).
  Qed.

  Lemma rm_refs : forall y, live g y -> refs h y = map (subr x new) (refs g y).
  Proof.
    intros y Hl. pose proof (rd_align _ (lk_rendered _ L) y Hl) as Hal. apply nth_ext_error. intro i.
    rewrite nth_error_map. destruct (nth_error (n_prevs (g_node g y)) i) as [q|] eqn:Eq.
    - destruct (rm_at y i q Hl Eq) as [s [idx [H1 [H2 [H3 [H4 [H5 H6]]]]]]].
      rewrite (nth_refs g y i q idx Eq H2). cbn [option_map].
      assert (Eq' : nth_error (n_prevs (g_node h y)) i = Some (if q =? x then p else q))
        by (rewrite (rm_prevs y Hl), nth_error_map, Eq; reflexivity).
      rewrite (nth_refs h y i _ _ Eq' H5). f_equal. unfold subr. cbn [r_name].
      destruct (q =? x); rewrite rm_const; reflexivity.
    - assert (E1 : nth_error (refs g y) i = None).
      { apply nth_error_None. rewrite refs_len by exact Hal. now apply nth_error_None. }
      rewrite E1. cbn. apply nth_error_None. rewrite refs_len.
      + rewrite (rm_prevs y Hl), map_length. now apply nth_error_None.
      + rewrite (rm_prevs y Hl), map_length, rm_previ_len. exact Hal.
  Qed.

  Lemma x_notconst : is_const (n_kind n) = false.
  Proof.
    unfold n. pose proof (rd_fwd _ (lk_rendered _ L) x Hx) as K. destruct (n_kind (g_node g x)); try reflexivity; contradiction.
  Qed.

  Lemma rm_kind : forall y, live g y ->
    n_kind (g_node h y) =
      match n_kind (g_node g y) with
      | KFun c names => KFun c (map (subr x new) names)
      | k' => k'
      end.
  Proof.
    intros y Hl. destruct (rm_node y) as [m [H1 [_ [H3 [_ [H5 [_ [_ ->]]]]]]]].
    assert (Hfun : forall c names, n_kind (g_node g y) = KFun c names -> names = refs g y).
    { intros c names E. destruct Hl as [Hf|Ho].
      - pose proof (rd_fwd _ (lk_rendered _ L) y Hf) as K. rewrite E in K. tauto.
      - rewrite (lk_out _ L y Ho) in E. discriminate. }
    destruct (mem y (n_nexts n)) eqn:E.
    - pose proof (rewire_tensors_kind x p pc u t i0 (n_prevt m) (n_previ m) (n_kind m)) as Hk.
      fold dt di in Hk. rw E2. cbn [snd] in Hk. cbn [n_kind]. subst k. rewrite H1, H3, H5.
      destruct (n_kind (g_node g y)) eqn:Ek; try (rewrite rename_kind_other_to; [reflexivity|discriminate]).
      rewrite rename_kind_fold_to. f_equal. pose proof (Hfun _ _ eq_refl) as Hn.
      rewrite rename_fold_to; [|exact Hpx|].
      + apply map_ext_in. intros r Hr. unfold subr.
        destruct (Nat.eqb_spec (r_name r) x) as [Er|]; [|reflexivity]. cbn [andb].
        match goal with |- (if ?b then _ else _) = _ => assert (Eb : b = true) end; [|now rewrite Eb].
        apply existsb_exists. rewrite Hn in Hr. apply refs_In in Hr as [i [q [idx [Hq [Hi ->]]]]].
        cbn in Er. subst q. exists idx. split; [|now apply list_eqb_eq].
        destruct (rm_at y i x Hl Hq) as [s [idx' [K1 [K2 [_ [_ [_ K6]]]]]]].
        destruct (proj1 K6 eq_refl) as [-> _].
        apply in_flat_map. exists (u, idx). split.
        * eapply nth_error_In. apply nth_combine; eauto.
        * cbn. rewrite Nat.eqb_refl. now left.
      + intros r Hr Er. rewrite Hn in Hr. apply refs_In in Hr as [i [q [idx [Hq [Hi ->]]]]].
        cbn in *. subst q. exact x_notconst.
    - rewrite H1. destruct (n_kind (g_node g y)) eqn:Ek; try reflexivity. f_equal.
      pose proof (Hfun _ _ eq_refl) as Hn. rewrite <- (map_id names) at 1. apply map_ext_in. intros r Hr.
      unfold subr. destruct (Nat.eqb_spec (r_name r) x) as [Er|]; [|reflexivity]. exfalso.
      rewrite Hn in Hr. apply refs_In in Hr as [i [q [idx [Hq [Hi ->]]]]]. cbn in Er. subst q.
      apply mem_false in E. apply E. now apply (lk_prev _ L y i x Hl Hq).
  Qed.

  Lemma rm_idle : forall y, live g y -> idle (g_node h y) = idle (g_node g y).
  Proof.
    intros y Hl. unfold idle. rewrite (rm_kind y Hl), (rm_nextt y). pose proof (rm_prevt_len y) as E.
    destruct (n_kind (g_node g y)); try reflexivity.
    destruct (n_prevt (g_node g y)), (n_prevt (g_node h y)); cbn in E; try reflexivity; discriminate.
  Qed.

  Lemma rm_frame : g_in h = g_in g /\ g_fwd h = remove1 x (g_fwd g) /\ g_out h = g_out g /\ g_const h = g_const g /\
    g_fresh h = g_fresh g /\ g_tensor h = g_tensor g.
  Proof.
    destruct (touch_frame (rewire_removed x p pc dt di) (n_nexts n) g1) as [H1 [H2 [H3 [H4 [H5 [H6 _]]]]]].
    fold g2 in H1, H2, H3, H4, H5, H6. unfold h. cbn [g_in g_fwd g_out g_const g_fresh g_tensor with_fwd].
    rewrite H1, H2, H3, H4, H5, H6. repeat split.
  Qed.

  Lemma rm_split : exists l1 l2, g_fwd g = l1 ++ x :: l2 /\ g_fwd h = l1 ++ l2 /\ ~ In x (l1 ++ l2).
  Proof.
    destruct (remove1_split x (g_fwd g) Hx) as [l1 [l2 [E1 E2]]]. exists l1, l2. split; [exact E1|].
    destruct rm_frame as [_ [-> _]]. split; [exact E2|].
    pose proof (rd_nodup _ (lk_rendered _ L)) as Hn. rewrite E1 in Hn. intro K.
    replace (g_in g ++ (l1 ++ x :: l2) ++ g_out g) with ((g_in g ++ l1) ++ x :: (l2 ++ g_out g)) in Hn
      by (rewrite <- !app_assoc; reflexivity).
    apply NoDup_remove_2 in Hn. apply Hn. rewrite !in_app_iff in *. tauto.
  Qed.

  Lemma rm_live : forall y, live h y -> live g y /\ y <> x.
  Proof.
    intros y Hy. destruct rm_frame as [_ [_ [F3 _]]]. destruct rm_split as [l1 [l2 [E1 [E2 E3]]]].
    destruct Hy as [Hy|Hy].
    - rewrite E2 in Hy. split.
      + left. rewrite E1. apply in_app_or in Hy. apply in_or_app. destruct Hy; [now left|right; now right].
      + intros ->. now apply E3.
    - rewrite F3 in Hy. split; [now right|]. intros ->.
      pose proof (rd_fwd _ (lk_rendered _ L) x Hx) as K. rewrite (lk_out _ L x Hy) in K. exact K.
  Qed.

  Lemma rm_defined : forall q, defined g q -> q <> x -> defined h q.
  Proof.
    intros q Hq Hqx. destruct rm_frame as [F1 [F2 _]]. unfold defined in *. rewrite F1, F2, rm_const.
    rewrite remove1_In by exact Hqx. exact Hq.
  Qed.

  Lemma linked_remove : linked h.
  Proof.
    pose proof (lk_rendered _ L) as R. destruct rm_frame as [F1 [F2 [F3 [F4 [F5 F6]]]]].
    constructor.
    - constructor.
      + destruct rm_split as [l1 [l2 [E1 [E2 _]]]]. rewrite F1, E2, F3. pose proof (rd_nodup _ R) as Hn.
        rewrite E1 in Hn.
        replace (g_in g ++ (l1 ++ x :: l2) ++ g_out g) with ((g_in g ++ l1) ++ x :: (l2 ++ g_out g)) in Hn
          by (rewrite <- !app_assoc; reflexivity).
        apply NoDup_remove_1 in Hn. rewrite <- !app_assoc in *. exact Hn.
      + intros y Hy. apply rm_live in Hy as [Hy _]. rewrite (rm_prevs y Hy), map_length, rm_previ_len.
        now apply (rd_align _ R).
      + intros y Hy. assert (Hl : live g y) by (now apply rm_live; left).
        rewrite (rm_kind y Hl), (rm_refs y Hl).
        assert (Hy' : In y (g_fwd g)) by (rewrite F2 in Hy; eapply remove1_sub; eauto).
        pose proof (rd_fwd _ R y Hy') as Hk.
        destruct (n_kind (g_node g y)); try exact Hk. destruct Hk as [-> Hc]. split; [reflexivity|].
        intros C E. apply (Hc C). now destruct (refs g y).
      + intros y Hy. rewrite F3 in Hy. rewrite (rm_prevs y (or_intror Hy)). intro E.
        apply (rd_out _ R y Hy). now destruct (n_prevs (g_node g y)).
    - intros y Hy. rewrite F1 in Hy. pose proof (lk_in _ L y Hy) as Hi.
      destruct (rm_node y) as [m [H1 [_ [_ [_ [_ [_ [_ ->]]]]]]]].
      destruct (mem y (n_nexts n)); [|congruence].
      pose proof (rewire_tensors_kind x p pc u t i0 (n_prevt m) (n_previ m) (n_kind m)) as Hk.
      fold dt di in Hk. rw E. cbn in *. subst k. rewrite H1, Hi. apply rename_kind_other_to. discriminate.
    - intros y Hy. rewrite F3 in Hy. rewrite (rm_kind y (or_intror Hy)). now rewrite (lk_out _ L y Hy).
    - intros y Hy. rewrite F4 in Hy. pose proof (lk_const _ L y Hy) as Hi.
      destruct (rm_node y) as [m [H1 [_ [_ [_ [_ [_ [_ ->]]]]]]]].
      destruct (mem y (n_nexts n)); [|congruence].
      pose proof (rewire_tensors_kind x p pc u t i0 (n_prevt m) (n_previ m) (n_kind m)) as Hk.
      fold dt di in Hk. rw E. cbn in *. subst k. rewrite H1, Hi. apply rename_kind_other_to. discriminate.
    - intros y i q' Hy Hq'. apply rm_live in Hy as [Hy Hyx].
      rewrite (rm_prevs y Hy), nth_error_map in Hq'.
      destruct (nth_error (n_prevs (g_node g y)) i) as [q|] eqn:Eq; [|discriminate]. cbn in Hq'.
      destruct (rm_at y i q Hy Eq) as [s [idx [H1 [H2 [H3 [H4 [H5 H6]]]]]]].
      destruct (lk_prev _ L y i q Hy Eq) as [Hd [Hnx _]].
      destruct (Nat.eqb_spec q x) as [->|Hqx].
      + assert (q' = p) by congruence. subst q'. destruct rm_next as [K1 [K2 K3]]. split; [|split].
        * now apply rm_defined.
        * rewrite rm_nexts, Nat.eqb_refl. apply in_or_app. now right.
        * exists t. split; [exact H4|]. unfold produced. now rewrite rm_nextt.
      + assert (q' = q) by congruence. subst q'. split; [|split].
        * now apply rm_defined.
        * rewrite rm_nexts. destruct (Nat.eqb_spec q p) as [->|]; [|exact Hnx].
          apply in_or_app. left. now apply remove1_In.
        * exists s. split; [exact H4|]. unfold produced. now rewrite rm_nextt.
    - intros y i q s' Hy Hnx Hs' Hpr Hi. apply rm_live in Hy as [Hy Hyx].
      rewrite (rm_prevs y Hy) in *. rewrite map_length in Hi. rewrite nth_error_map.
      destruct (nth_error (n_prevs (g_node g y)) i) as [p0|] eqn:Ep0; [|apply nth_error_None in Ep0; lia].
      cbn [option_map]. destruct (rm_at y i p0 Hy Ep0) as [s [idx [H1 [H2 [H3 [H4 [H5 H6]]]]]]].
      unfold produced in Hpr. rewrite rm_nextt in Hpr. fold (produced (g_node g q)) in Hpr.
      destruct (Nat.eqb_spec p0 x) as [->|Hp0].
      + assert (s' = t) by congruence. subst s'. f_equal. symmetry. apply (Honly q t); [apply rm_next|exact Hpr].
      + assert (s' = s) by congruence. subst s'. f_equal.
        rewrite rm_nexts in Hnx. destruct (Nat.eqb_spec q p) as [->|Hqp].
        * now apply (Honly p0 s).
        * pose proof (lk_own _ L y i q s Hy Hnx H1 Hpr Hi). congruence.
    - intros y Hy. rewrite F1, F4, F5 in *. apply (lk_fresh _ L).
      destruct Hy as [Hy|[Hy|Hy]]; [tauto| |tauto]. apply rm_live in Hy. tauto.
    - intros y q Hy Hq. rewrite F5. apply rm_live in Hy as [Hy _]. rewrite (rm_prevs y Hy) in Hq.
      apply in_map_iff in Hq as [q0 [<- Hq]]. destruct (q0 =? x).
      + apply (lk_fresh_prev _ L x p); [now left|]. rewrite Hprevs. now left.
      + now apply (lk_fresh_prev _ L y q0).
    - intros y q Hy. rewrite F5. rewrite rm_nexts in Hy. destruct (q =? p).
      + apply in_app_or in Hy as [Hy|Hy].
        * apply remove1_sub in Hy. now apply (lk_fresh_next _ L y p).
        * now apply (lk_fresh_next _ L y x).
      + now apply (lk_fresh_next _ L y q).
    - intros y s Hs. rewrite F6. unfold produced in Hs. rewrite rm_nextt in Hs. now apply (lk_tensor _ L y).
  Qed.

  Section RemoveSem.
    Variable V : Type.
    Variable pick : V -> nat -> option V.
    Variable attr : nat -> option V.
    Variable sem : nat -> list V -> option V.
    Hypothesis Hid : forall v, sem x [v] = Some v.

    Let rel (e e' : env V) : Prop :=
      (forall y, y <> x -> e' y = e y) /\ (forall v, e x = Some v -> read pick attr e' new = Some v).

    Lemma rel_reads : forall e e' rs vs, rel e e' ->
      (forall r, In r rs -> r_name r = x -> r_self r = false /\ r_idx r = []) ->
      traverse (read pick attr e) rs = Some vs ->
      traverse (read pick attr e') (map (subr x new) rs) = Some vs.
    Proof.
      intros e e' rs. induction rs as [|r rs IH]; intros vs Hr Hrs H; cbn in *; [exact H|].
      destruct (read pick attr e r) as [v|] eqn:Ev; [|discriminate]. cbn in H.
      destruct (traverse (read pick attr e) rs) as [vs'|] eqn:Evs; [|discriminate]. cbn in H.
      assert (Er : read pick attr e' (subr x new r) = Some v).
      { unfold subr. destruct (Nat.eqb_spec (r_name r) x) as [En|En].
        - destruct (Hrs r (or_introl eq_refl) En) as [Hs Hi]. apply Hr.
          unfold read in Ev. rewrite Hs, Hi, En in Ev. cbn in Ev. destruct (e x); cbn in Ev; congruence.
        - rewrite <- Ev. apply read_agree. intros _. now apply Hr. }
      rewrite Er. cbn [bind]. rewrite (IH vs' Hr); [exact H| |reflexivity].
      intros; apply Hrs; [now right|assumption].
    Qed.

    Lemma refs_x : forall y r, live g y -> In r (refs g y) -> r_name r = x -> r_self r = false /\ r_idx r = [].
    Proof.
      intros y r Hl Hr E. apply refs_In in Hr as [i [q [idx [Hq [Hi ->]]]]]. cbn in *. subst q.
      split; [exact x_notconst|]. pose proof (Hwhole y i Hl Hq). congruence.
    Qed.

    Lemma exec_rm : forall l e e' b, (forall y, In y l -> In y (g_fwd g) /\ y <> x) ->
      (pc = false -> e x <> None -> ~ In p l) -> rel e e' ->
      exec pick attr sem (map (fun y => Assign y (refs g y)) l) e = Some b ->
      exists b', exec pick attr sem (map (fun y => Assign y (refs h y)) l) e' = Some b' /\ rel b b'.
    Proof.
      induction l as [|y l IH]; intros e e' b Hl Hp Hr H; cbn [map exec] in *.
      - inversion H; subst. exists e'. auto.
      - cbn [step] in *. destruct (Hl y (or_introl eq_refl)) as [Hy Hyx]. assert (Lv : live g y) by (now left).
        destruct (traverse (read pick attr e) (refs g y)) as [vs|] eqn:Ev; [|discriminate].
        rewrite (rm_refs y Lv). rewrite (rel_reads e e' _ vs Hr); [|intros; eapply refs_x; eauto|exact Ev].
        cbn [bind] in *. destruct (sem y vs) as [v|]; [|discriminate]. cbn [bind] in *.
        apply (IH (bindv e y (Some v))).
        + intros z Hz. apply Hl. now right.
        + intros K1 K2 K3. apply (Hp K1); [|now right]. unfold bindv in K2.
          destruct (Nat.eqb_spec x y); [congruence|exact K2].
        + destruct Hr as [R1 R2]. split.
          * intros z Hz. unfold bindv. destruct (z =? y); auto.
          * intros v0 Hv0. unfold bindv in Hv0. destruct (Nat.eqb_spec x y); [congruence|].
            rewrite <- (R2 v0 Hv0). apply read_agree. unfold new. cbn. intro K.
            unfold bindv. destruct (Nat.eqb_spec p y) as [->|]; [|reflexivity].
            exfalso. apply (Hp K); [congruence|now left].
        + exact H.
    Qed.

    Lemma exec_unset : forall l e b y, ~ In y l ->
      exec pick attr sem (map (fun y => Assign y (refs g y)) l) e = Some b -> b y = e y.
    Proof.
      induction l as [|z l IH]; intros e b y Hy H; cbn [map exec] in *; [congruence|].
      cbn [step] in H. destruct (traverse (read pick attr e) (refs g z)) as [vs|]; [|discriminate].
      cbn [bind] in H. destruct (sem z vs) as [v|]; [|discriminate]. cbn [bind] in H.
      rewrite (IH _ _ y (fun K => Hy (or_intror K)) H). unfold bindv.
      destruct (Nat.eqb_spec y z); [exfalso; apply Hy; now left|reflexivity].
    Qed.

    Lemma filter_rm : forall l, (forall y, In y l -> live g y) ->
      filter (fun y => negb (idle (g_node h y))) l = filter (fun y => negb (idle (g_node g y))) l.
    Proof. intros l Hl. apply filter_ext_in. intros y Hy. now rewrite (rm_idle y (Hl y Hy)). Qed.

    Theorem run_remove : forall vs r,
      run pick attr sem (plain g) vs = Some r -> run pick attr sem (plain h) vs = Some r.
    Proof.
      intros vs r H. destruct rm_split as [l1 [l2 [E1 [E2 E3]]]]. destruct rm_frame as [F1 [F2 [F3 _]]].
      unfold run in *. cbn [plain p_params p_body p_ret] in *. rewrite F1, E2. rewrite E1 in H.
      destruct (params (g_in g) vs) as [e|] eqn:Ep; [|discriminate]. cbn [bind] in *.
      assert (Hbusy : idle (g_node g x) = false).
      { unfold idle. rewrite Hout, Hprevt. now destruct (n_kind (g_node g x)). }
      rewrite !filter_app in H. cbn [filter] in H. rewrite Hbusy in H. cbn [negb] in H.
      rewrite map_app, exec_app in H. cbn [map] in H.
      rewrite filter_rm by (intros y Hy; left; rewrite E1; rewrite in_app_iff in *; cbn; tauto).
      rewrite filter_app, map_app, exec_app.
      set (f1 := filter (fun y => negb (idle (g_node g y))) l1) in *.
      set (f2 := filter (fun y => negb (idle (g_node g y))) l2) in *.
      assert (Hni : ~ In x (g_in g)).
      { intro K. pose proof (rd_fwd _ (lk_rendered _ L) x Hx) as K2. rewrite (lk_in _ L x K) in K2. exact K2. }
      assert (In1 : forall y, In y f1 -> In y (g_fwd g) /\ y <> x).
      { intros y Hy. apply filter_In in Hy as [Hy _]. split; [rewrite E1; apply in_or_app; now left|].
        intros ->. apply E3. apply in_or_app. now left. }
      assert (In2 : forall y, In y f2 -> In y (g_fwd g) /\ y <> x).
      { intros y Hy. apply filter_In in Hy as [Hy _]. split; [rewrite E1; apply in_or_app; right; now right|].
        intros ->. apply E3. apply in_or_app. now right. }
      destruct (exec pick attr sem (map (fun y => Assign y (refs g y)) f1) e) as [a|] eqn:Ea; [|discriminate].
      cbn [bind] in H.
      assert (Hex : e x = None) by (eapply params_None; eauto).
      assert (R0 : rel e e) by (split; [auto|intros v Hv; congruence]).
      destruct (exec_rm f1 e e a In1 (fun _ K => match K Hex with end) R0 Ea) as [a' [Ea' [R1 R2]]].
      rewrite Ea'. cbn [bind].
      cbn [exec step] in H.
      assert (Erefs : refs g x = [new]).
      { unfold refs. rewrite Hprevs. destruct (n_previ (g_node g x)) as [|i is]; [discriminate|].
        cbn in Hprevi. assert (i = i0) by congruence. subst i. reflexivity. }
      rewrite Erefs in H. cbn [traverse] in H.
      destruct (read pick attr a new) as [v|] eqn:Ev; [|discriminate]. cbn [bind] in H.
      rewrite Hid in H. cbn [bind] in H.
      assert (Hp2 : pc = false -> ~ In p f2).
      { intros Hpc K. assert (a p = None).
        { assert (Hp1 : ~ In p f1).
          { intro K1. apply filter_In in K1 as [K1 _]. apply filter_In in K as [K _].
            pose proof (rd_nodup _ (lk_rendered _ L)) as Hn. rewrite E1 in Hn.
            apply in_split in K1 as [u1 [u2 Es]]. rewrite Es in Hn.
            assert (Ereb : g_in g ++ ((u1 ++ p :: u2) ++ x :: l2) ++ g_out g
              = (g_in g ++ u1) ++ p :: (u2 ++ (x :: l2) ++ g_out g))
              by (rewrite <- !app_assoc; reflexivity).
            rewrite Ereb in Hn.
            apply NoDup_remove_2 in Hn. apply Hn. rewrite !in_app_iff. cbn. tauto. }
          rewrite (exec_unset f1 e a p Hp1 Ea). eapply params_None; [exact Ep|].
          intro Ki. apply In2 in K as [K _]. pose proof (rd_fwd _ (lk_rendered _ L) p K) as K2.
          rewrite (lk_in _ L p Ki) in K2. exact K2. }
        unfold read, new in Ev. cbn in Ev. rewrite Hpc, H0 in Ev. discriminate. }
      destruct (exec pick attr sem (map (fun y => Assign y (refs g y)) f2) (bindv a x (Some v))) as [b|] eqn:Eb; [|discriminate].
      cbn [bind] in H.
      assert (R3 : rel (bindv a x (Some v)) a').
      { split.
        - intros y Hy. unfold bindv. destruct (Nat.eqb_spec y x); [congruence|auto].
        - intros v0 Hv0. unfold bindv in Hv0. rewrite Nat.eqb_refl in Hv0. rewrite <- Hv0, <- Ev.
          apply read_agree. intros _. unfold new. cbn. now apply R1. }
      destruct (exec_rm f2 _ a' b In2 (fun K _ => Hp2 K) R3 Eb) as [b' [Eb' R4]].
      rewrite Eb'. cbn [bind]. rewrite F3. clear R0 R1 R2 R3 Ea Ea' Eb Eb' Ev In1 In2 Hp2 E1 E2 E3 f1 f2. revert H. revert r.
      assert (Ho : forall y, In y (g_out g) -> live g y) by (intros; now right). revert Ho.
      generalize (g_out g). induction l as [|y l IH]; intros Ho r H; cbn [map traverse] in *; [exact H|].
      match type of H with bind ?q _ = _ => destruct q as [us|] eqn:Eu end; [|discriminate]. cbn [bind] in H.
      match type of H with bind ?q _ = _ => destruct q as [us2|] eqn:Eu2 end; [|discriminate]. cbn [bind] in H.
      pose proof (Ho y (or_introl eq_refl)) as Ly.
      assert (E1 : traverse (read pick attr b') (if n_rev (g_node h y) then refs h y else firstn 1 (refs h y)) = Some us).
      { rewrite rm_rev, (rm_refs y Ly).
        replace (if n_rev (g_node g y) then map (subr x new) (refs g y) else firstn 1 (map (subr x new) (refs g y)))
          with (map (subr x new) (if n_rev (g_node g y) then refs g y else firstn 1 (refs g y)))
          by (destruct (n_rev (g_node g y)); [reflexivity|now destruct (refs g y)]).
        apply (rel_reads b b'); [exact R4| |exact Eu].
        intros r0 Hr0 En. eapply refs_x; [exact Ly| |exact En].
        destruct (n_rev (g_node g y)); [exact Hr0|]. destruct (refs g y); cbn in *; [contradiction|].
        destruct Hr0 as [->|[]]; now left. }
      rewrite E1. cbn [bind].
      rewrite (IH (fun z Hz => Ho z (or_intror Hz)) us2 eq_refl). exact H.
    Qed.
  End RemoveSem.
End Remove.

Theorem code_remove : forall g x p t u i0, linked g -> In x (g_fwd g) ->
  n_prevs (g_node g x) = [p] -> n_prevt (g_node g x) = [t] ->
  nth_error (n_previ (g_node g x)) 0 = Some i0 -> outputs_of (g_node g x) [u] ->
  g_shape g t = g_shape g u -> p <> x -> u <> t ->
  (forall y i, live g y -> nth_error (n_prevs (g_node g y)) i = Some x ->
     nth_error (n_previ (g_node g y)) i = Some []) ->
  (forall q s, In s (produced (g_node g p)) -> In s (produced (g_node g q)) -> q = p) ->
  exists h c d, remove_node g x = Some h /\ linked h /\ ~ In x (g_fwd h) /\
    gen (recompute g) = Some c /\ gen (recompute h) = Some d /\
    forall V pick attr (sem : nat -> list V -> option V) vs r, (forall v, sem x [v] = Some v) ->
      run pick attr sem c vs = Some r -> run pick attr sem d vs = Some r.
Proof.
  intros g x p t u i0 L Hx Hprevs Hprevt Hprevi Hout Hshape Hpx Hut Hwhole Honly.
  pose proof (linked_remove g x p t u i0 L Hx Hprevs Hprevt Hout Hshape Hpx Hut Honly) as Lh.
  destruct (gen_recompute g (lk_rendered _ L)) as [c [Ec [_ Rc]]].
  destruct (gen_recompute _ (lk_rendered _ Lh)) as [d [Ed [_ Rd]]].
  eexists _, c, d. split; [eapply remove_node_eq; eauto|]. split; [exact Lh|].
  split; [|split; [exact Ec|split; [exact Ed|]]].
  - destruct (rm_split g x p t u i0 L Hx) as [l1 [l2 [_ [E Hn]]]]; try assumption. now rewrite E.
  - intros V pick attr sem vs r Hid H. rewrite Rc in H. rewrite Rd.
    apply (run_remove g x p t u i0); assumption.
Qed.
