(* Proofs about inserting nodes in front of a node of the traced graph. *)
From Coq Require Import List Arith Bool Lia.
From Verif Require Import TraceSpec TraceModel TraceProofs TraceAfterProofs TraceRemoveProofs TraceInsertModel
  TraceTailProofs TraceBetweenProofs.
Import ListNotations.

(* ------------------------------------------------------------------ *)
(* One new node: the same graph as between the two nodes *)

Lemma hits_once : forall t outs,
  NoDup (flat_map (fun it => match it with TT t => [t] | TL ts => ts | TN _ => [] end) outs) ->
  In t (flat_map (fun it => match it with TT t => [t] | TL ts => ts | TN _ => [] end) outs) -> hits t outs = 1.
Proof.
  assert (D : forall (a b : list nat) t, NoDup (a ++ b) -> In t a -> In t b -> False).
  { induction a as [|x a IH]; intros b t Hn Ha Hb; [contradiction|]. inversion_clear Hn. destruct Ha as [->|Ha].
    - apply H. apply in_or_app. now right.
    - eauto. }
  intros t outs. induction outs as [|o r IH]; cbn [flat_map hits]; intros Hn Ht; [contradiction|].
  pose proof (nodup_app_r _ _ Hn) as Hr. destruct o as [s|ts|m]; cbn [app] in *.
  - destruct (Nat.eqb_spec s t) as [|Hs]; [reflexivity|]. apply IH; [assumption|]. destruct Ht; [congruence|assumption].
  - destruct (mem t ts) eqn:Em.
    + apply mem_In in Em. destruct (hits t r) eqn:Eh; [reflexivity|]. exfalso.
      apply (D ts _ t Hn Em). apply hits_produced. lia.
    + apply mem_false in Em. apply in_app_or in Ht as [Ht|Ht]; [contradiction|]. now rewrite IH.
  - now apply IH.
Qed.

Section Before.
  Variable g : graph.
  Variables p y t : nat.
  Variable idx : list nat.
  Variable k : kind.
  Variable given : option nat.
  Variable move : bool.
  Hypothesis L : linked g.
  Hypothesis Ly : live g y.
  Hypothesis Hps : n_prevs (g_node g y) = [p].
  Hypothesis Hpt : n_prevt (g_node g y) = [t].
  Hypothesis Hpi : n_previ (g_node g y) = [idx].
  Hypothesis Hpy : p <> y.
  Hypothesis Hnd : NoDup (produced (g_node g p)).
  Hypothesis Hgiven : match given with Some m => 1 <= m | None => True end.
  Hypothesis Hk : k = KMod \/ exists c, k = KFun c [mkref (is_const (n_kind (g_node g p))) p idx].
  Hypothesis Hmove : idx = [] \/ (move = true /\ match n_kind (g_node g y) with KFun _ _ => False | _ => True end).

  Lemma bf_t : In t (produced (g_node g p)).
  Proof.
    destruct (lk_prev _ L y 0 p Ly) as [_ [_ [s [K1 K2]]]]; [now rewrite Hps|].
    rewrite Hpt in K1. cbn in K1. congruence.
  Qed.

  Lemma bf_cs : exists c rest, new_tensors g given 1 = c :: rest.
  Proof.
    unfold new_tensors. destruct given as [m|]; [destruct m as [|m]; [cbn in Hgiven; lia|]|]; cbn; eauto.
  Qed.

  Definition bf_fwd : list nat :=
    if mem y (g_out g) then g_fwd g ++ [g_fresh g]
    else match index_of y (g_fwd g) with Some i => insert_at (g_fwd g) i (g_fresh g) | None => [] end.

  Lemma before_core : insert_before g y k given move None = insert_core g p y k given true None bf_fwd.
  Proof.
    pose proof (hits_once t _ Hnd bf_t) as Hh.
    assert (Hnio : mem y (g_in g) || mem y (g_const g) = false).
    { apply orb_false_iff. split; apply mem_false; intro K.
      - pose proof (lk_in _ L y K) as K1. destruct Ly as [K2|K2].
        + pose proof (rd_fwd _ (lk_rendered _ L) y K2) as K3. now rewrite K1 in K3.
        + pose proof (lk_out _ L y K2). congruence.
      - pose proof (lk_const _ L y K) as K1. destruct Ly as [K2|K2].
        + pose proof (rd_fwd _ (lk_rendered _ L) y K2) as K3. now rewrite K1 in K3.
        + pose proof (lk_out _ L y K2). congruence. }
    assert (Hf : (if mem y (g_out g) then Some (g_fwd g ++ [g_fresh g])
        else bind (index_of y (g_fwd g)) (fun i => Some (insert_at (g_fwd g) i (g_fresh g)))) = Some bf_fwd).
    { unfold bf_fwd. destruct (mem y (g_out g)) eqn:Em; [reflexivity|]. apply mem_false in Em.
      destruct Ly as [K|K]; [|contradiction]. destruct (index_of_In y (g_fwd g) K) as [i ->]. reflexivity. }
    assert (Hpw : p < g_fresh g) by (apply (lk_fresh_prev _ L y); [exact Ly|rewrite Hps; now left]).
    assert (Hyw : y < g_fresh g) by (apply (lk_fresh _ L); tauto).
    assert (Hkc : is_const k = false) by (destruct Hk as [->|[c ->]]; reflexivity).
    unfold insert_before. rewrite Hnio, Hf. cbn [bind].
    unfold insert_core, between, gather, remaining. cbn [g_node g_tensor]. rewrite Hps, Hpt, Hpi.
    cbn [combine flat_map map fst snd list_sum fold_right skipped length]. rewrite Hh.
    cbn [repeat app length Nat.add Nat.sub replace_in].
    destruct bf_cs as [c [rest Ec]]. rewrite Ec.
    assert (Ecl : length (c :: rest) = match given with Some m => m | None => 1 end)
      by (rewrite <- Ec; unfold new_tensors; apply seq_length).
    rewrite Ecl.
    cbn [combine map fst snd retag assoc n_kind n_prevs n_nexts n_order n_rev length].
    rewrite !Nat.eqb_refl. cbn [bind fold_left fst snd]. cbn [Nat.ltb Nat.leb].
    unfold connect. cbn [Nat.ltb Nat.leb]. rewrite Hkc.
    assert (Eown : (if move then idx else []) = idx) by (destruct Hmove as [->|[-> _]]; [now destruct move|reflexivity]).
    rewrite Eown.
    assert (Eki : forall K : kind -> option graph,
      bind (match n_kind (g_node g y) with
            | KFun _ _ => Some (rename_kind (mkref (is_const (n_kind (g_node g p))) p idx)
                             (mkref false (g_fresh g) idx) (n_kind (g_node g y)))
            | k0 => Some k0 end) K =
      K (rename_kind (mkref (is_const (n_kind (g_node g p))) p idx) (mkref false (g_fresh g) []) (n_kind (g_node g y)))).
    { intro K. destruct (n_kind (g_node g y)) eqn:Ek; try reflexivity. destruct Hmove as [->|[_ F]]; [reflexivity|contradiction]. }
    rewrite Eki.
    assert (Epi : (if move then [[]] else [idx]) = [[]]) by (destruct Hmove as [->|[-> _]]; [now destruct move|reflexivity]).
    rewrite Epi. reflexivity.
  Qed.

  Lemma bf_one : forall i, nth_error (n_prevs (g_node g y)) i = Some p ->
    nth_error (n_prevt (g_node g y)) i = Some t /\ nth_error (n_previ (g_node g y)) i = Some idx.
  Proof.
    intros i H. rewrite Hps in H. rewrite Hpt, Hpi.
    destruct i as [|i]; [split; reflexivity|]. cbn in H. now destruct i.
  Qed.

  Lemma bf_in : In p (n_prevs (g_node g y)).
  Proof. rewrite Hps. now left. Qed.

  Lemma bf_align : length (n_prevt (g_node g y)) = length (n_prevs (g_node g y)).
  Proof. now rewrite Hps, Hpt. Qed.
End Before.

Theorem code_before_fwd : forall g p y t idx k given move, linked g -> In y (g_fwd g) ->
  n_prevs (g_node g y) = [p] -> n_prevt (g_node g y) = [t] -> n_previ (g_node g y) = [idx] ->
  p <> y -> NoDup (produced (g_node g p)) ->
  match given with Some m => 1 <= m | None => True end ->
  (k = KMod \/ exists c, k = KFun c [mkref (is_const (n_kind (g_node g p))) p idx]) ->
  (idx = [] \/ (move = true /\ n_kind (g_node g y) = KMod)) ->
  exists h a b, insert_before g y k given move None = Some h /\ linked h /\
    gen (recompute g) = Some a /\ gen (recompute h) = Some b /\
    forall V pick attr (sem : nat -> list V -> option V) f vs,
      run pick attr (with_sem sem (g_fresh g) (call1 f)) b vs =
      run pick attr (with_sem sem y (through f [true] (sem y))) a vs.
Proof.
  intros g p y t idx k given move L Hy Hps Hpt Hpi Hpy Hnd Hgiven Hk Hmove.
  pose proof (or_introl Hy : live g y) as Ly.
  assert (Hm : idx = [] \/ (move = true /\ match n_kind (g_node g y) with KFun _ _ => False | _ => True end))
    by (destruct Hmove as [H|[H1 H2]]; [now left|right; now rewrite H2]).
  pose proof (before_core g p y t idx k given move L Ly Hps Hpt Hpi Hpy Hnd Hgiven Hk Hm) as Ec.
  destruct (index_of_In y (g_fwd g) Hy) as [i Ei]. pose proof Ei as Es.
  apply index_of_split in Es as [l1 [l2 [El [Ei' _]]]].
  pose proof (bf_in g p y Hps) as Hp. pose proof (bf_align g p y t Hps Hpt) as Hal.
  pose proof (bf_one g p y t idx Hps Hpt Hpi) as Hone.
  assert (Ef : bf_fwd g y = l1 ++ g_fresh g :: y :: l2).
  { unfold bf_fwd. destruct (mem y (g_out g)) eqn:Em.
    - apply mem_In in Em. pose proof (rd_fwd _ (lk_rendered _ L) y Hy) as K. rewrite (lk_out _ L y Em) in K. contradiction.
    - rewrite Ei, El, <- Ei'. apply insert_at_before. }
  rewrite Ef in Ec.
  destruct (bt_eq g p y t idx k given None L Ly l1 (y :: l2) Hp Hpy Hal Hone Hgiven I Hk) as [bi [E [H1 H2]]].
  pose proof (linked_between g p y t idx k given None L Ly l1 (y :: l2) El Hp Hpy Hal Hone Hgiven I Hk bi H1 H2) as Lh.
  destruct (gen_recompute g (lk_rendered _ L)) as [a [Ea [_ Ra]]].
  destruct (gen_recompute _ (lk_rendered _ Lh)) as [b [Eb [_ Rb]]].
  eexists _, a, b. split; [rewrite Ec; exact E|]. split; [exact Lh|]. split; [exact Ea|]. split; [exact Eb|].
  intros. rewrite Ra, Rb.
  replace [true] with (map (fun q => q =? p) (n_prevs (g_node g y))) by (rewrite Hps; cbn; now rewrite Nat.eqb_refl).
  eapply run_insert_between; eauto.
Qed.

Theorem code_before_out : forall g p y t idx k given i, linked g -> nth_error (g_out g) i = Some y ->
  n_prevs (g_node g y) = [p] -> n_prevt (g_node g y) = [t] -> n_previ (g_node g y) = [idx] ->
  p <> y -> NoDup (produced (g_node g p)) ->
  match given with Some m => 1 <= m | None => True end ->
  (k = KMod \/ exists c, k = KFun c [mkref (is_const (n_kind (g_node g p))) p idx]) ->
  exists h a b, insert_before g y k given true None = Some h /\ linked h /\
    gen (recompute g) = Some a /\ gen (recompute h) = Some b /\
    forall V pick attr (sem : nat -> list V -> option V) f vs,
      run pick attr (with_sem sem (g_fresh g) (call1 f)) b vs =
      bind (run pick attr sem a vs) (nth_through (each_through [f]) i).
Proof.
  intros g p y t idx k given i L Hi Hps Hpt Hpi Hpy Hnd Hgiven Hk.
  pose proof (nth_error_In _ _ Hi) as Hy. pose proof (or_intror Hy : live g y) as Ly.
  assert (Hm : idx = [] \/ (true = true /\ match n_kind (g_node g y) with KFun _ _ => False | _ => True end))
    by (right; now rewrite (lk_out _ L y Hy)).
  pose proof (before_core g p y t idx k given true L Ly Hps Hpt Hpi Hpy Hnd Hgiven Hk Hm) as Ec.
  pose proof (bf_in g p y Hps) as Hp. pose proof (bf_align g p y t Hps Hpt) as Hal.
  pose proof (bf_one g p y t idx Hps Hpt Hpi) as Hone.
  assert (Ef : bf_fwd g y = g_fwd g ++ g_fresh g :: []) by (unfold bf_fwd; now rewrite (proj2 (mem_In _ _) Hy)).
  rewrite Ef in Ec. assert (El : g_fwd g = g_fwd g ++ []) by (now rewrite app_nil_r).
  destruct (bt_eq g p y t idx k given None L Ly (g_fwd g) [] Hp Hpy Hal Hone Hgiven I Hk) as [bi [E [H1 H2]]].
  pose proof (linked_between g p y t idx k given None L Ly (g_fwd g) [] El Hp Hpy Hal Hone Hgiven I Hk bi H1 H2) as Lh.
  destruct (gen_recompute g (lk_rendered _ L)) as [a [Ea [_ Ra]]].
  destruct (gen_recompute _ (lk_rendered _ Lh)) as [b [Eb [_ Rb]]].
  eexists _, a, b. split; [rewrite Ec; exact E|]. split; [exact Lh|]. split; [exact Ea|]. split; [exact Eb|].
  intros. rewrite Ra, Rb. eapply run_insert_out; eauto.
Qed.

(* ------------------------------------------------------------------ *)
(* One new node in front of every value of a returned list *)

Lemma nth_combine_inv : forall A B (l : list A) (m : list B) i a b,
  nth_error (combine l m) i = Some (a, b) -> nth_error l i = Some a /\ nth_error m i = Some b.
Proof.
  induction l as [|x l IH]; intros [|y m] [|i] a b H; cbn in *; try discriminate; [inversion H; auto|auto].
Qed.

Lemma nth_seq : forall n s j, j < n -> nth_error (seq s n) j = Some (s + j).
Proof.
  induction n as [|n IH]; intros s j H; [lia|]. destruct j as [|j]; cbn; [f_equal; lia|].
  rewrite IH by lia. f_equal. lia.
Qed.

Lemma set_nexts_same : forall m, m = set_nexts m (n_nexts m).
Proof. now destruct m. Qed.

Section ListBefore.
  Variable g : graph.
  Variable y : nat.
  Variable ks : list kind.
  Hypothesis L : linked g.
  Hypothesis Hy : In y (g_out g).
  Hypothesis Hrev : n_rev (g_node g y) = true.
  Let ny := g_node g y.
  Let n := length (n_prevs ny).
  Hypothesis Hlen : length ks = length (n_prevs (g_node g y)).
  Hypothesis Hks : forall j k, nth_error ks j = Some k ->
    k = KMod \/ exists c r, nth_error (refs g y) j = Some r /\ k = KFun c [r].

  Let w0 := g_fresh g.
  Let ws := seq w0 (length ks).
  Let cs := seq (g_tensor g) (length ks).
  Definition lb_entry : Type := (kind * nat * (nat * list nat) * (nat * nat))%type.
  Let z : list lb_entry := combine (combine (combine ks (n_prevs ny)) (combine (n_prevt ny) (n_previ ny))) (combine ws cs).
  Definition lb_node (e : lb_entry) : node :=
    let '(k, q, (t, i), (w, c)) := e in mknode k [q] [y] [t] [TT c] [i] 0 false.
  Definition lb_key (e : lb_entry) : nat := fst (snd e).

  Lemma lb_fold : forall (l : list lb_entry) g0 x, NoDup (map lb_key l) ->
    g_node (fold_left (fun g' e => let '(k, q, (t, i), (w, c)) := e in
              upd g' w (mknode k [q] [y] [t] [TT c] [i] 0 false)) l g0) x =
    match assoc (map (fun e => (lb_key e, lb_node e)) l) x with Some m => m | None => g_node g0 x end /\
    g_in (fold_left (fun g' e => let '(k, q, (t, i), (w, c)) := e in
              upd g' w (mknode k [q] [y] [t] [TT c] [i] 0 false)) l g0) = g_in g0 /\
    g_fwd (fold_left (fun g' e => let '(k, q, (t, i), (w, c)) := e in
              upd g' w (mknode k [q] [y] [t] [TT c] [i] 0 false)) l g0) = g_fwd g0 /\
    g_out (fold_left (fun g' e => let '(k, q, (t, i), (w, c)) := e in
              upd g' w (mknode k [q] [y] [t] [TT c] [i] 0 false)) l g0) = g_out g0.
  Proof.
    induction l as [|[[[k q] [t i]] [w c]] l IH]; intros g0 x Hn; [repeat split|].
    inversion_clear Hn. cbn [fold_left map assoc].
    destruct (IH (upd g0 w (mknode k [q] [y] [t] [TT c] [i] 0 false)) x H0) as [I1 [I2 [I3 I4]]].
    rewrite I1, I2, I3, I4. split; [|repeat split]. cbn [lb_key fst snd].
    destruct (Nat.eqb_spec w x) as [->|Hx].
    - replace (assoc (map (fun e => (lb_key e, lb_node e)) l) x) with (@None node).
      + cbn. now rewrite Nat.eqb_refl.
      + symmetry. clear - H. induction l as [|e l IH]; [reflexivity|]. cbn in *.
        destruct (Nat.eqb_spec (lb_key e) x); [exfalso; apply H; now left|]. apply IH. tauto.
    - destruct (assoc (map (fun e => (lb_key e, lb_node e)) l) x); [reflexivity|].
      cbn. destruct (Nat.eqb_spec x w); [congruence|reflexivity].
  Qed.

  Lemma lb_z : forall j, j < n -> exists k q t i,
    nth_error ks j = Some k /\ nth_error (n_prevs ny) j = Some q /\ nth_error (n_previ ny) j = Some i /\
    nth_error z j = Some ((k, q, (t, i)), (w0 + j, g_tensor g + j)).
  Proof.
    intros j Hj. assert (Ly : live g y) by (now right).
    assert (E1 : exists k, nth_error ks j = Some k).
    { destruct (nth_error ks j) eqn:E; [eauto|]. apply nth_error_None in E. unfold n, ny in *. lia. }
    destruct E1 as [k E1].
    assert (E2 : exists q, nth_error (n_prevs ny) j = Some q).
    { destruct (nth_error (n_prevs ny) j) eqn:E; [eauto|]. apply nth_error_None in E. unfold n in *. lia. }
    destruct E2 as [q E2]. destruct (lk_prev _ L y j q Ly E2) as [_ [_ [t [E3 _]]]].
    assert (E4 : exists i, nth_error (n_previ ny) j = Some i).
    { pose proof (rd_align _ (lk_rendered _ L) y Ly). fold ny in H.
      destruct (nth_error (n_previ ny) j) eqn:E; [eauto|]. apply nth_error_None in E. unfold n in *. lia. }
    destruct E4 as [i E4]. exists k, q, t, i. repeat (split; [assumption|]).
    unfold z, ws, cs. rewrite Hlen. fold ny. fold n.
    apply nth_combine; [apply nth_combine; apply nth_combine; assumption|].
    apply nth_combine; now apply nth_seq.
  Qed.

  Lemma lb_length : length z = n.
  Proof.
    assert (H1 : length z <= n).
    { unfold z, lb_entry. rewrite combine_length, (combine_length (combine ks (n_prevs ny))), (combine_length ks).
      fold n. lia. }
    destruct (Nat.eq_dec (length z) n) as [|H]; [assumption|]. exfalso.
    destruct (lb_z (length z)) as [k [q [t [i [_ [_ [_ K]]]]]]]; [lia|].
    assert (K' : nth_error z (length z) <> None) by congruence. apply nth_error_Some in K'. lia.
  Qed.

  Lemma lb_keys : map lb_key z = ws.
  Proof.
    apply nth_ext_error. intro j. rewrite nth_error_map. destruct (Nat.lt_ge_cases j n) as [Hj|Hj].
    - destruct (lb_z j Hj) as [k [q [t [i [_ [_ [_ ->]]]]]]]. unfold ws. rewrite nth_seq by (rewrite Hlen; exact Hj).
      reflexivity.
    - rewrite (proj2 (nth_error_None z j)) by (rewrite lb_length; lia). symmetry. apply nth_error_None.
      unfold ws. rewrite seq_length, Hlen. exact Hj.
  Qed.

  Lemma lb_ws : forall x, In x ws <-> exists j, j < n /\ x = w0 + j.
  Proof.
    intro x. unfold ws. rewrite in_seq, Hlen. fold ny. fold n. split.
    - intros H. exists (x - w0). lia.
    - intros [j [H ->]]. lia.
  Qed.

  Lemma lb_old : forall x, In x (g_in g) \/ live g x \/ In x (g_const g) -> ~ In x ws.
  Proof. intros x H K. apply lb_ws in K as [j [_ ->]]. apply (lk_fresh _ L) in H. unfold w0 in H. lia. Qed.

  Lemma lb_prev_old : forall x q, live g x -> In q (n_prevs (g_node g x)) -> ~ In q ws.
  Proof. intros x q Hx Hq K. apply lb_ws in K as [j [_ ->]]. apply (lk_fresh_prev _ L) in Hq; [|assumption]. unfold w0 in Hq. lia. Qed.

  Let nodes := map (fun e => (lb_key e, lb_node e)) z.

  Lemma lb_assoc_old : forall x, ~ In x ws -> assoc nodes x = None.
  Proof.
    intros x H. rewrite <- lb_keys in H. unfold nodes. clear - H. induction z as [|e l IH]; [reflexivity|]. cbn in *.
    destruct (Nat.eqb_spec (lb_key e) x); [exfalso; apply H; now left|]. apply IH. tauto.
  Qed.

  Lemma assoc_nth : forall (l : list lb_entry) j e, NoDup (map lb_key l) -> nth_error l j = Some e ->
    assoc (map (fun e => (lb_key e, lb_node e)) l) (lb_key e) = Some (lb_node e).
  Proof.
    induction l as [|a l IH]; intros j e Hn Hj; [now destruct j|]. inversion_clear Hn. cbn [map assoc].
    destruct j as [|j]; cbn in Hj.
    - assert (a = e) by congruence. subst a. now rewrite Nat.eqb_refl.
    - destruct (Nat.eqb_spec (lb_key a) (lb_key e)) as [K|]; [|now apply (IH j)].
      exfalso. apply H. rewrite K. apply in_map. eapply nth_error_In; eauto.
  Qed.

  Definition lb_y : node := mknode (n_kind ny) ws (n_nexts ny) (map (fun e : lb_entry => snd (snd e)) z) (n_nextt ny)
                              (map (fun _ => []) (n_previ ny)) (n_order ny) true.

  Lemma lb_eq : exists h, insert_before_list g y ks = Some h /\
    g_in h = g_in g /\ g_fwd h = g_fwd g ++ ws /\ g_out h = g_out g /\
    forall x, exists nx, g_node h x = set_nexts
      (if x =? y then lb_y else match assoc nodes x with Some m => m | None => g_node g x end) nx.
  Proof.
    assert (Hnd : NoDup (map lb_key z)) by (rewrite lb_keys; apply seq_NoDup).
    unfold insert_before_list. rewrite Hrev, Hlen, Nat.eqb_refl, (proj2 (mem_In _ _) Hy). cbn [negb orb].
    replace (mem y (g_in g)) with false.
    2: { symmetry. apply mem_false. intro K. pose proof (lk_in _ L y K). pose proof (lk_out _ L y Hy). congruence. }
    replace (mem y (g_const g)) with false.
    2: { symmetry. apply mem_false. intro K. pose proof (lk_const _ L y K). pose proof (lk_out _ L y Hy). congruence. }
    cbn [orb]. rewrite <- Hlen. fold ny. fold w0. fold ws. fold cs. fold z.
    set (g1 := mkgraph (g_node g) (g_in g) (g_fwd g ++ ws) (g_out g) (g_const g) (w0 + length ks)
                 (g_tensor g + length ks) (g_shape g)).
    match goal with |- context [fold_left ?F ?Z g1] => set (g2 := fold_left F Z g1) end.
    match goal with |- context [upd g2 y ?N] => change N with lb_y end.
    pose proof (fun x => lb_fold z g1 x Hnd) as HF.
    assert (B : forall x, g_node (upd g2 y lb_y) x =
      (if x =? y then lb_y else match assoc nodes x with Some m => m | None => g_node g x end)).
    { intro x. cbn [upd g_node]. destruct (x =? y); [reflexivity|]. exact (proj1 (HF x)). }
    destruct (HF 0) as [_ [F1 [F2 F3]]].
    assert (Base : exists h, Some (upd g2 y lb_y) = Some h /\ g_in h = g_in g /\ g_fwd h = g_fwd g ++ ws /\ g_out h = g_out g /\
      forall x, exists nx, g_node h x = set_nexts
        (if x =? y then lb_y else match assoc nodes x with Some m => m | None => g_node g x end) nx).
    { eexists. split; [reflexivity|]. split; [exact F1|]. split; [exact F2|]. split; [exact F3|].
      intro x. rewrite B. eexists. apply set_nexts_same. }
    destruct (rev (n_prevs ny)) as [|q qs]; [exact Base|].
    destruct (index_of y (n_nexts (g_node (upd g2 y lb_y) q))) as [i|]; [|exact Base].
    eexists. split; [reflexivity|]. split; [exact F1|]. split; [exact F2|]. split; [exact F3|].
    intro x. rewrite upd_node. destruct (Nat.eqb_spec x q) as [->|Hx].
    - rewrite B. eexists. reflexivity.
    - rewrite B. eexists. apply set_nexts_same.
  Qed.

  Section Graph.
    Variable h : graph.
    Hypothesis H1 : g_in h = g_in g.
    Hypothesis H2 : g_fwd h = g_fwd g ++ ws.
    Hypothesis H3 : g_out h = g_out g.
    Hypothesis H4 : forall x, exists nx, g_node h x = set_nexts
      (if x =? y then lb_y else match assoc nodes x with Some m => m | None => g_node g x end) nx.

    Lemma lb_y_old : ~ In y ws.
    Proof. apply lb_old. unfold live. tauto. Qed.

    Lemma lb_h_old : forall x, ~ In x ws -> x <> y ->
      n_kind (g_node h x) = n_kind (g_node g x) /\ n_prevs (g_node h x) = n_prevs (g_node g x) /\
      n_prevt (g_node h x) = n_prevt (g_node g x) /\ n_nextt (g_node h x) = n_nextt (g_node g x) /\
      n_previ (g_node h x) = n_previ (g_node g x) /\ n_rev (g_node h x) = n_rev (g_node g x).
    Proof.
      intros x Hx Hn. destruct (H4 x) as [nx ->]. destruct (Nat.eqb_spec x y); [congruence|].
      rewrite (lb_assoc_old x Hx). repeat split.
    Qed.

    Lemma lb_h_y : n_kind (g_node h y) = n_kind ny /\ n_prevs (g_node h y) = ws /\
      n_previ (g_node h y) = map (fun _ => []) (n_previ ny) /\ n_rev (g_node h y) = true.
    Proof. destruct (H4 y) as [nx ->]. rewrite Nat.eqb_refl. cbn. repeat split. Qed.

    Lemma lb_h_new : forall j, j < n -> exists k q t i nx,
      nth_error ks j = Some k /\ nth_error (n_prevs ny) j = Some q /\ nth_error (n_previ ny) j = Some i /\
      g_node h (w0 + j) = mknode k [q] nx [t] [TT (g_tensor g + j)] [i] 0 false.
    Proof.
      intros j Hj. destruct (lb_z j Hj) as [k [q [t [i [E1 [E2 [E3 E4]]]]]]]. destruct (H4 (w0 + j)) as [nx E].
      exists k, q, t, i, nx. repeat (split; [assumption|]). rewrite E.
      assert (Hyw : y < w0) by (apply (lk_fresh _ L); unfold live; tauto).
      destruct (Nat.eqb_spec (w0 + j) y); [lia|].
      assert (Hnd : NoDup (map lb_key z)) by (rewrite lb_keys; apply seq_NoDup).
      pose proof (assoc_nth z j _ Hnd E4) as K. cbn [lb_key fst snd] in K. fold nodes in K. rewrite K. reflexivity.
    Qed.

    Lemma lb_const_old : forall x, ~ In x ws -> is_const (n_kind (g_node h x)) = is_const (n_kind (g_node g x)).
    Proof.
      intros x Hx. destruct (Nat.eq_dec x y) as [->|Hn].
      - now destruct lb_h_y as [-> _].
      - now destruct (lb_h_old x Hx Hn) as [-> _].
    Qed.

    Lemma lb_const_new : forall j, j < n -> is_const (n_kind (g_node h (w0 + j))) = false.
    Proof.
      intros j Hj. destruct (lb_h_new j Hj) as [k [q [t [i [nx [E1 [_ [_ ->]]]]]]]]. cbn.
      destruct (Hks j k E1) as [->|[c [r [_ ->]]]]; reflexivity.
    Qed.

    Lemma lb_refs_old : forall x, live g x -> x <> y -> refs h x = refs g x.
    Proof.
      intros x Hl Hn. destruct (lb_h_old x) as [_ [K2 [_ [_ [K5 _]]]]]; [apply lb_old; tauto|exact Hn|].
      apply refs_eq; [exact K2|exact K5|]. intros q Hq. apply lb_const_old. now apply (lb_prev_old x).
    Qed.

    Lemma lb_refs_new : forall j, j < n -> exists r, nth_error (refs g y) j = Some r /\ refs h (w0 + j) = [r].
    Proof.
      intros j Hj. destruct (lb_h_new j Hj) as [k [q [t [i [nx [E1 [E2 [E3 E4]]]]]]]].
      exists (mkref (is_const (n_kind (g_node g q))) q i). split; [now apply nth_refs|].
      unfold refs. rewrite E4. cbn. rewrite lb_const_old; [reflexivity|].
      apply (lb_prev_old y); [now right|eapply nth_error_In; eauto].
    Qed.

    Lemma lb_refs_y : refs h y = map (fun w => mkref false w []) ws.
    Proof.
      destruct lb_h_y as [_ [K2 [K3 _]]]. apply nth_ext_error. intro j. rewrite nth_error_map.
      assert (Hal : n <= length (n_previ ny)) by (apply (rd_align _ (lk_rendered _ L)); now right).
      destruct (Nat.lt_ge_cases j n) as [Hj|Hj].
      - assert (E : nth_error ws j = Some (w0 + j)) by (apply nth_seq; rewrite Hlen; exact Hj).
        rewrite E. cbn [option_map]. rewrite (nth_refs h y j (w0 + j) []).
        + now rewrite lb_const_new.
        + now rewrite K2.
        + rewrite K3, nth_error_map. destruct (nth_error (n_previ ny) j) eqn:E'; [reflexivity|].
          apply nth_error_None in E'. lia.
      - assert (E : nth_error ws j = None) by (apply nth_error_None; unfold ws; rewrite seq_length, Hlen; exact Hj).
        rewrite E. apply nth_error_None. rewrite refs_count.
        + rewrite K2. now apply nth_error_None.
        + rewrite K2, K3, map_length. unfold ws. rewrite seq_length, Hlen. exact Hal.
    Qed.

    Lemma rendered_list : rendered h.
    Proof.
      pose proof (lk_rendered _ L) as Rd. constructor.
      - rewrite H1, H2, H3. pose proof (rd_nodup _ Rd) as Hn.
        replace (g_in g ++ (g_fwd g ++ ws) ++ g_out g) with ((g_in g ++ g_fwd g) ++ ws ++ g_out g)
          by (rewrite <- !app_assoc; reflexivity).
        rewrite app_assoc in Hn.
        assert (Hd : forall x, In x ws -> ~ In x ((g_in g ++ g_fwd g) ++ g_out g)).
        { intros x Hx K. rewrite !in_app_iff in K. apply (lb_old x); [|exact Hx]. unfold live. tauto. }
        assert (Hws : NoDup ws) by apply seq_NoDup. clear - Hn Hd Hws. revert Hws Hd. generalize ws as l.
        induction l as [|x l IH]; intros Hw Hd; [exact Hn|]. inversion_clear Hw. cbn [app].
        apply NoDup_insert.
        + apply IH; [assumption|]. intros v Hv. apply Hd. now right.
        + intro K. rewrite !in_app_iff in K. destruct K as [K|[K|K]].
          * apply (Hd x (or_introl eq_refl)). apply in_or_app. left. apply in_or_app. tauto.
          * contradiction.
          * apply (Hd x (or_introl eq_refl)). apply in_or_app. now right.
      - intros x Hx. destruct (Nat.eq_dec x y) as [->|Hn].
        + destruct lb_h_y as [_ [-> [-> _]]]. rewrite map_length. unfold ws. rewrite seq_length, Hlen.
          apply (rd_align _ Rd). now right.
        + destruct (in_dec Nat.eq_dec x ws) as [Hw|Hw].
          * apply lb_ws in Hw as [j [Hj ->]]. destruct (lb_h_new j Hj) as [k [q [t [i [nx [_ [_ [_ ->]]]]]]]]. cbn. lia.
          * destruct (lb_h_old x Hw Hn) as [_ [-> [_ [_ [-> _]]]]]. apply (rd_align _ Rd).
            destruct Hx as [Hx|Hx]; [|right; now rewrite <- H3]. rewrite H2 in Hx. apply in_app_or in Hx as [Hx|Hx]; [now left|contradiction].
      - intros x Hx. rewrite H2 in Hx. apply in_app_or in Hx as [Hx|Hx].
        + assert (Hn : x <> y).
          { intros ->. pose proof (rd_fwd _ Rd y Hx) as K. now rewrite (lk_out _ L y Hy) in K. }
          assert (Hl : live g x) by (now left). rewrite (lb_refs_old x Hl Hn).
          destruct (lb_h_old x) as [-> _]; [apply lb_old; tauto|exact Hn|]. now apply (rd_fwd _ Rd).
        + apply lb_ws in Hx as [j [Hj ->]]. destruct (lb_refs_new j Hj) as [r [Er Er']].
          destruct (lb_h_new j Hj) as [k [q [t [i [nx [E1 [_ [_ E]]]]]]]]. rewrite E. cbn [n_kind].
          destruct (Hks j k E1) as [->|[c [r' [Er2 ->]]]]; [exact I|]. rewrite Er'. split; [congruence|discriminate].
      - intros x Hx. rewrite H3 in Hx. destruct (Nat.eq_dec x y) as [->|Hn].
        + destruct lb_h_y as [_ [-> _]]. pose proof (rd_out _ Rd y Hy) as K. unfold ws. rewrite Hlen.
          destruct (n_prevs (g_node g y)); [congruence|discriminate].
        + destruct (lb_h_old x) as [_ [-> _]]; [apply lb_old; unfold live; tauto|exact Hn|]. now apply (rd_out _ Rd).
    Qed.

    Lemma lb_idle_old : forall x, In x (g_fwd g) -> idle (g_node h x) = idle (g_node g x).
    Proof.
      intros x Hx. assert (Hn : x <> y).
      { intros ->. pose proof (rd_fwd _ (lk_rendered _ L) y Hx) as K. now rewrite (lk_out _ L y Hy) in K. }
      destruct (lb_h_old x) as [E1 [_ [E3 [E4 _]]]]; [apply lb_old; unfold live; tauto|exact Hn|].
      unfold idle. now rewrite E1, E3, E4.
    Qed.

    Lemma lb_free : forall x r, live g x -> In r (refs g x) -> ~ In (r_name r) ws.
    Proof.
      intros x r Hx Hr. apply refs_In in Hr as [i [q [ix [K1 [_ ->]]]]]. cbn.
      apply (lb_prev_old x); [exact Hx|eapply nth_error_In; eauto].
    Qed.

    Theorem run_list : forall i, nth_error (g_out g) i = Some y ->
      forall V pick attr (sem : nat -> list V -> option V) fs vs, length fs = length ks ->
      run pick attr (with_sems sem (combine ws fs)) (plain h) vs =
      bind (run pick attr sem (plain g) vs) (nth_through (each_through fs) i).
    Proof.
      intros i Hi V pick attr sem fs vs Hfs.
      assert (Hal : n <= length (n_previ ny)) by (apply (rd_align _ (lk_rendered _ L)); now right).
      assert (Hrl : length (refs g y) = n) by (now apply refs_count).
      assert (Hwl : length ws = n) by (unfold ws; now rewrite seq_length, Hlen).
      assert (Hfl : length fs = n) by (unfold n, ny; congruence).
      set (news := combine (combine ws (refs g y)) fs : list (newcall V)).
      assert (En1 : map (nc_name V) news = ws).
      { transitivity (map fst (map fst news)); [symmetry; apply map_map|]. unfold news.
        rewrite map_fst_combine by (rewrite combine_length; lia). apply map_fst_combine. lia. }
      assert (En2 : map (nc_ref V) news = refs g y).
      { transitivity (map snd (map fst news)); [symmetry; apply map_map|]. unfold news.
        rewrite map_fst_combine by (rewrite combine_length; lia). clear - Hrl Hwl.
        revert Hrl Hwl. generalize (refs g y) as a. generalize ws as b. generalize n as m.
        intros m b. revert m. induction b as [|x b IH]; intros m [|r a] Ha Hb; cbn in *; try reflexivity; try lia.
        f_equal. apply (IH (pred m)); lia. }
      assert (En3 : nc_fs V news = fs).
      { unfold nc_fs, news. assert (K : length (combine ws (refs g y)) = length fs) by (rewrite combine_length; lia).
        revert K. generalize (combine ws (refs g y)) as a. clear. induction fs as [|f fs IH]; intros [|x a] K; try discriminate; [reflexivity|].
        cbn. f_equal. apply IH. cbn in K. lia. }
      assert (En4 : with_sems sem (combine ws fs) = nc_sems V sem news).
      { unfold nc_sems. f_equal. rewrite <- En1 at 1. rewrite <- En3 at 1. unfold nc_fs. generalize news as a. clear.
        induction a as [|x a IH]; [reflexivity|]. cbn. f_equal. exact IH. }
      set (ln := map (fun x => (x, refs g x)) (filter (fun x => negb (idle (g_node g x))) (g_fwd g))).
      assert (Eg : plain g = mkprog (g_in g) (lines_of ln) (p_ret (plain g))).
      { unfold plain at 1. f_equal. unfold lines_of, ln. now rewrite map_map. }
      assert (Hfy : ~ In y (g_fwd g)).
      { intro K. pose proof (rd_fwd _ (lk_rendered _ L) y K) as Kf. now rewrite (lk_out _ L y Hy) in Kf. }
      assert (Eh : plain h = mkprog (g_in g) (lines_of ln ++ nc_lines V news) (p_ret (plain h))).
      { unfold plain at 1. rewrite H1, H2. f_equal. rewrite filter_app, map_app. f_equal.
        - unfold lines_of, ln. rewrite map_map. cbn [fst snd].
          replace (filter (fun x => negb (idle (g_node h x))) (g_fwd g)) with (filter (fun x => negb (idle (g_node g x))) (g_fwd g))
            by (apply filter_ext_in; intros x Hx; now rewrite lb_idle_old).
          apply map_ext_in. intros x Hx. apply filter_In in Hx as [Hx _]. rewrite lb_refs_old; [reflexivity|now left|congruence].
        - replace (filter (fun x => negb (idle (g_node h x))) ws) with ws.
          2: { symmetry. assert (K : forall x, In x ws -> negb (idle (g_node h x)) = true).
               { intros x Hx. apply lb_ws in Hx as [j [Hj ->]].
                 destruct (lb_h_new j Hj) as [k [q [t [i0 [nx [_ [_ [_ ->]]]]]]]]. unfold idle. cbn. now destruct k. }
               revert K. generalize ws as l. induction l as [|x l IH]; intro K; [reflexivity|]. cbn.
               rewrite (K x (or_introl eq_refl)). f_equal. apply IH. intros; apply K; now right. }
          apply nth_ext_error. intro j. unfold nc_lines. rewrite !nth_error_map.
          assert (Ej : nth_error ws j = option_map (nc_name V) (nth_error news j)) by (rewrite <- En1 at 1; apply nth_error_map).
          assert (Er : nth_error (refs g y) j = option_map (nc_ref V) (nth_error news j)) by (rewrite <- En2 at 1; apply nth_error_map).
          destruct (nth_error news j) as [e|] eqn:Ee; rewrite Ej; [|reflexivity]. cbn [option_map] in *.
          assert (Hj : j < n) by (rewrite <- Hwl; apply nth_error_Some; congruence).
          assert (Ew : nc_name V e = w0 + j).
          { assert (K : nth_error ws j = Some (w0 + j)) by (apply nth_seq; rewrite Hlen; exact Hj). congruence. }
          rewrite Ew. destruct (lb_refs_new j Hj) as [r [Er' ->]]. do 3 f_equal. congruence. }
      rewrite Eg, Eh, En4, <- En3 at 1.
      assert (Hnd : NoDup (g_out g)).
      { pose proof (rd_nodup _ (lk_rendered _ L)) as K. apply nodup_app_r in K. now apply nodup_app_r in K. }
      apply run_tail; rewrite ?En1, ?En2.
      - apply seq_NoDup.
      - cbn [plain p_ret]. now rewrite !map_length, H3.
      - cbn [plain p_ret]. rewrite nth_error_map, Hi. cbn [option_map]. now rewrite Hrev.
      - cbn [plain p_ret]. rewrite H3, nth_error_map, Hi. cbn [option_map].
        destruct lb_h_y as [_ [_ [_ ->]]]. rewrite lb_refs_y. rewrite <- En1 at 1. now rewrite map_map.
      - intros j Hj. cbn [plain p_ret]. rewrite H3, !nth_error_map.
        destruct (nth_error (g_out g) j) as [x|] eqn:Ej; [|reflexivity]. cbn [option_map].
        assert (Hxy : x <> y).
        { intros ->. apply Hj. apply (proj1 (NoDup_nth_error (g_out g)) Hnd); [|congruence].
          apply nth_error_Some. congruence. }
        assert (Hl : live g x) by (right; eapply nth_error_In; eauto).
        rewrite (lb_refs_old x Hl Hxy).
        destruct (lb_h_old x) as [_ [_ [_ [_ [_ ->]]]]]; [apply lb_old; tauto|exact Hxy|]. reflexivity.
      - intros x qs Hx. unfold ln in Hx. apply in_map_iff in Hx as [x0 [Ex Hx]]. apply filter_In in Hx as [Hx _].
        inversion Ex; subst x0 qs. assert (Hl : live g x) by (now left). split; [apply lb_old; tauto|].
        intros r Hr. now apply (lb_free x).
      - intros qs Hq r Hr. cbn [plain p_ret] in Hq. apply in_map_iff in Hq as [x [<- Hx]].
        assert (Hl : live g x) by (now right). apply (lb_free x r Hl).
        destruct (n_rev (g_node g x)); [exact Hr|]. destruct (refs g x); cbn in *; [contradiction|].
        destruct Hr as [->|[]]; now left.
    Qed.
  End Graph.
End ListBefore.

Theorem code_before_list : forall g y ks i, linked g -> nth_error (g_out g) i = Some y ->
  n_rev (g_node g y) = true -> length ks = length (n_prevs (g_node g y)) ->
  (forall j k, nth_error ks j = Some k ->
     k = KMod \/ exists c r, nth_error (refs g y) j = Some r /\ k = KFun c [r]) ->
  exists h a b, insert_before_list g y ks = Some h /\ rendered h /\
    gen (recompute g) = Some a /\ gen (recompute h) = Some b /\
    forall V pick attr (sem : nat -> list V -> option V) fs vs, length fs = length ks ->
      run pick attr (with_sems sem (combine (seq (g_fresh g) (length ks)) fs)) b vs =
      bind (run pick attr sem a vs) (nth_through (each_through fs) i).
Proof.
  intros g y ks i L Hi Hrev Hlen Hks. pose proof (nth_error_In _ _ Hi) as Hy.
  destruct (lb_eq g y ks L Hy Hrev Hlen) as [h [E [H1 [H2 [H3 H4]]]]].
  pose proof (rendered_list g y ks L Hy Hlen Hks h H1 H2 H3 H4) as Rh.
  destruct (gen_recompute g (lk_rendered _ L)) as [a [Ea [_ Ra]]].
  destruct (gen_recompute _ Rh) as [b [Eb [_ Rb]]].
  exists h, a, b. split; [exact E|]. split; [exact Rh|]. split; [exact Ea|]. split; [exact Eb|].
  intros. rewrite Ra, Rb. eapply run_list; eauto.
Qed.
