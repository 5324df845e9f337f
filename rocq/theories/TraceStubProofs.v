(* Proofs about the nodes inserted around the operators without a quantized
   kernel. *)
From Coq Require Import List Arith Bool Lia.
From Verif Require Import TraceSpec TraceModel TraceProofs TraceAfterProofs TraceRemoveProofs TraceInsertModel
  TraceTailProofs TraceBetweenProofs TraceExistingProofs TraceStubSpec TraceStubModel.
Import ListNotations.

(* ------------------------------------------------------------------ *)
(* Meanings that agree *)

Lemma exec_agree : forall V pick attr (sem sem' : nat -> list V -> option V) l e,
  (forall x qs vs, In (x, qs) l -> sem x vs = sem' x vs) ->
  exec pick attr sem (lines_of l) e = exec pick attr sem' (lines_of l) e.
Proof.
  intros V pick attr sem sem' l. induction l as [|[x qs] l IH]; intros e H; [reflexivity|].
  cbn [lines_of map exec step fst snd].
  destruct (traverse (read pick attr e) qs) as [vs|]; cbn [bind]; [|reflexivity].
  rewrite (H x qs vs (or_introl eq_refl)).
  destruct (sem' x vs) as [v|]; cbn [bind]; [|reflexivity].
  apply IH. intros. eapply H. right. eassumption.
Qed.

Lemma run_agree : forall V pick attr (sem sem' : nat -> list V -> option V) g vs,
  (forall x us, In x (g_fwd g) -> sem x us = sem' x us) ->
  run pick attr sem (plain g) vs = run pick attr sem' (plain g) vs.
Proof.
  intros V pick attr sem sem' g vs H. unfold run, plain. cbn [p_params p_body p_ret].
  destruct (params (g_in g) vs) as [e|]; cbn [bind]; [|reflexivity].
  set (l := filter _ (g_fwd g)).
  replace (map (fun x => Assign x (refs g x)) l) with (lines_of (map (fun x => (x, refs g x)) l))
    by (unfold lines_of; now rewrite map_map).
  rewrite (exec_agree V pick attr sem sem'); [reflexivity|].
  intros x qs us Hx. apply in_map_iff in Hx as [x0 [E Hx]]. inversion E; subst x0 qs.
  apply H. unfold l in Hx. now apply filter_In in Hx.
Qed.

Lemma some_args_none : forall V (f : V -> option V) A (sel : A -> bool) l vs,
  (forall a, In a l -> sel a = false) -> some_args f (map sel l) vs = Some vs.
Proof.
  intros V f A sel l. induction l as [|a l IH]; intros vs H; [reflexivity|].
  cbn [map some_args]. destruct vs as [|v vs]; [reflexivity|].
  rewrite (H a (or_introl eq_refl)). cbn [bind]. rewrite IH by (intros; apply H; now right). reflexivity.
Qed.

Lemma through_none : forall V (f : V -> option V) A (sel : A -> bool) l h vs,
  (forall a, In a l -> sel a = false) -> through f (map sel l) h vs = h vs.
Proof. intros. unfold through. now rewrite some_args_none. Qed.

(* two disjoint selections, one behind the other *)
Lemma some_args_join : forall V (f : V -> option V) A (s1 s2 : A -> bool) l vs,
  (forall a, In a l -> s1 a = true -> s2 a = false) ->
  bind (some_args f (map s1 l) vs) (some_args f (map s2 l)) =
  some_args f (map (fun a => s1 a || s2 a) l) vs.
Proof.
  intros V f A s1 s2 l. induction l as [|a l IH]; intros vs H; [reflexivity|].
  cbn [map some_args]. destruct vs as [|v vs]; [reflexivity|].
  rewrite <- (IH vs) by (intros b Hb; apply H; now right).
  pose proof (H a (or_introl eq_refl)) as Ha.
  destruct (s1 a) eqn:E1; cbn [orb].
  - rewrite (Ha eq_refl). destruct (f v) as [u|]; cbn [bind]; [|reflexivity].
    destruct (some_args f (map s1 l) vs) as [us|]; cbn [bind]; reflexivity.
  - cbn [bind]. destruct (some_args f (map s1 l) vs) as [us|]; cbn [bind].
    + reflexivity.
    + now destruct (if s2 a then f v else Some v).
Qed.

Lemma through_join : forall V (f : V -> option V) A (s1 s2 : A -> bool) l h vs,
  (forall a, In a l -> s1 a = true -> s2 a = false) ->
  through f (map s1 l) (through f (map s2 l) h) vs = through f (map (fun a => s1 a || s2 a) l) h vs.
Proof.
  intros V f A s1 s2 l h vs H. unfold through. rewrite <- (some_args_join V f A s1 s2 l vs H).
  now destruct (some_args f (map s1 l) vs).
Qed.

Lemma through_ext : forall V (f : V -> option V) sel h h' vs, (forall us, h us = h' us) ->
  through f sel h vs = through f sel h' vs.
Proof. intros. unfold through. destruct (some_args f sel vs); cbn; auto. Qed.

(* ------------------------------------------------------------------ *)
(* Orders *)

Lemma split_once : forall (u u' v v' : list nat) b, NoDup (u ++ b :: v) -> u ++ b :: v = u' ++ b :: v' -> u = u' /\ v = v'.
Proof.
  induction u as [|x u IH]; intros [|y u'] v v' b Hd F; cbn in *.
  - injection F as F. now split.
  - injection F as E F. subst. inversion Hd as [|? ? Hn _]; subst. exfalso. apply Hn. rewrite in_app_iff. cbn. tauto.
  - injection F as E F. subst. inversion Hd as [|? ? Hn _]; subst. exfalso. apply Hn. rewrite in_app_iff. cbn. tauto.
  - injection F as E F. subst. inversion Hd as [|? ? _ Hd']; subst. destruct (IH u' v v' b Hd' F) as [-> ->]. now split.
Qed.

Lemma before_trans : forall l a b c, NoDup l -> before l a b -> before l b c -> before l a c.
Proof.
  intros l a b c Hd [l1 [l2 [l3 E]]] [m1 [m2 [m3 F]]].
  assert (H2 : l3 = m2 ++ c :: m3).
  { rewrite E in Hd, F. replace (l1 ++ a :: l2 ++ b :: l3) with ((l1 ++ a :: l2) ++ b :: l3) in Hd, F by (now rewrite <- app_assoc).
    now destruct (split_once _ _ _ _ _ Hd F). }
  subst l3. exists l1, (l2 ++ b :: m2), m3. rewrite E. rewrite <- app_assoc. reflexivity.
Qed.

Lemma before_In : forall l a b, before l a b -> In a l /\ In b l.
Proof. intros l a b [l1 [l2 [l3 ->]]]. repeat (rewrite in_app_iff; cbn). tauto. Qed.

Lemma before_neq : forall l a b, NoDup l -> before l a b -> a <> b.
Proof.
  intros l a b Hd [l1 [l2 [l3 ->]]] ->. apply NoDup_remove_2 in Hd. apply Hd.
  repeat (rewrite in_app_iff; cbn). tauto.
Qed.

(* an insertion keeps the order *)
Lemma before_insert : forall l1 l2 w a b, before (l1 ++ l2) a b -> before (l1 ++ w :: l2) a b.
Proof.
  intros l1 l2 w a b [m1 [m2 [m3 E]]].
  assert (H : exists m1' m2' m3', l1 ++ w :: l2 = m1' ++ a :: m2' ++ b :: m3'); [|exact H].
  revert m1 E. induction l1 as [|x l1 IH]; intros m1 E.
  - cbn in *. exists (w :: m1), m2, m3. now rewrite E.
  - destruct m1 as [|y m1].
    + cbn in E. injection E as -> E. exists [].
      clear IH. revert m2 E. induction l1 as [|y l1 IH]; intros m2 E.
      * cbn in *. exists (w :: m2), m3. now rewrite E.
      * destruct m2 as [|z m2].
        -- cbn in E. injection E as -> E. exists [], (l1 ++ w :: l2). reflexivity.
        -- cbn in E. injection E as -> E. destruct (IH m2 E) as [u [v K]]. cbn in K. injection K as K.
           exists (z :: u), v. cbn. now rewrite K.
    + cbn in E. injection E as -> E. destruct (IH m1 E) as [u [v [s K]]]. exists (y :: u), v, s. cbn. now rewrite K.
Qed.

Lemma in_before_middle : forall l1 l2 (a b : nat), In a l1 -> before (l1 ++ b :: l2) a b.
Proof.
  intros l1 l2 a b H. apply in_split in H as [u [v ->]]. exists u, v, l2. now rewrite <- app_assoc.
Qed.

Lemma nodup_fwd : forall g, linked g -> NoDup (g_fwd g).
Proof.
  intros g L. pose proof (rd_nodup _ (lk_rendered _ L)) as K. apply nodup_app_r in K. now apply nodup_app_l in K.
Qed.

(* ------------------------------------------------------------------ *)
(* One link goes through a node *)

Record moved (g h : graph) (p y w t c : nat) (idx : list nat) : Prop := {
  mv_linked : linked h;
  mv_in : g_in h = g_in g;
  mv_out : g_out h = g_out g;
  mv_before : forall a b, before (g_fwd g) a b -> before (g_fwd h) a b;
  mv_mem : forall x, In x (g_fwd h) <-> x = w \/ In x (g_fwd g);
  mv_old : forall x, x <> w -> x <> y ->
    n_prevs (g_node h x) = n_prevs (g_node g x) /\ n_prevt (g_node h x) = n_prevt (g_node g x) /\
    n_previ (g_node h x) = n_previ (g_node g x);
  mv_rev : forall x, x <> w -> n_rev (g_node h x) = n_rev (g_node g x);
  mv_nextt : forall x, x <> w -> n_nextt (g_node h x) = n_nextt (g_node g x);
  mv_nexts : forall x, x <> w -> x <> p -> n_nexts (g_node h x) = n_nexts (g_node g x);
  mv_y_prevs : n_prevs (g_node h y) = map (fun q => if q =? p then w else q) (n_prevs (g_node g y));
  mv_y_prevt : n_prevt (g_node h y) = map (fun s => if s =? t then c else s) (n_prevt (g_node g y));
  mv_y_previ : forall i s j, nth_error (n_prevt (g_node g y)) i = Some s -> nth_error (n_previ (g_node g y)) i = Some j ->
    nth_error (n_previ (g_node h y)) i = Some (if s =? t then [] else j);
  mv_y_at : forall i s, nth_error (n_prevs (g_node g y)) i = Some s ->
    exists r j, nth_error (n_prevt (g_node g y)) i = Some r /\ nth_error (n_previ (g_node g y)) i = Some j /\
      In r (produced (g_node g s)) /\ (s = p <-> r = t) /\ (s = p -> j = idx);
  mv_w_prevs : n_prevs (g_node h w) = [p];
  mv_w_prevt : nth_error (n_prevt (g_node h w)) 0 = Some t;
  mv_w_previ : nth_error (n_previ (g_node h w)) 0 = Some idx;
  mv_w_out : exists rest, outputs_of (g_node h w) (c :: rest);
  mv_w_prod : forall s, In s (produced (g_node h w)) -> In s (produced (g_node g w)) \/ g_tensor g <= s;
  mv_w_fwd : (In w (g_fwd g) /\ n_prevs (g_node g w) = [p]) \/ w = g_fresh g;
  mv_wy : before (g_fwd h) w y;
  mv_pw : In p (g_fwd g) -> before (g_fwd h) p w;
  mv_neq : w <> y /\ p <> y /\ p <> w;
  mv_p : In p (n_prevs (g_node g y));
  mv_y_w : ~ In w (n_prevs (g_node g y));
  mv_readers : forall x i, live g x -> nth_error (n_prevs (g_node g x)) i = Some w ->
    nth_error (n_prevt (g_node g x)) i = Some c /\ nth_error (n_previ (g_node g x)) i = Some [];
  mv_fresh : g_fresh g <= g_fresh h;
  mv_w_fresh : w < g_fresh h;
  mv_run : forall V pick attr (sem : nat -> list V -> option V) f vs, sem w = call1 f ->
    run pick attr sem (plain h) vs =
    run pick attr (with_sem sem y (through f (map (fun q => q =? p) (n_prevs (g_node g y))) (sem y))) (plain g) vs
}.

Lemma moved_live : forall g h p y w t c idx x, moved g h p y w t c idx -> live h x -> x = w \/ live g x.
Proof.
  intros g h p y w t c idx x M [H|H].
  - apply (mv_mem _ _ _ _ _ _ _ _ M) in H as [H|H]; [now left|right; now left].
  - rewrite (mv_out _ _ _ _ _ _ _ _ M) in H. right. now right.
Qed.

Section Single.
  Variables (n : nat) (g : graph).
  Variables p y t : nat.
  Hypothesis T : tidy n g.
  Hypothesis Hy : In y (g_fwd g).
  Hypothesis Hyn : y < n.
  Hypothesis Hp : In p (n_prevs (g_node g y)).
  Hypothesis Ht : In t (produced (g_node g p)).
  Hypothesis Hyt : In t (n_prevt (g_node g y)).

  Let L := td_linked _ _ T.
  Let Ly : live g y := or_introl Hy.

  Lemma sg_align : length (n_prevt (g_node g y)) = length (n_prevs (g_node g y)).
  Proof. apply (td_align _ _ T); assumption. Qed.

  Lemma sg_pos : exists i, nth_error (n_prevs (g_node g y)) i = Some p /\ nth_error (n_prevt (g_node g y)) i = Some t.
  Proof.
    apply In_nth_error in Hyt as [i Hi].
    destruct (nth_error (n_prevs (g_node g y)) i) as [q|] eqn:Eq.
    - exists i. split; [|exact Hi]. destruct (lk_prev _ L y i q Ly Eq) as [_ [_ [s [K1 K2]]]].
      assert (s = t) by congruence. subst s. rewrite Eq. f_equal. exact (td_unique _ _ T q p t K2 Ht).
    - apply nth_error_None in Eq. assert (i < length (n_prevt (g_node g y))) by (apply nth_error_Some; congruence).
      pose proof sg_align. lia.
  Qed.

  Lemma sg_one : exists idx, forall i, nth_error (n_prevs (g_node g y)) i = Some p ->
     nth_error (n_prevt (g_node g y)) i = Some t /\ nth_error (n_previ (g_node g y)) i = Some idx.
  Proof.
    destruct sg_pos as [i [H1 H2]].
    assert (Hl : i < length (n_previ (g_node g y))).
    { assert (i < length (n_prevs (g_node g y))) by (apply nth_error_Some; congruence).
      pose proof (rd_align _ (lk_rendered _ L) y Ly). lia. }
    apply nth_error_Some in Hl. destruct (nth_error (n_previ (g_node g y)) i) as [idx|] eqn:Ei; [|congruence].
    exists idx. intros j Hj. destruct (td_same _ _ T y i j p Ly H1 Hj) as [K1 K2]. split; congruence.
  Qed.

  Lemma sg_neq : p <> y.
  Proof.
    intros E. destruct (td_topo _ _ T y p Hy Hp) as [K|[_ K]].
    - apply before_neq in K; [contradiction|]. now apply nodup_fwd.
    - contradiction.
  Qed.

  Lemma moved_new : exists h c idx, insert_between g p y KMod None true (Some [t]) = Some h /\
    moved g h p y (g_fresh g) t c idx /\ g_fresh h = S (g_fresh g).
  Proof.
    destruct sg_one as [idx Hone]. pose proof sg_neq as Hpy. pose proof sg_align as Hal.
    destruct (index_of_In y (g_fwd g) Hy) as [i Ei]. pose proof Ei as Es.
    apply index_of_split in Es as [l1 [l2 [El [Ei' _]]]].
    assert (Hgiven : match @None nat with Some m => 1 <= m | None => True end) by exact I.
    assert (Hptrs : match Some [t] with Some l => In t l | None => True end) by (now left).
    assert (Hk : KMod = KMod \/ exists c, KMod = KFun c [mkref (is_const (n_kind (g_node g p))) p idx]) by (now left).
    destruct (bt_eq g p y t idx KMod None (Some [t]) L Ly l1 (y :: l2) Hp Hpy Hal Hone Hgiven Hptrs Hk) as [bi [E [H1 H2]]].
    pose proof (linked_between g p y t idx KMod None (Some [t]) L Ly l1 (y :: l2) El Hp Hpy Hal Hone Hgiven Hptrs Hk bi H1 H2) as Lh.
    set (w := g_fresh g) in *.
    set (h := bt_graph g p y t KMod None (Some [t]) l1 (y :: l2) bi) in *.
    assert (Hyw : y < w) by (eapply bt_y; eassumption).
    assert (Hpw : p < w) by (eapply bt_p; eassumption).
    exists h, (g_tensor g), idx. split.
    { unfold insert_between. rewrite (proj2 (mem_In _ _) Hp), (proj2 (mem_In _ _)).
      - cbn [andb negb]. rewrite Ei. cbn [bind]. rewrite El, <- Ei', insert_at_before. exact E.
      - pose proof Hp as Hp'. apply In_nth_error in Hp' as [j Hj]. now destruct (lk_prev _ L y j p Ly Hj) as [_ [K _]]. }
    assert (Ez : exists z', combine (gather (Some [t]) (n_nextt (g_node g p)) (combine (n_prevt (g_node g y)) (n_previ (g_node g y))))
       (new_tensors g None (length (gather (Some [t]) (n_nextt (g_node g p)) (combine (n_prevt (g_node g y)) (n_previ (g_node g y))))))
       = ((t, idx), g_tensor g) :: z' /\ (forall e, In e (((t, idx), g_tensor g) :: z') -> fst e = (t, idx) /\ g_tensor g <= snd e)).
    { destruct (bt_z g p y t idx KMod None (Some [t]) L Ly Hp Hpy Hal Hone Hgiven Hptrs) as [z' [Ez Hz]]. exists z'. split; [exact Ez|].
      intros e He. rewrite <- Ez in He. destruct (Hz e He) as [K1 K2]. split; [exact K1|]. lia. }
    destruct Ez as [z' [Ez Hz]].
    assert (Nw : g_node h w = mknode KMod [p] [y] (map (fun e => fst (fst e)) (((t, idx), g_tensor g) :: z'))
       (map (fun e => TT (snd e)) (((t, idx), g_tensor g) :: z')) (map (fun e => snd (fst e)) (((t, idx), g_tensor g) :: z')) 0 false).
    { unfold h. unfold w. rewrite bt_node_w by assumption. rewrite <- Ez. reflexivity. }
    assert (No : forall x, x <> p -> x <> y -> x <> w -> g_node h x = g_node g x).
    { intros x K1 K2 K3. unfold h. rewrite bt_nodes. fold w. destruct (Nat.eqb_spec x p); [contradiction|].
      destruct (Nat.eqb_spec x y); [contradiction|]. destruct (Nat.eqb_spec x w); [contradiction|]. reflexivity. }
    assert (Np : g_node h p = set_nexts (g_node g p) (replace_first y w (n_nexts (g_node g p)))).
    { unfold h. rewrite bt_nodes. now rewrite Nat.eqb_refl. }
    assert (Ny : g_node h y = bt_node g p y t bi).
    { unfold h. rewrite bt_nodes. destruct (Nat.eqb_spec y p); [congruence|]. now rewrite Nat.eqb_refl. }
    split; [|reflexivity]. constructor.
    - exact Lh.
    - reflexivity.
    - reflexivity.
    - intros a b K. change (g_fwd h) with (l1 ++ w :: y :: l2). rewrite El in K. now apply before_insert.
    - intros x. change (g_fwd h) with (l1 ++ w :: y :: l2). rewrite El. repeat (rewrite in_app_iff; cbn).
      split; intuition.
    - intros x K1 K2. destruct (Nat.eq_dec x p) as [->|K3]; [rewrite Np; repeat split|]. rewrite No by assumption. repeat split.
    - intros x K1. destruct (Nat.eq_dec x p) as [->|K3]; [now rewrite Np|].
      destruct (Nat.eq_dec x y) as [->|K2]; [now rewrite Ny|]. now rewrite No.
    - intros x K1. destruct (Nat.eq_dec x p) as [->|K3]; [now rewrite Np|].
      destruct (Nat.eq_dec x y) as [->|K2]; [now rewrite Ny|]. now rewrite No.
    - intros x K1 K3. destruct (Nat.eq_dec x y) as [->|K2]; [now rewrite Ny|]. now rewrite No.
    - now rewrite Ny.
    - now rewrite Ny.
    - rewrite Ny. exact H2.
    - intros j s K.
      destruct (bt_at g p y t idx L Ly Hp Hpy Hal Hone j s K) as [r [k [K1 [K2 [K3 K4]]]]].
      exists r, k. repeat (split; [assumption|]). intros ->. destruct (Hone j K). congruence.
    - now rewrite Nw.
    - now rewrite Nw.
    - now rewrite Nw.
    - exists (map snd z'). rewrite Nw. unfold outputs_of. cbn. now rewrite map_map.
    - intros s K. right. rewrite Nw in K. unfold produced in K. cbn [n_nextt] in K.
      apply in_flat_map in K as [it [K1 K2]]. apply in_map_iff in K1 as [e [<- K1]]. destruct K2 as [<-|[]]. now apply Hz.
    - now right.
    - exists l1, [], l2. reflexivity.
    - intros K. change (g_fwd h) with (l1 ++ w :: y :: l2). apply in_before_middle.
      destruct (td_topo _ _ T y p Hy Hp) as [B|[B _]]; [|contradiction].
      destruct B as [m1 [m2 [m3 B]]]. pose proof (nodup_fwd g L) as Hd. rewrite El in B, Hd.
      replace (m1 ++ p :: m2 ++ y :: m3) with ((m1 ++ p :: m2) ++ y :: m3) in B by (now rewrite <- app_assoc).
      destruct (split_once _ _ _ _ _ Hd B) as [-> _]. rewrite in_app_iff. cbn. tauto.
    - repeat split; [lia|exact Hpy|lia].
    - exact Hp.
    - intros K. pose proof (lk_fresh_prev _ L y w Ly K). unfold w in *. lia.
    - intros x j Hx K. apply nth_error_In in K. pose proof (lk_fresh_prev _ L x w Hx K). unfold w in *. lia.
    - cbn. lia.
    - cbn. lia.
    - intros V pick attr sem f vs Hs.
      rewrite <- (run_insert_between g p y t idx KMod None (Some [t]) L Ly l1 (y :: l2) El Hp Hpy Hal Hone Hgiven Hptrs Hk
                    bi H1 H2 l2 eq_refl V pick attr sem f vs).
      fold h. apply run_agree. intros x us _. unfold with_sem. fold w.
      destruct (Nat.eqb_spec x w) as [->|]; [now rewrite Hs|reflexivity].
  Qed.

  Lemma moved_old : forall w c rest, In w (g_fwd g) -> n_prevs (g_node g w) = [p] ->
    nth_error (n_prevt (g_node g w)) 0 = Some t -> outputs_of (g_node g w) (c :: rest) ->
    (forall x i, live g x -> nth_error (n_prevs (g_node g x)) i = Some w ->
       nth_error (n_prevt (g_node g x)) i = Some c /\ nth_error (n_previ (g_node g x)) i = Some []) ->
    ~ In w (n_prevs (g_node g y)) -> before (g_fwd g) w y ->
    exists h idx, insert_existing g p y w true (Some [t]) = Some h /\ moved g h p y w t c idx /\ g_fresh h = g_fresh g.
  Proof.
    intros w c rest Hw Hwp Hwt Hwo Hwr Hyw Hb.
    destruct sg_one as [idx Hone]. pose proof sg_neq as Hpy. pose proof sg_align as Hal.
    assert (Lw : live g w) by (now left). pose proof (nodup_fwd g L) as Hd.
    assert (Hwy : w <> y) by (eapply before_neq; eassumption).
    assert (Hpw : p <> w).
    { intros E. destruct (td_topo _ _ T w p Hw) as [K|[_ K]]; [rewrite Hwp; now left|..].
      - apply before_neq in K; [contradiction|exact Hd].
      - contradiction. }
    assert (Hwi : nth_error (n_previ (g_node g w)) 0 = Some idx).
    { destruct sg_pos as [i [K1 K2]]. destruct (Hone i K1) as [_ K3]. rewrite <- K3.
      apply (td_index _ _ T w y 0 i p t Lw Ly); [now rewrite Hwp|exact K1|exact Hwt|exact K2]. }
    assert (Hptrs : match Some [t] with Some l => In t l | None => True end) by (now left).
    assert (Hwr' : forall x i, live g x -> nth_error (n_prevs (g_node g x)) i = Some w ->
       nth_error (n_prevt (g_node g x)) i = Some c) by (intros x i K1 K2; now apply Hwr).
    pose proof (td_unique _ _ T) as Hu.
    destruct (ex_eq g p y w t c idx rest (Some [t]) L Ly Hw Hp Hpy Hpw Hwy Hal Hone Hptrs Hwp Hwo) as [b [E [H1 H2]]].
    pose proof (linked_existing g p y w t c idx rest (Some [t]) L Ly Hw Hp Hpy Hpw Hwy Hal Hone Hptrs Hwp Hwi Hwo Hwr' Hu b H1 H2) as Lh.
    destruct (ex_z g p y t c idx rest (Some [t]) L Ly Hp Hpy Hal Hone Hptrs) as [z' [Ez Hz]].
    assert (Nw : g_node (ex_graph g p y w t c rest (Some [t]) b) w = mknode (n_kind (g_node g w)) [p]
       (if mem y (n_nexts (g_node g w)) then n_nexts (g_node g w) else n_nexts (g_node g w) ++ [y])
       (map (fun e => fst (fst e)) (((t, idx), c) :: z'))
       (map (fun e => TT (snd e)) (((t, idx), c) :: z')) (map (fun e => snd (fst e)) (((t, idx), c) :: z'))
       (n_order (g_node g w)) (n_rev (g_node g w))).
    { rewrite ex_nodes. destruct (Nat.eqb_spec w p); [congruence|]. destruct (Nat.eqb_spec w y); [congruence|].
      rewrite Nat.eqb_refl. unfold ex_w. rewrite Ez. reflexivity. }
    rewrite Ez in Hz.
    set (h := ex_graph g p y w t c rest (Some [t]) b) in *.
    assert (No : forall x, x <> p -> x <> y -> x <> w -> g_node h x = g_node g x).
    { intros x K1 K2 K3. unfold h. rewrite ex_nodes. destruct (Nat.eqb_spec x p); [contradiction|].
      destruct (Nat.eqb_spec x y); [contradiction|]. destruct (Nat.eqb_spec x w); [contradiction|]. reflexivity. }
    assert (Np : g_node h p = set_nexts (g_node g p) (replace_first y w (n_nexts (g_node g p)))).
    { unfold h. rewrite ex_nodes. now rewrite Nat.eqb_refl. }
    assert (Ny : g_node h y = ex_y g p y w t c b).
    { unfold h. rewrite ex_nodes. destruct (Nat.eqb_spec y p); [congruence|]. now rewrite Nat.eqb_refl. }
    assert (Hbp : In p (g_fwd g) -> before (g_fwd g) p w).
    { intros K. destruct (td_topo _ _ T w p Hw) as [B|[B _]]; [rewrite Hwp; now left|exact B|contradiction]. }
    exists h, idx. split; [exact E|]. split; [|reflexivity]. constructor.
    - exact Lh.
    - reflexivity.
    - reflexivity.
    - intros a a' K. exact K.
    - intros x. change (g_fwd h) with (g_fwd g). split; [tauto|]. intros [->|K]; assumption.
    - intros x K1 K2. destruct (Nat.eq_dec x p) as [->|K3]; [rewrite Np; repeat split|]. rewrite No by assumption. repeat split.
    - intros x K1. destruct (Nat.eq_dec x p) as [->|K3]; [now rewrite Np|].
      destruct (Nat.eq_dec x y) as [->|K2]; [now rewrite Ny|]. now rewrite No.
    - intros x K1. destruct (Nat.eq_dec x p) as [->|K3]; [now rewrite Np|].
      destruct (Nat.eq_dec x y) as [->|K2]; [now rewrite Ny|]. now rewrite No.
    - intros x K1 K3. destruct (Nat.eq_dec x y) as [->|K2]; [now rewrite Ny|]. now rewrite No.
    - now rewrite Ny.
    - now rewrite Ny.
    - rewrite Ny. exact H2.
    - intros j s K.
      destruct (bt_at g p y t idx L Ly Hp Hpy Hal Hone j s K) as [r [k [K1 [K2 [K3 K4]]]]].
      exists r, k. repeat (split; [assumption|]). intros ->. destruct (Hone j K). congruence.
    - now rewrite Nw.
    - now rewrite Nw.
    - now rewrite Nw.
    - exists (map snd z'). rewrite Nw. unfold outputs_of. cbn. now rewrite map_map.
    - intros s K. left. rewrite Nw in K. unfold produced in K. cbn [n_nextt] in K.
      apply in_flat_map in K as [it [K1 K2]]. apply in_map_iff in K1 as [e [<- K1]]. destruct K2 as [<-|[]].
      destruct (Hz e K1) as [_ K3]. unfold produced. rewrite Hwo. apply in_flat_map. exists (TT (snd e)).
      split; [now apply in_map|now left].
    - left. now split.
    - exact Hb.
    - exact Hbp.
    - repeat split; assumption.
    - exact Hp.
    - exact Hyw.
    - exact Hwr.
    - cbn. lia.
    - cbn. apply (lk_fresh _ L). right. now left.
    - intros V pick attr sem f vs Hs. pose proof Hb as Hb'. destruct Hb' as [l1 [l2 [l3 E0]]].
      eapply run_insert_existing; try eassumption.
      + intros K. assert (Hp' : In p (g_fwd g)) by (rewrite E0; repeat (rewrite in_app_iff; cbn); tauto).
        destruct (Hbp Hp') as [m1 [m2 [m3 B]]]. rewrite E0 in B, Hd.
        replace (m1 ++ p :: m2 ++ w :: m3) with ((m1 ++ p :: m2) ++ w :: m3) in B by (now rewrite <- app_assoc).
        destruct (split_once _ _ _ _ _ Hd B) as [B1 _]. rewrite B1 in Hd.
        rewrite <- app_assoc in Hd. cbn in Hd. apply NoDup_remove_2 in Hd. apply Hd.
        repeat (rewrite in_app_iff; cbn). tauto.
      + intros v. rewrite Hs. reflexivity.
  Qed.
End Single.

(* ------------------------------------------------------------------ *)
(* What an insertion keeps *)

Section Moved.
  Variables (n : nat) (g h : graph) (p y w t c : nat) (idx : list nat).
  Hypothesis T : tidy n g.
  Hypothesis Hy : In y (g_fwd g).
  Hypothesis Hn : n <= w.
  Hypothesis M : moved g h p y w t c idx.

  Lemma mv_prevs : forall x, x <> w -> x <> y -> n_prevs (g_node h x) = n_prevs (g_node g x).
  Proof. intros x H1 H2. now destruct (mv_old _ _ _ _ _ _ _ _ M x H1 H2). Qed.

  Lemma mv_live : forall x, x <> w -> live h x -> live g x.
  Proof. intros x Hx H. destruct (moved_live _ _ _ _ _ _ _ _ x M H); tauto. Qed.

  (* where the new links come from *)
  Lemma mv_from : forall x i q, x <> w -> live h x -> nth_error (n_prevs (g_node h x)) i = Some q ->
    (q <> w /\ nth_error (n_prevs (g_node g x)) i = Some q /\
       nth_error (n_prevt (g_node h x)) i = nth_error (n_prevt (g_node g x)) i /\
       nth_error (n_previ (g_node h x)) i = nth_error (n_previ (g_node g x)) i) \/
    (q = w /\ nth_error (n_prevt (g_node h x)) i = Some c /\ nth_error (n_previ (g_node h x)) i = Some [] /\
       ((x = y /\ nth_error (n_prevs (g_node g y)) i = Some p) \/
        (x <> y /\ nth_error (n_prevs (g_node g x)) i = Some w))).
  Proof.
    intros x i q Hxw Hl H. pose proof (mv_live x Hxw Hl) as Hlg.
    destruct (Nat.eq_dec x y) as [->|Hxy].
    - rewrite (mv_y_prevs _ _ _ _ _ _ _ _ M), nth_error_map in H.
      destruct (nth_error (n_prevs (g_node g y)) i) as [s|] eqn:Es; [|discriminate]. cbn in H.
      destruct (mv_y_at _ _ _ _ _ _ _ _ M i s Es) as [r [j [K1 [K2 [K3 [K4 K5]]]]]].
      rewrite (mv_y_prevt _ _ _ _ _ _ _ _ M), nth_error_map, K1. cbn [option_map].
      rewrite (mv_y_previ _ _ _ _ _ _ _ _ M i r j K1 K2).
      destruct (Nat.eqb_spec s p) as [->|Hs].
      + right. assert (q = w) by congruence. subst q. rewrite (proj1 K4 eq_refl), Nat.eqb_refl.
        repeat split. left. split; reflexivity.
      + left. assert (q = s) by congruence. subst q. split.
        * intros ->. apply (mv_y_w _ _ _ _ _ _ _ _ M). eapply nth_error_In; eassumption.
        * destruct (Nat.eqb_spec r t) as [->|]; [tauto|]. repeat split; congruence.
    - destruct (mv_old _ _ _ _ _ _ _ _ M x Hxw Hxy) as [E1 [E2 E3]]. rewrite E1 in H. rewrite E2, E3.
      destruct (Nat.eq_dec q w) as [->|Hq].
      + right. destruct (mv_readers _ _ _ _ _ _ _ _ M x i Hlg H) as [K1 K2]. repeat split; auto.
      + left. repeat split; auto.
  Qed.

  Lemma tidy_moved : tidy n h.
  Proof.
    pose proof (mv_linked _ _ _ _ _ _ _ _ M) as Lh. pose proof (td_linked _ _ T) as L.
    destruct (mv_neq _ _ _ _ _ _ _ _ M) as [Hwy [Hpy Hpw]].
    pose proof (or_introl Hy : live g y) as Ly.
    (* the reader [y] of [p] in the old graph *)
    assert (Hpos : exists i, nth_error (n_prevs (g_node g y)) i = Some p /\ nth_error (n_prevt (g_node g y)) i = Some t /\
              nth_error (n_previ (g_node g y)) i = Some idx).
    { pose proof (mv_p _ _ _ _ _ _ _ _ M) as K. apply In_nth_error in K as [i Ki]. exists i. split; [exact Ki|].
      destruct (mv_y_at _ _ _ _ _ _ _ _ M i p Ki) as [r [j [K1 [K2 [_ [K4 K5]]]]]].
      rewrite (K5 eq_refl) in K2. rewrite (proj1 K4 eq_refl) in K1. now split. }
    constructor.
    - exact Lh.
    - intros x Hx Hl. assert (Hxw : x <> w) by lia. pose proof (mv_live x Hxw Hl) as Hlg.
      destruct (Nat.eq_dec x y) as [->|Hxy].
      + rewrite (mv_y_prevs _ _ _ _ _ _ _ _ M), (mv_y_prevt _ _ _ _ _ _ _ _ M), !map_length. now apply (td_align _ _ T).
      + destruct (mv_old _ _ _ _ _ _ _ _ M x Hxw Hxy) as [-> [-> _]]. now apply (td_align _ _ T).
    - intros x i j q Hl Hi Hj. destruct (Nat.eq_dec x w) as [->|Hxw].
      + rewrite (mv_w_prevs _ _ _ _ _ _ _ _ M) in Hi, Hj. destruct i as [|[|i]]; try discriminate.
        destruct j as [|[|j]]; try discriminate. now split.
      + destruct (mv_from x i q Hxw Hl Hi) as [[A1 [A2 [A3 A4]]]|[A1 [A2 [A3 A4]]]];
          destruct (mv_from x j q Hxw Hl Hj) as [[B1 [B2 [B3 B4]]]|[B1 [B2 [B3 B4]]]]; try contradiction.
        * rewrite A3, A4, B3, B4. apply (td_same _ _ T x i j q); [now apply mv_live|assumption|assumption].
        * split; congruence.
    - intros x z i j q s Hlx Hlz Hi Hj Hs Hs'.
      assert (Hwz : forall z i, z <> w -> live h z -> nth_error (n_prevs (g_node h z)) i = Some p ->
                nth_error (n_prevt (g_node h z)) i = Some t -> nth_error (n_previ (g_node h z)) i = Some idx).
      { clear x z i j q s Hlx Hlz Hi Hj Hs Hs'. intros z i Hz Hl Hi Hs.
        destruct (mv_from z i p Hz Hl Hi) as [[A1 [A2 [A3 A4]]]|[A1 _]]; [|congruence].
        rewrite A4. rewrite A3 in Hs. destruct Hpos as [j [K1 [K2 K3]]]. rewrite <- K3.
        apply (td_index _ _ T z y i j p t); auto. now apply mv_live. }
      destruct (Nat.eq_dec x w) as [->|Hxw]; destruct (Nat.eq_dec z w) as [->|Hzw].
      + rewrite (mv_w_prevs _ _ _ _ _ _ _ _ M) in Hi, Hj. destruct i as [|[|i]]; try discriminate.
        destruct j as [|[|j]]; try discriminate. reflexivity.
      + rewrite (mv_w_prevs _ _ _ _ _ _ _ _ M) in Hi. destruct i as [|[|i]]; try discriminate. cbn in Hi.
        rewrite (mv_w_prevt _ _ _ _ _ _ _ _ M) in Hs. rewrite (mv_w_previ _ _ _ _ _ _ _ _ M).
        symmetry. apply Hwz; try assumption; congruence.
      + rewrite (mv_w_prevs _ _ _ _ _ _ _ _ M) in Hj. destruct j as [|[|j]]; try discriminate. cbn in Hj.
        rewrite (mv_w_prevt _ _ _ _ _ _ _ _ M) in Hs'. rewrite (mv_w_previ _ _ _ _ _ _ _ _ M).
        apply Hwz; try assumption; congruence.
      + destruct (mv_from x i q Hxw Hlx Hi) as [[A1 [A2 [A3 A4]]]|[A1 [A2 [A3 A4]]]];
          destruct (mv_from z j q Hzw Hlz Hj) as [[B1 [B2 [B3 B4]]]|[B1 [B2 [B3 B4]]]]; try contradiction.
        * rewrite A4, B4. apply (td_index _ _ T x z i j q s); try (now apply mv_live); congruence.
        * congruence.
    - assert (Hp' : forall q s, q <> w -> In s (produced (g_node h q)) -> In s (produced (g_node g q))).
      { intros q s Hq. unfold produced. now rewrite (mv_nextt _ _ _ _ _ _ _ _ M q Hq). }
      assert (Hw' : forall q s, q <> w -> In s (produced (g_node h w)) -> In s (produced (g_node h q)) -> q = w).
      { intros q s Hq K1 K2. apply Hp' in K2; [|exact Hq].
        destruct (mv_w_prod _ _ _ _ _ _ _ _ M s K1) as [K|K]; [exact (td_unique _ _ T q w s K2 K)|].
        pose proof (lk_tensor _ L q s K2). lia. }
      intros q q' s K1 K2. destruct (Nat.eq_dec q w) as [->|Hq]; destruct (Nat.eq_dec q' w) as [->|Hq']; [reflexivity|..].
      + symmetry. now apply (Hw' q' s).
      + now apply (Hw' q s).
      + apply (td_unique _ _ T q q' s); auto.
    - intros x q Hx Hq. destruct (Nat.eq_dec x w) as [->|Hxw].
      + rewrite (mv_w_prevs _ _ _ _ _ _ _ _ M) in Hq. destruct Hq as [<-|[]].
        destruct (in_dec Nat.eq_dec p (g_fwd g)) as [K|K]; [left; now apply (mv_pw _ _ _ _ _ _ _ _ M)|].
        right. split; [|exact Hpw]. intros K'. apply (mv_mem _ _ _ _ _ _ _ _ M) in K' as [K'|K']; contradiction.
      + pose proof (or_introl Hx : live h x) as Hl. apply In_nth_error in Hq as [i Hi].
        assert (Hxg : In x (g_fwd g)).
        { apply (mv_mem _ _ _ _ _ _ _ _ M) in Hx as [Hx|Hx]; [contradiction|exact Hx]. }
        destruct (mv_from x i q Hxw Hl Hi) as [[A1 [A2 _]]|[-> [_ [_ [[-> A4]|[Hxy A4]]]]]].
        * destruct (td_topo _ _ T x q Hxg (nth_error_In _ _ A2)) as [K|[K1 K2]].
          -- left. now apply (mv_before _ _ _ _ _ _ _ _ M).
          -- right. split; [|exact K2]. intros K'. apply (mv_mem _ _ _ _ _ _ _ _ M) in K' as [K'|K']; contradiction.
        * left. exact (mv_wy _ _ _ _ _ _ _ _ M).
        * destruct (td_topo _ _ T x w Hxg (nth_error_In _ _ A4)) as [K|[K1 K2]].
          -- left. now apply (mv_before _ _ _ _ _ _ _ _ M).
          -- exfalso. destruct (mv_w_fwd _ _ _ _ _ _ _ _ M) as [[K _]|K]; [contradiction|].
             pose proof (lk_fresh_prev _ L x w (or_introl Hxg) (nth_error_In _ _ A4)). lia.
  Qed.

  Lemma inner_moved : forall x, x <> p -> x <> w -> inner g x -> inner h x.
  Proof.
    intros x Hxp Hxw [I1 I2]. constructor; rewrite (mv_nexts _ _ _ _ _ _ _ _ M x Hxw Hxp).
    - intros z Hz. apply (mv_mem _ _ _ _ _ _ _ _ M). right. now apply I1.
    - intros z z' Hl H1 H2. assert (Hin : forall z, In z (n_nexts (g_node g x)) -> In x (n_prevs (g_node h z)) -> In x (n_prevs (g_node g z))).
      { clear z z' Hl H1 H2. intros z Hz K. destruct (Nat.eq_dec z w) as [->|Hzw].
        - rewrite (mv_w_prevs _ _ _ _ _ _ _ _ M) in K. destruct K as [K|[]]. congruence.
        - assert (Hlz : live h z) by (left; apply (mv_mem _ _ _ _ _ _ _ _ M); right; now apply I1).
          apply In_nth_error in K as [i Hi]. destruct (mv_from z i x Hzw Hlz Hi) as [[_ [A2 _]]|[A1 _]]; [|contradiction].
          eapply nth_error_In; eassumption. }
      apply (mv_before _ _ _ _ _ _ _ _ M). apply I2; [exact Hl|..]; apply Hin; try assumption;
        destruct Hl as [l1 [l2 [-> [K _]]]]; rewrite in_app_iff; cbn; tauto.
  Qed.
End Moved.

(* ------------------------------------------------------------------ *)
(* Lists *)

Lemma distinct_iff : forall l seen x, In x (distinct seen l) <-> In x l /\ ~ In x seen.
Proof.
  induction l as [|a l IH]; intros seen x; cbn; [tauto|].
  destruct (mem a seen) eqn:E.
  - apply mem_In in E. rewrite IH. split; [tauto|]. intros [[->|H] H']; tauto.
  - assert (Ha : ~ In a seen) by (rewrite <- mem_In, E; discriminate).
    cbn. rewrite IH. cbn. split.
    + intros [->|[H1 H2]]; [tauto|]. split; [now right|]. tauto.
    + intros [[->|H] H']; [now left|]. destruct (Nat.eq_dec a x) as [->|Hn]; [now left|]. right. tauto.
Qed.

Lemma distinct_NoDup : forall l seen, NoDup (distinct seen l).
Proof.
  induction l as [|a l IH]; intros seen; cbn; [constructor|].
  destruct (mem a seen); [apply IH|]. constructor; [|apply IH]. rewrite distinct_iff. cbn. tauto.
Qed.

Lemma before_cons : forall x l a b, before (x :: l) a b <-> (a = x /\ In b l) \/ before l a b.
Proof.
  intros x l a b. split.
  - intros [[|y l1] [l2 [l3 E]]]; cbn in E; injection E as -> E.
    + left. split; [reflexivity|]. rewrite E, in_app_iff. cbn. tauto.
    + right. now exists l1, l2, l3.
  - intros [[-> H]|[l1 [l2 [l3 ->]]]].
    + apply in_split in H as [u [v ->]]. now exists [], u, v.
    + now exists (x :: l1), l2, l3.
Qed.

Lemma first_split : forall (l : list nat) b, In b l -> exists l1 l2, l = l1 ++ b :: l2 /\ ~ In b l1.
Proof.
  induction l as [|x l IH]; intros b H; [contradiction|].
  destruct (Nat.eq_dec x b) as [->|Hn]; [exists [], l; split; [reflexivity|tauto]|].
  destruct H as [H|H]; [contradiction|]. destruct (IH b H) as [l1 [l2 [-> K]]].
  exists (x :: l1), l2. split; [reflexivity|]. cbn. tauto.
Qed.

Lemma distinct_leads : forall l seen a b, before (distinct seen l) a b -> leads l a b.
Proof.
  induction l as [|x l IH]; intros seen a b H.
  - destruct H as [[|y l1] [l2 [l3 E]]]; discriminate.
  - cbn in H. destruct (mem x seen) eqn:E.
    + pose proof (before_In _ _ _ H) as [_ Hb]. apply distinct_iff in Hb as [_ Hb].
      apply mem_In in E. destruct (IH seen a b H) as [l1 [l2 [-> [K1 K2]]]].
      exists (x :: l1), l2. split; [reflexivity|]. split; [now right|]. cbn. intros [->|K]; contradiction.
    + apply before_cons in H as [[-> Hb]|H].
      * apply distinct_iff in Hb as [Hb Hs]. destruct (first_split l b Hb) as [l1 [l2 [-> K]]].
        exists (x :: l1), l2. split; [reflexivity|]. split; [now left|]. cbn in *. tauto.
      * pose proof (before_In _ _ _ H) as [_ Hb]. apply distinct_iff in Hb as [_ Hb].
        destruct (IH (x :: seen) a b H) as [l1 [l2 [-> [K1 K2]]]].
        exists (x :: l1), l2. split; [reflexivity|]. split; [now right|]. cbn in *. tauto.
Qed.

Lemma among_In : forall n t, among (n_nextt n) t = true <-> In t (produced n).
Proof.
  intros n t. unfold among, produced. rewrite existsb_exists, in_flat_map.
  split; intros [it [H1 H2]]; exists it; (split; [exact H1|]); destruct it as [s|ts|k]; cbn in *.
  - apply Nat.eqb_eq in H2. now left.
  - now apply mem_In.
  - discriminate.
  - destruct H2 as [->|[]]. apply Nat.eqb_refl.
  - now apply mem_In.
  - contradiction.
Qed.

Lemma distinct_same : forall l t, (forall s, In s l -> s = t) -> l <> [] -> distinct [] l = [t].
Proof.
  intros [|a l] t H Hn; [congruence|]. cbn. rewrite (H a (or_introl eq_refl)). f_equal.
  destruct (distinct [t] l) as [|b r] eqn:E; [reflexivity|]. exfalso.
  assert (K : In b (distinct [t] l)) by (rewrite E; now left). apply distinct_iff in K as [K1 K2].
  apply K2. left. symmetry. apply H. now right.
Qed.

Section Shared.
  Variables (n : nat) (g : graph) (p y : nat).
  Hypothesis T : tidy n g.
  Hypothesis Hy : In y (g_fwd g).
  Hypothesis Hyn : y < n.

  Let L := td_linked _ _ T.
  Let Ly : live g y := or_introl Hy.

  Lemma sh_at : forall s, In s (n_prevt (g_node g y)) -> In s (produced (g_node g p)) ->
    exists i, nth_error (n_prevs (g_node g y)) i = Some p /\ nth_error (n_prevt (g_node g y)) i = Some s.
  Proof.
    intros s Hs Hp. apply In_nth_error in Hs as [i Hi]. exists i. split; [|exact Hi].
    destruct (nth_error (n_prevs (g_node g y)) i) as [q|] eqn:Eq.
    - destruct (lk_prev _ L y i q Ly Eq) as [_ [_ [r [K1 K2]]]]. assert (r = s) by congruence. subst r.
      f_equal. exact (td_unique _ _ T q p s K2 Hp).
    - apply nth_error_None in Eq. assert (i < length (n_prevt (g_node g y))) by (apply nth_error_Some; congruence).
      pose proof (td_align _ _ T y Hyn Ly). lia.
  Qed.

  Lemma shared_none : ~ In p (n_prevs (g_node g y)) -> shared_ptrs (n_nextt (g_node g p)) (n_prevt (g_node g y)) = [].
  Proof.
    intros H. unfold shared_ptrs. destruct (filter (among (n_nextt (g_node g p))) (n_prevt (g_node g y))) as [|s l] eqn:E; [reflexivity|].
    exfalso. assert (K : In s (s :: l)) by (now left). rewrite <- E in K. apply filter_In in K as [K1 K2].
    apply among_In in K2. destruct (sh_at s K1 K2) as [i [K _]]. apply H. eapply nth_error_In; eassumption.
  Qed.

  Lemma shared_one : In p (n_prevs (g_node g y)) -> exists t,
    shared_ptrs (n_nextt (g_node g p)) (n_prevt (g_node g y)) = [t] /\
    In t (produced (g_node g p)) /\ In t (n_prevt (g_node g y)).
  Proof.
    intros H. apply In_nth_error in H as [i Hi]. destruct (lk_prev _ L y i p Ly Hi) as [_ [_ [t [K1 K2]]]].
    exists t. pose proof (nth_error_In _ _ K1) as K3. split; [|now split].
    unfold shared_ptrs. apply distinct_same.
    - intros s Hs. apply filter_In in Hs as [H1 H2]. apply among_In in H2. destruct (sh_at s H1 H2) as [j [J1 J2]].
      destruct (td_same _ _ T y i j p Ly Hi J1) as [E _]. congruence.
    - intros E. assert (K : In t (filter (among (n_nextt (g_node g p))) (n_prevt (g_node g y)))).
      { apply filter_In. split; [exact K3|]. now apply among_In. }
      rewrite E in K. contradiction.
  Qed.
End Shared.

Lemma assoc_None : forall A (m : list (nat * A)) t w, assoc m t = None -> ~ In (t, w) m.
Proof.
  intros A m t w. induction m as [|[k v] m IH]; cbn; [tauto|].
  destruct (Nat.eqb_spec k t) as [->|Hn]; [discriminate|]. intros E [K|K]; [congruence|]. now apply IH.
Qed.
