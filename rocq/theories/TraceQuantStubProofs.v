(* Proofs about the loop that quantizes the results of an operator. *)
From Coq Require Import List Arith Bool Lia.
From Verif Require Import TraceSpec TraceModel TraceProofs TraceAfterProofs TraceInsertModel TraceTailProofs
  TraceBetweenProofs TraceExistingProofs TraceStubSpec TraceStubModel TraceStubProofs.
Import ListNotations.

(* the same link, or one through a new node *)
Definition relinked (n x : nat) (l l' : list nat) : Prop :=
  Forall2 (fun q q' => q' = q \/ (q = x /\ n <= q')) l l'.

Lemma relinked_refl : forall n x l, relinked n x l l.
Proof. intros n x l. induction l; constructor; auto. Qed.

Lemma relinked_trans : forall n x a b c, x < n -> relinked n x a b -> relinked n x b c -> relinked n x a c.
Proof.
  intros n x a b c Hx H. revert c. induction H as [|q q' a b H1 H2 IH]; intros c K; inversion K as [|? q'' ? c' K1 K2]; subst; constructor.
  - destruct H1 as [->|[-> H1]]; [exact K1|]. destruct K1 as [->|[K1 K3]]; [right; tauto|lia].
  - now apply IH.
Qed.

Lemma relinked_map : forall A n x l l' (s : nat -> A), x < n -> relinked n x l l' ->
  (forall q, n <= q -> s q = s x) -> map s l' = map s l.
Proof.
  intros A n x l l' s Hx H Hs. induction H as [|q q' l l' H1 H2 IH]; [reflexivity|]. cbn. rewrite IH. f_equal.
  destruct H1 as [->|[-> H1]]; [reflexivity|now apply Hs].
Qed.

Lemma new_sems_in : forall V lo hi f (sem : nat -> list V -> option V) z, lo <= z < hi -> new_sems lo hi f sem z = call1 f.
Proof.
  intros V lo hi f sem z [H1 H2]. unfold new_sems.
  rewrite (proj2 (Nat.leb_le _ _) H1), (proj2 (Nat.ltb_lt _ _) H2). reflexivity.
Qed.

Lemma new_sems_out : forall V lo hi f (sem : nat -> list V -> option V) z, z < lo \/ hi <= z -> new_sems lo hi f sem z = sem z.
Proof.
  intros V lo hi f sem z H. unfold new_sems.
  destruct (Nat.leb_spec lo z); destruct (Nat.ltb_spec z hi); cbn; try reflexivity. lia.
Qed.

Lemma new_sems_join : forall V a b c f (sem : nat -> list V -> option V) z, a <= b <= c ->
  new_sems b c f (new_sems a b f sem) z = new_sems a c f sem z.
Proof.
  intros V a b c f sem z H. unfold new_sems.
  destruct (Nat.leb_spec b z); destruct (Nat.ltb_spec z c); destruct (Nat.leb_spec a z); destruct (Nat.ltb_spec z b);
    cbn; try reflexivity; lia.
Qed.

Section Quant.
  Variables (n x : nat) (prop : nat -> bool).
  Hypothesis Hxn : x < n.

  (* an entry of the table: a node behind [x] and in front of its remaining readers *)
  Record kept (g : graph) (ys : list nat) (t w : nat) : Prop := {
    kp_fwd : In w (g_fwd g);
    kp_new : n <= w;
    kp_prevs : n_prevs (g_node g w) = [x];
    kp_prevt : nth_error (n_prevt (g_node g w)) 0 = Some t;
    kp_out : exists c rest, outputs_of (g_node g w) (c :: rest) /\
      (forall z i, live g z -> nth_error (n_prevs (g_node g z)) i = Some w ->
         nth_error (n_prevt (g_node g z)) i = Some c /\ nth_error (n_previ (g_node g z)) i = Some []);
    kp_before : forall y, In y ys -> In x (n_prevs (g_node g y)) -> before (g_fwd g) w y /\ ~ In w (n_prevs (g_node g y))
  }.

  Lemma kept_less : forall g y ys t w, kept g (y :: ys) t w -> kept g ys t w.
  Proof. intros g y ys t w [A B C D E F]. constructor; auto. intros z Hz. apply F. now right. Qed.

  (* the links and lists of the graph *)
  Record grown (g h : graph) : Prop := {
    gr_n : n <= g_fresh g;
    gr_tidy : tidy n h;
    gr_fresh : g_fresh g <= g_fresh h;
    gr_fwd : forall z, In z (g_fwd g) -> In z (g_fwd h);
    gr_new : forall z, In z (g_fwd h) -> In z (g_fwd g) \/ g_fresh g <= z < g_fresh h;
    gr_inner : forall z, z <> x -> z < n -> inner g z -> inner h z;
    gr_prevs : forall z, In z (g_fwd g) -> relinked n x (n_prevs (g_node g z)) (n_prevs (g_node h z));
    gr_same : forall z, n <= z < g_fresh g -> n_prevs (g_node h z) = n_prevs (g_node g z);
    gr_stub : forall z, g_fresh g <= z < g_fresh h -> n_prevs (g_node h z) = [x];
    gr_nexts : forall z, z <> x -> z < n -> n_nexts (g_node h z) = n_nexts (g_node g z);
    gr_rev : forall z, z < n -> n_rev (g_node h z) = n_rev (g_node g z);
    gr_io : g_in h = g_in g /\ g_out h = g_out g
  }.

  Lemma grown_refl : forall g, tidy n g -> n <= g_fresh g -> grown g g.
  Proof.
    intros g T Hn. constructor; auto.
    - intros. apply relinked_refl.
    - intros. lia.
  Qed.

  Lemma grown_trans : forall a b c, grown a b -> grown b c -> grown a c.
  Proof.
    intros a b c [A0 A1 A2 A3 A4 A5 A6 As A7 An A8 [A9 A10]] [B0 B1 B2 B3 B4 B5 B6 Bs B7 Bn B8 [B9 B10]]. constructor; auto.
    - lia.
    - intros z Hz. destruct (B4 z Hz) as [K|K]; [destruct (A4 z K) as [K'|K']; [now left|right; lia]|right; lia].
    - intros z Hz. eapply relinked_trans; [exact Hxn|now apply A6|]. apply B6. now apply A3.
    - intros z Hz. rewrite Bs by lia. now apply As.
    - intros z Hz. destruct (le_lt_dec (g_fresh b) z) as [K|K]; [apply B7; lia|].
      rewrite Bs by lia. apply A7. lia.
    - intros z Hzx Hz. rewrite Bn by assumption. now apply An.
    - intros z Hz. rewrite B8 by exact Hz. now apply A8.
    - split; congruence.
  Qed.

  Lemma grown_moved : forall g h y w t c idx, tidy n g -> n <= g_fresh g -> In y (g_fwd g) -> y < n -> n <= w ->
    moved g h x y w t c idx -> (w = g_fresh g /\ g_fresh h = S (g_fresh g)) \/ (In w (g_fwd g) /\ g_fresh h = g_fresh g) ->
    grown g h.
  Proof.
    intros g h y w t c idx T Hf Hy Hyn Hw M Hfr.
    assert (Hpw : n_prevs (g_node h w) = [x]) by exact (mv_w_prevs _ _ _ _ _ _ _ _ M).
    assert (Hwg : In w (g_fwd g) -> n_prevs (g_node g w) = [x]).
    { intros K. destruct (mv_w_fwd _ _ _ _ _ _ _ _ M) as [[_ E]|E]; [exact E|].
      pose proof (lk_fresh _ (td_linked _ _ T) w (or_intror (or_introl (or_introl K)))). lia. }
    constructor.
    - exact Hf.
    - now apply (tidy_moved n g h x y w t c idx).
    - lia.
    - intros z Hz. apply (mv_mem _ _ _ _ _ _ _ _ M). now right.
    - intros z Hz. apply (mv_mem _ _ _ _ _ _ _ _ M) in Hz as [->|Hz]; [|now left].
      destruct Hfr as [[-> E]|[K _]]; [right; lia|now left].
    - intros z Hzx Hzn I. eapply inner_moved; try eassumption. lia.
    - intros z Hz. destruct (Nat.eq_dec z w) as [->|Hzw].
      + rewrite Hpw, (Hwg Hz). apply relinked_refl.
      + destruct (Nat.eq_dec z y) as [->|Hzy].
        * rewrite (mv_y_prevs _ _ _ _ _ _ _ _ M). generalize (n_prevs (g_node g y)) as l. induction l as [|q l IH]; cbn; constructor; auto.
          destruct (Nat.eqb_spec q x) as [->|]; auto.
        * destruct (mv_old _ _ _ _ _ _ _ _ M z Hzw Hzy) as [-> _]. apply relinked_refl.
    - intros z Hz. destruct (Nat.eq_dec z w) as [->|Hzw].
      + rewrite Hpw. destruct Hfr as [[E _]|[K _]]; [lia|]. symmetry. now apply Hwg.
      + assert (z <> y) by lia. now destruct (mv_old _ _ _ _ _ _ _ _ M z Hzw H) as [-> _].
    - intros z Hz. assert (z = w) by (destruct Hfr as [[E1 E2]|[_ E]]; lia). now subst z.
    - intros z Hzx Hz. apply (mv_nexts _ _ _ _ _ _ _ _ M); [lia|exact Hzx].
    - intros z Hz. apply (mv_rev _ _ _ _ _ _ _ _ M). lia.
    - split; [exact (mv_in _ _ _ _ _ _ _ _ M)|exact (mv_out _ _ _ _ _ _ _ _ M)].
  Qed.

  (* the entries of the table behind an insertion *)
  Lemma kept_moved : forall g h y ys w t c idx, tidy n g -> In y (g_fwd g) -> y < n -> n <= w -> n <= g_fresh g ->
    ~ In y ys -> (forall z, In z ys -> In z (g_fwd g) /\ z < n) ->
    (forall z, In z ys -> In x (n_prevs (g_node g z)) -> before (g_fwd g) y z) ->
    moved g h x y w t c idx ->
    (w = g_fresh g \/ kept g (y :: ys) t w) -> kept h ys t w.
  Proof.
    intros g h y ys w t c idx T Hy Hyn Hw Hf Hny Hys Hord M Hold.
    destruct (mv_neq _ _ _ _ _ _ _ _ M) as [Hwy [Hpy Hpw]].
    constructor.
    - apply (mv_mem _ _ _ _ _ _ _ _ M). now left.
    - exact Hw.
    - exact (mv_w_prevs _ _ _ _ _ _ _ _ M).
    - exact (mv_w_prevt _ _ _ _ _ _ _ _ M).
    - destruct (mv_w_out _ _ _ _ _ _ _ _ M) as [rest Hr]. exists c, rest. split; [exact Hr|].
      intros z i Hl Hi. destruct (Nat.eq_dec z w) as [->|Hzw].
      + rewrite (mv_w_prevs _ _ _ _ _ _ _ _ M) in Hi. destruct i as [|[|i]]; try discriminate. cbn in Hi. congruence.
      + destruct (mv_from g h x y w t c idx M z i w Hzw Hl Hi) as [[K _]|[_ [K1 [K2 _]]]]; [contradiction|now split].
    - intros z Hz Hx. destruct (Hys z Hz) as [Hzf Hzn].
      assert (Hzw : z <> w) by lia. assert (Hzy : z <> y) by (intros ->; contradiction).
      destruct (mv_old _ _ _ _ _ _ _ _ M z Hzw Hzy) as [E _]. rewrite E in *.
      split.
      + apply (before_trans _ w y z).
        * apply nodup_fwd. exact (mv_linked _ _ _ _ _ _ _ _ M).
        * exact (mv_wy _ _ _ _ _ _ _ _ M).
        * apply (mv_before _ _ _ _ _ _ _ _ M). now apply Hord.
      + destruct Hold as [->|K].
        * intros Hin. pose proof (lk_fresh_prev _ (td_linked _ _ T) z (g_fresh g) (or_introl Hzf) Hin). lia.
        * apply (kp_before _ _ _ _ K); [now right|exact Hx].
  Qed.

  Lemma kept_other : forall g h y ys w t c idx t' w', tidy n g -> In y (g_fwd g) -> y < n -> n <= w ->
    ~ In y ys -> (forall z, In z ys -> In z (g_fwd g) /\ z < n) ->
    moved g h x y w t c idx -> w' <> w -> kept g (y :: ys) t' w' -> kept h ys t' w'.
  Proof.
    intros g h y ys w t c idx t' w' T Hy Hyn Hw Hny Hys M Hww [A B C D E F].
    assert (Hwy : w' <> y) by lia.
    destruct (mv_old _ _ _ _ _ _ _ _ M w' Hww Hwy) as [E1 [E2 E3]]. constructor.
    - apply (mv_mem _ _ _ _ _ _ _ _ M). now right.
    - exact B.
    - now rewrite E1.
    - now rewrite E2.
    - destruct E as [c' [rest [K1 K2]]]. exists c', rest. split.
      + unfold outputs_of. now rewrite (mv_nextt _ _ _ _ _ _ _ _ M w' Hww).
      + intros z i Hl Hi. destruct (Nat.eq_dec z w) as [->|Hzw].
        * rewrite (mv_w_prevs _ _ _ _ _ _ _ _ M) in Hi. destruct i as [|[|i]]; try discriminate. cbn in Hi.
          assert (x = w') by congruence. lia.
        * destruct (mv_from g h x y w t c idx M z i w' Hzw Hl Hi) as [[_ [J1 [J2 J3]]]|[J _]]; [|contradiction].
          rewrite J2, J3. apply K2; [|exact J1]. eapply mv_live; eassumption.
    - intros z Hz Hx. destruct (Hys z Hz) as [Hzf Hzn].
      assert (Hzw : z <> w) by lia. assert (Hzy : z <> y) by (intros ->; contradiction).
      destruct (mv_old _ _ _ _ _ _ _ _ M z Hzw Hzy) as [E4 _]. rewrite E4 in *.
      destruct (F z (or_intror Hz) Hx) as [K1 K2]. split; [|exact K2]. now apply (mv_before _ _ _ _ _ _ _ _ M).
  Qed.

  (* all tensors between [x] and one reader *)
  Lemma stub_link_step : forall g m y ys, tidy n g -> n <= g_fresh g -> In y (g_fwd g) -> y < n ->
    In x (n_prevs (g_node g y)) -> ~ In y ys ->
    (forall z, In z ys -> In z (g_fwd g) /\ z < n) ->
    (forall z, In z ys -> In x (n_prevs (g_node g z)) -> before (g_fwd g) y z) ->
    (forall t w, In (t, w) m -> kept g (y :: ys) t w) ->
    exists h m' w t c idx, stub_link x y (g, m) = Some (h, m') /\ moved g h x y w t c idx /\ n <= w /\ grown g h /\
      (forall t' w', In (t', w') m' -> kept h ys t' w') /\
      ((m' = m /\ exists t, In (t, w) m) \/ (m' = (t, w) :: m /\ g_fresh g <= w < g_fresh h)).
  Proof.
    intros g m y ys T Hf Hy Hyn Hx Hny Hys Hord Hm.
    destruct (shared_one n g x y T Hy Hyn Hx) as [t [Es [Ht Hyt]]].
    unfold stub_link. cbn [fst]. rewrite Es. cbn [fold_opt]. unfold stub_one.
    destruct (assoc m t) as [w|] eqn:Ea.
    - pose proof (assoc_In _ _ _ _ Ea) as Hin. pose proof (Hm t w Hin) as K.
      destruct (kp_out _ _ _ _ K) as [c [rest [Ko Kr]]].
      destruct (kp_before _ _ _ _ K y (or_introl eq_refl) Hx) as [Kb Kn].
      destruct (moved_old n g x y t T Hy Hyn Hx Ht Hyt w c rest (kp_fwd _ _ _ _ K) (kp_prevs _ _ _ _ K) (kp_prevt _ _ _ _ K) Ko Kr Kn Kb)
        as [h [idx [E [M Ef]]]].
      exists h, m, w, t, c, idx. rewrite E. cbn [bind fold_opt]. split; [reflexivity|]. split; [exact M|].
      split; [exact (kp_new _ _ _ _ K)|]. split; [|split].
      + apply (grown_moved g h y w t c idx T Hf Hy Hyn (kp_new _ _ _ _ K) M). right. split; [exact (kp_fwd _ _ _ _ K)|exact Ef].
      + intros t' w' H'. destruct (Nat.eq_dec w' w) as [->|Hn'].
        * assert (t' = t).
          { pose proof (kp_prevt _ _ _ _ (Hm t' w H')) as J1. pose proof (kp_prevt _ _ _ _ K) as J2. congruence. }
          subst t'. apply (kept_moved g h y ys w t c idx T Hy Hyn (kp_new _ _ _ _ K) Hf Hny Hys Hord M). now right.
        * apply (kept_other g h y ys w t c idx t' w' T Hy Hyn (kp_new _ _ _ _ K) Hny Hys M Hn'). now apply Hm.
      + left. split; [reflexivity|]. now exists t.
    - destruct (moved_new n g x y t T Hy Hyn Hx Ht Hyt) as [h [c [idx [E [M Ef]]]]].
      exists h, ((t, g_fresh g) :: m), (g_fresh g), t, c, idx. rewrite E. cbn [bind fold_opt]. split; [reflexivity|].
      split; [exact M|]. split; [exact Hf|]. split; [|split].
      + apply (grown_moved g h y _ t c idx T Hf Hy Hyn Hf M). left. now split.
      + intros t' w' [H'|H'].
        * inversion H'; subst t' w'. apply (kept_moved g h y ys _ t c idx T Hy Hyn Hf Hf Hny Hys Hord M). now left.
        * assert (Hn' : w' <> g_fresh g).
          { pose proof (kp_fwd _ _ _ _ (Hm t' w' H')) as J.
            pose proof (lk_fresh _ (td_linked _ _ T) w' (or_intror (or_introl (or_introl J)))). lia. }
          apply (kept_other g h y ys _ t c idx t' w' T Hy Hyn Hf Hny Hys M Hn'). now apply Hm.
      + right. split; [reflexivity|]. lia.
  Qed.

  Lemma quant_loop : forall ys g m, tidy n g -> n <= g_fresh g -> NoDup ys ->
    (forall y, In y ys -> In y (g_fwd g) /\ y < n) ->
    (forall y z, before ys y z -> In x (n_prevs (g_node g y)) -> In x (n_prevs (g_node g z)) -> before (g_fwd g) y z) ->
    (forall t w, In (t, w) m -> kept g ys t w) ->
    exists h m', fold_opt (fun st y => if prop y then Some st else stub_link x y st) ys (g, m) = Some (h, m') /\
      grown g h /\
      forall V pick attr (sem : nat -> list V -> option V) f vs, (forall t w, In (t, w) m -> sem w = call1 f) ->
        run pick attr (new_sems (g_fresh g) (g_fresh h) f sem) (plain h) vs =
        run pick attr (fun y => if mem y ys && negb (prop y) then through f (map (fun q => q =? x) (n_prevs (g_node g y))) (sem y)
                                else sem y) (plain g) vs.
  Proof.
    induction ys as [|y ys IH]; intros g m T Hf Hd Hys Hord Hm.
    { exists g, m. split; [reflexivity|]. split; [now apply grown_refl|]. intros V pick attr sem f vs _.
      apply run_agree. intros z us _. cbn. rewrite new_sems_out; [reflexivity|]. lia. }
    inversion Hd as [|? ? Hny Hd']; subst.
    destruct (Hys y (or_introl eq_refl)) as [Hy Hyn].
    assert (Hys' : forall z, In z ys -> In z (g_fwd g) /\ z < n) by (intros z Hz; apply Hys; now right).
    assert (Hord' : forall a b, before ys a b -> In x (n_prevs (g_node g a)) -> In x (n_prevs (g_node g b)) -> before (g_fwd g) a b).
    { intros a b Hb. apply Hord. apply before_cons. now right. }
    cbn [fold_opt].
    assert (Hskip : (prop y = true \/ ~ In x (n_prevs (g_node g y))) ->
       exists h m', fold_opt (fun st y => if prop y then Some st else stub_link x y st) ys (g, m) = Some (h, m') /\ grown g h /\
      forall V pick attr (sem : nat -> list V -> option V) f vs, (forall t w, In (t, w) m -> sem w = call1 f) ->
        run pick attr (new_sems (g_fresh g) (g_fresh h) f sem) (plain h) vs =
        run pick attr (fun z => if mem z (y :: ys) && negb (prop z) then through f (map (fun q => q =? x) (n_prevs (g_node g z))) (sem z)
                                else sem z) (plain g) vs).
    { intros Hs. destruct (IH g m T Hf Hd' Hys' Hord' (fun t w K => kept_less g y ys t w (Hm t w K))) as [h [m' [E [G R]]]].
      exists h, m'. split; [exact E|]. split; [exact G|]. intros V pick attr sem f vs Hsem. rewrite R by exact Hsem.
      apply run_agree. intros z us _. cbn [mem]. destruct (Nat.eqb_spec z y) as [->|Hz]; [|reflexivity].
      destruct (mem y ys) eqn:Em; [apply mem_In in Em; contradiction|]. cbn [orb andb].
      destruct Hs as [->|Hs]; [reflexivity|]. destruct (prop y); [reflexivity|]. cbn.
      rewrite through_none; [reflexivity|]. intros q Hq. destruct (Nat.eqb_spec q x) as [->|]; [contradiction|reflexivity]. }
    destruct (prop y) eqn:Ep; [apply Hskip; now left|].
    destruct (in_dec Nat.eq_dec x (n_prevs (g_node g y))) as [Hx|Hx].
    2: { assert (E0 : stub_link x y (g, m) = Some (g, m)).
         { unfold stub_link. cbn [fst]. now rewrite (shared_none n g x y T Hy Hyn Hx). }
         rewrite E0. cbn [bind]. apply Hskip. now right. }
    clear Hskip.
    destruct (stub_link_step g m y ys T Hf Hy Hyn Hx Hny Hys') as [g1 [m1 [w [t [c [idx [E1 [M [Hw [G1 [Hm1 Hcase]]]]]]]]]]].
    { intros z Hz Hxz. apply Hord; try assumption. apply before_cons. now left. }
    { exact Hm. }
    rewrite E1. cbn [bind].
    assert (Hold : forall z, In z ys -> n_prevs (g_node g1 z) = n_prevs (g_node g z)).
    { intros z Hz. apply (mv_prevs g g1 x y w t c idx M); [destruct (Hys' z Hz); lia|]. intros ->. contradiction. }
    destruct (IH g1 m1) as [h [m' [E [G R]]]].
    - exact (gr_tidy _ _ G1).
    - pose proof (gr_fresh _ _ G1). lia.
    - exact Hd'.
    - intros z Hz. destruct (Hys' z Hz). split; [now apply (gr_fwd _ _ G1)|assumption].
    - intros a b Hb Ha Hb'. destruct (before_In _ _ _ Hb) as [I1 I2]. rewrite Hold in Ha, Hb' by assumption.
      apply (mv_before _ _ _ _ _ _ _ _ M). now apply Hord'.
    - exact Hm1.
    - exists h, m'. split; [exact E|]. split; [now apply (grown_trans g g1 h)|].
      intros V pick attr sem f vs Hsem.
      pose proof (gr_fresh _ _ G1) as F1. pose proof (gr_fresh _ _ G) as F2.
      set (sem1 := new_sems (g_fresh g) (g_fresh g1) f sem).
      assert (Hw1 : sem1 w = call1 f).
      { unfold sem1. destruct Hcase as [[_ [t0 K]]|[_ K]]; [|now apply new_sems_in].
        rewrite new_sems_out; [now apply (Hsem t0)|]. left.
        pose proof (kp_fwd _ _ _ _ (Hm t0 w K)) as J.
        exact (lk_fresh _ (td_linked _ _ T) w (or_intror (or_introl (or_introl J)))). }
      rewrite (run_agree V pick attr _ (new_sems (g_fresh g1) (g_fresh h) f sem1) h vs)
        by (intros z us _; unfold sem1; rewrite new_sems_join by lia; reflexivity).
      rewrite R.
      2: { intros t' w' K. destruct Hcase as [[-> _]|[-> Hr]].
           - unfold sem1. rewrite new_sems_out; [now apply (Hsem t')|]. left.
             pose proof (kp_fwd _ _ _ _ (Hm t' w' K)) as J.
             exact (lk_fresh _ (td_linked _ _ T) w' (or_intror (or_introl (or_introl J)))).
           - destruct K as [K|K]; [inversion K; subst; exact Hw1|].
             unfold sem1. rewrite new_sems_out; [now apply (Hsem t')|]. left.
             pose proof (kp_fwd _ _ _ _ (Hm t' w' K)) as J.
             exact (lk_fresh _ (td_linked _ _ T) w' (or_intror (or_introl (or_introl J)))). }
      rewrite (mv_run _ _ _ _ _ _ _ _ M V pick attr _ f vs).
      2: { destruct (mem w ys) eqn:Em; [apply mem_In in Em; destruct (Hys' w Em); lia|]. exact Hw1. }
      apply run_agree. intros z us Hz.
      pose proof (lk_fresh _ (td_linked _ _ T) z (or_intror (or_introl (or_introl Hz)))) as Hzf.
      assert (Ez : sem1 z = sem z) by (unfold sem1; apply new_sems_out; now left).
      unfold with_sem. cbn [mem]. destruct (Nat.eqb_spec z y) as [->|Hzy].
      + destruct (mem y ys) eqn:Em; [apply mem_In in Em; contradiction|]. cbn [andb orb]. rewrite Ep. cbn [negb].
        now rewrite Ez.
      + cbn [orb]. destruct (mem z ys) eqn:Em; cbn [andb]; [|now rewrite Ez].
        apply mem_In in Em. rewrite (Hold z Em), Ez. reflexivity.
  Qed.

  Theorem quant_behind_run : forall g, tidy n g -> n <= g_fresh g -> inner g x -> (forall y, In y (n_nexts (g_node g x)) -> y < n) ->
    exists h, quant_behind prop g x = Some h /\ grown g h /\
      forall V pick attr (sem : nat -> list V -> option V) f vs,
        run pick attr (new_sems (g_fresh g) (g_fresh h) f sem) (plain h) vs =
        run pick attr (see_through f g (fun y q => (q =? x) && negb (prop y)) sem) (plain g) vs.
  Proof.
    intros g T Hf I Hlt. unfold quant_behind. set (ys := distinct [] (n_nexts (g_node g x))).
    assert (Hin : forall y, In y ys <-> In y (n_nexts (g_node g x))).
    { intros y. unfold ys. rewrite distinct_iff. cbn. tauto. }
    destruct (quant_loop ys g [] T Hf (distinct_NoDup _ _)) as [h [m' [E [G R]]]].
    - intros y Hy. apply Hin in Hy. split; [now apply (in_fwd _ _ I)|now apply Hlt].
    - intros y z Hb. apply (in_order _ _ I). now apply (distinct_leads _ [] y z).
    - intros t w [].
    - exists h. rewrite E. split; [reflexivity|]. split; [exact G|].
      intros V pick attr sem f vs. rewrite R by (intros t w []). apply run_agree. intros z us Hz. unfold see_through.
      destruct (prop z) eqn:Ep; cbn [negb].
      + rewrite andb_false_r. rewrite through_none; [reflexivity|]. intros. apply andb_false_r.
      + rewrite andb_true_r.
        replace (map (fun q => (q =? x) && true) (n_prevs (g_node g z))) with (map (fun q => q =? x) (n_prevs (g_node g z)))
          by (apply map_ext; intros; now rewrite andb_true_r).
        destruct (mem z ys) eqn:Em; [reflexivity|].
        rewrite through_none; [reflexivity|]. intros q Hq. destruct (Nat.eqb_spec q x) as [->|]; [|reflexivity].
        exfalso. assert (K : In z ys); [|rewrite <- mem_In in K; congruence].
        apply Hin. apply In_nth_error in Hq as [i Hi].
        now destruct (lk_prev _ (td_linked _ _ T) z i x (or_introl Hz) Hi) as [_ [K _]].
  Qed.
End Quant.

(* ------------------------------------------------------------------ *)
(* All operators *)

(* the graph behind the insertions on the links from or to the nodes of [us] *)
Record enlarged (n : nat) (us : list nat) (g h : graph) : Prop := {
  en_tidy : tidy n h;
  en_fresh : g_fresh g <= g_fresh h;
  en_fwd : forall z, In z (g_fwd g) -> In z (g_fwd h);
  en_new : forall z, In z (g_fwd h) -> In z (g_fwd g) \/ g_fresh g <= z < g_fresh h;
  en_prevs : forall z, In z (g_fwd g) ->
    Forall2 (fun q q' => q' = q \/ (In q us /\ n <= q')) (n_prevs (g_node g z)) (n_prevs (g_node h z));
  en_rev : forall z, z < n -> n_rev (g_node h z) = n_rev (g_node g z);
  en_io : g_in h = g_in g /\ g_out h = g_out g
}.

Lemma replaced_map : forall A n us l l' (s : nat -> A) v, (forall q, In q us -> s q = v) -> (forall q, n <= q -> s q = v) ->
  Forall2 (fun q q' => q' = q \/ (In q us /\ n <= q')) l l' -> map s l' = map s l.
Proof.
  intros A n us l l' s v Hu Hn H. induction H as [|q q' l l' H1 H2 IH]; [reflexivity|]. cbn. rewrite IH. f_equal.
  destruct H1 as [->|[H1 H3]]; [reflexivity|]. rewrite (Hu q H1). now apply Hn.
Qed.

Lemma replaced_trans : forall n x us a b c, x < n -> (forall q, In q us -> q < n) -> relinked n x a b ->
  Forall2 (fun q q' => q' = q \/ (In q us /\ n <= q')) b c ->
  Forall2 (fun q q' => q' = q \/ (In q (x :: us) /\ n <= q')) a c.
Proof.
  intros n x us a b c Hx Hu H. revert c. induction H as [|q q' a b H1 H2 IH]; intros c K; inversion K as [|? q'' ? c' K1 K2]; subst; constructor.
  - destruct H1 as [->|[-> H1]].
    + destruct K1 as [->|[K1 K3]]; [now left|right; split; [now right|exact K3]].
    + destruct K1 as [->|[K1 K3]]; [right; split; [now left|exact H1]|]. specialize (Hu _ K1). lia.
  - now apply IH.
Qed.

Lemma quant_fold : forall n prop us g, tidy n g -> n <= g_fresh g -> NoDup us ->
  (forall x, In x us -> x < n /\ inner g x /\ forall y, In y (n_nexts (g_node g x)) -> y < n) ->
  exists h, fold_opt (quant_behind prop) us g = Some h /\ enlarged n us g h /\
    forall V pick attr (sem : nat -> list V -> option V) f vs,
      run pick attr (new_sems (g_fresh g) (g_fresh h) f sem) (plain h) vs =
      run pick attr (see_through f g (fun y q => mem q us && negb (prop y)) sem) (plain g) vs.
Proof.
  intros n prop us. induction us as [|x us IH]; intros g T Hf Hd Hus.
  { exists g. split; [reflexivity|]. split.
    - constructor; auto. intros z _. induction (n_prevs (g_node g z)); constructor; auto.
    - intros V pick attr sem f vs. apply run_agree. intros z ws Hz. unfold see_through.
      rewrite through_none by reflexivity. rewrite new_sems_out; [reflexivity|lia]. }
  inversion Hd as [|? ? Hx Hd']; subst.
  destruct (Hus x (or_introl eq_refl)) as [Hxn [Hi Hlt]].
  destruct (quant_behind_run n x prop Hxn g T Hf Hi Hlt) as [g1 [E1 [G R1]]].
  destruct (IH g1) as [h [E2 [N R2]]].
  - exact (gr_tidy _ _ _ _ G).
  - pose proof (gr_fresh _ _ _ _ G). lia.
  - exact Hd'.
  - intros z Hz. destruct (Hus z (or_intror Hz)) as [Hzn [Hzi Hzl]].
    assert (Hzx : z <> x) by (intros ->; contradiction).
    split; [exact Hzn|]. split; [now apply (gr_inner _ _ _ _ G)|].
    rewrite (gr_nexts _ _ _ _ G z Hzx Hzn). exact Hzl.
  - exists h. cbn [fold_opt]. rewrite E1. cbn [bind]. split; [exact E2|]. split.
    + destruct G as [A0 A1 A2 A3 A4 A5 A6 As A7 An A8 [A9 A10]], N as [B1 B2 B3 B4 B6 B8 [B9 B10]]. constructor; auto.
      * lia.
      * intros z Hz. destruct (B4 z Hz) as [K|K]; [destruct (A4 z K) as [K'|K']; [now left|right; lia]|right; lia].
      * intros z Hz. eapply replaced_trans; [exact Hxn| |now apply A6|now apply B6, A3].
        intros q Hq. now destruct (Hus q (or_intror Hq)).
      * intros z Hz. rewrite B8 by exact Hz. now apply A8.
      * split; congruence.
    + intros V pick attr sem f vs.
      pose proof (gr_fresh _ _ _ _ G) as F1. pose proof (en_fresh _ _ _ _ N) as F2.
      set (sem1 := new_sems (g_fresh g) (g_fresh g1) f sem).
      rewrite (run_agree V pick attr _ (new_sems (g_fresh g1) (g_fresh h) f sem1) h vs)
        by (intros z ws _; unfold sem1; rewrite new_sems_join by lia; reflexivity).
      rewrite R2.
      set (sem2 := see_through f g (fun y q => mem q us && negb (prop y)) sem).
      rewrite (run_agree V pick attr _ (new_sems (g_fresh g) (g_fresh g1) f sem2) g1 vs).
      2: { intros z ws Hz. destruct (gr_new _ _ _ _ G z Hz) as [K|K].
           - pose proof (lk_fresh _ (td_linked _ _ T) z (or_intror (or_introl (or_introl K)))) as Hzf.
             rewrite new_sems_out by lia. unfold sem1, sem2, see_through. rewrite new_sems_out by lia.
             rewrite (relinked_map bool n x (n_prevs (g_node g z)) (n_prevs (g_node g1 z))); [reflexivity|exact Hxn| |].
             + now apply (gr_prevs _ _ _ _ G).
             + intros q Hq. destruct (mem x us) eqn:Ex; [apply mem_In in Ex; contradiction|].
               destruct (mem q us) eqn:Eq; [|reflexivity]. apply mem_In in Eq. destruct (Hus q (or_intror Eq)). lia.
           - rewrite new_sems_in by exact K. unfold see_through. rewrite (gr_stub _ _ _ _ G z K).
             rewrite through_none.
             + unfold sem1. now rewrite new_sems_in.
             + intros q [<-|[]]. destruct (mem x us) eqn:Ex; [apply mem_In in Ex; contradiction|reflexivity]. }
      rewrite R1. apply run_agree. intros z ws Hz. unfold sem2, see_through.
      rewrite through_join.
      * f_equal. apply map_ext. intros q. cbn [mem]. destruct (q =? x), (mem q us), (prop z); reflexivity.
      * intros q Hq K. apply andb_true_iff in K as [K _]. apply Nat.eqb_eq in K. subst q.
        destruct (mem x us) eqn:Ex; [apply mem_In in Ex; contradiction|reflexivity].
Qed.
