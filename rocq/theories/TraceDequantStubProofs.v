(* Proofs about the loop that dequantizes the operands of an operator, and
   about both loops. *)
From Coq Require Import List Arith Bool Lia.
From Verif Require Import TraceSpec TraceModel TraceProofs TraceAfterProofs TraceInsertModel TraceTailProofs
  TraceBetweenProofs TraceExistingProofs TraceStubSpec TraceStubModel TraceStubProofs TraceQuantStubProofs.
Import ListNotations.

(* the graph behind the insertions in front of the nodes of [us] *)
Record wider (n : nat) (us : list nat) (g h : graph) : Prop := {
  wd_tidy : tidy n h;
  wd_fresh : g_fresh g <= g_fresh h;
  wd_fwd : forall z, In z (g_fwd g) -> In z (g_fwd h);
  wd_new : forall z, In z (g_fwd h) -> In z (g_fwd g) \/ g_fresh g <= z < g_fresh h;
  wd_prevs : forall z, z < g_fresh g -> ~ In z us -> n_prevs (g_node h z) = n_prevs (g_node g z);
  wd_rev : forall z, z < g_fresh g -> n_rev (g_node h z) = n_rev (g_node g z);
  wd_io : g_in h = g_in g /\ g_out h = g_out g
}.

Lemma wider_refl : forall n us g, tidy n g -> wider n us g g.
Proof. intros n us g T. constructor; auto. Qed.

Lemma wider_trans : forall n xs ys us a b c, (forall z, In z xs \/ In z ys -> In z us) ->
  wider n xs a b -> wider n ys b c -> wider n us a c.
Proof.
  intros n xs ys us a b c Hu [A1 A2 A3 A4 A6 A8 [A9 A10]] [B1 B2 B3 B4 B6 B8 [B9 B10]]. constructor; auto.
  - lia.
  - intros z Hz. destruct (B4 z Hz) as [K|K]; [destruct (A4 z K) as [K'|K']; [now left|right; lia]|right; lia].
  - intros z Hz Hn. rewrite B6; [|lia|intros K; apply Hn, Hu; now right].
    apply A6; [exact Hz|]. intros K. apply Hn, Hu. now left.
  - intros z Hz. rewrite B8 by lia. now apply A8.
  - split; congruence.
Qed.

Section Dequant.
  Variables (n x : nat) (nums : nat -> bool).
  Hypothesis Hxn : x < n.

  Lemma dequant_loop : forall ps g m, tidy n g -> n <= g_fresh g -> In x (g_fwd g) -> NoDup ps ->
    (forall p, In p ps -> In p (n_prevs (g_node g x))) ->
    (forall t w p, In (t, w) m -> In p ps -> ~ In t (produced (g_node g p))) ->
    exists h m', fold_opt (fun st p => if nums p then Some st else stub_link p x st) ps (g, m) = Some (h, m') /\
      wider n [x] g h /\
      forall V pick attr (sem : nat -> list V -> option V) f vs,
        run pick attr (new_sems (g_fresh g) (g_fresh h) f sem) (plain h) vs =
        run pick attr (with_sem sem x (through f (map (fun q => mem q ps && negb (nums q)) (n_prevs (g_node g x))) (sem x)))
          (plain g) vs.
  Proof.
    induction ps as [|p ps IH]; intros g m T Hf Hx Hd Hps Hm.
    { exists g, m. split; [reflexivity|]. split; [now apply wider_refl|]. intros V pick attr sem f vs.
      apply run_agree. intros z us _. rewrite new_sems_out by lia. unfold with_sem.
      destruct (Nat.eqb_spec z x) as [->|]; [|reflexivity]. now rewrite through_none. }
    inversion Hd as [|? ? Hnp Hd']; subst. cbn [fold_opt].
    pose proof (Hps p (or_introl eq_refl)) as Hp.
    destruct (nums p) eqn:En.
    { cbn [bind]. destruct (IH g m T Hf Hx Hd') as [h [m' [E [W R]]]].
      - intros q Hq. apply Hps. now right.
      - intros t w q K Hq. apply (Hm t w q K). now right.
      - exists h, m'. split; [exact E|]. split; [exact W|]. intros V pick attr sem f vs. rewrite R.
        apply run_agree. intros z us _. unfold with_sem. destruct (z =? x); [|reflexivity].
        f_equal. apply map_ext. intros q. cbn [mem]. destruct (Nat.eqb_spec q p) as [->|]; [|reflexivity].
        rewrite En. cbn. now rewrite !andb_false_r. }
    destruct (shared_one n g p x T Hx Hxn Hp) as [t [Es [Ht Hyt]]].
    assert (Ea : assoc m t = None).
    { destruct (assoc m t) as [w|] eqn:Ea; [|reflexivity]. exfalso.
      apply (Hm t w p (assoc_In _ _ _ _ Ea) (or_introl eq_refl)). exact Ht. }
    destruct (moved_new n g p x t T Hx Hxn Hp Ht Hyt) as [g1 [c [idx [E [M Ef]]]]].
    assert (E1 : stub_link p x (g, m) = Some (g1, (t, g_fresh g) :: m)).
    { unfold stub_link. cbn [fst]. rewrite Es. cbn [fold_opt]. unfold stub_one. rewrite Ea, E. reflexivity. }
    rewrite E1. cbn [bind].
    set (w := g_fresh g) in *.
    pose proof (td_linked _ _ T) as L.
    assert (Hlt : forall q, In q (n_prevs (g_node g x)) -> q < w).
    { intros q Hq. exact (lk_fresh_prev _ L x q (or_introl Hx) Hq). }
    assert (Hxw : x < w) by (unfold w; lia).
    assert (W1 : wider n [x] g g1).
    { constructor.
      - now apply (tidy_moved n g g1 p x w t c idx).
      - lia.
      - intros z Hz. apply (mv_mem _ _ _ _ _ _ _ _ M). now right.
      - intros z Hz. apply (mv_mem _ _ _ _ _ _ _ _ M) in Hz as [->|Hz]; [right; unfold w; lia|now left].
      - intros z Hz Hn. apply (mv_prevs g g1 p x w t c idx M); [unfold w; lia|]. intros ->. apply Hn. now left.
      - intros z Hz. apply (mv_rev _ _ _ _ _ _ _ _ M). unfold w. lia.
      - split; [exact (mv_in _ _ _ _ _ _ _ _ M)|exact (mv_out _ _ _ _ _ _ _ _ M)]. }
    destruct (IH g1 ((t, w) :: m)) as [h [m' [E2 [W2 R]]]].
    - exact (wd_tidy _ _ _ _ W1).
    - pose proof (wd_fresh _ _ _ _ W1). lia.
    - now apply (wd_fwd _ _ _ _ W1).
    - exact Hd'.
    - intros q Hq. rewrite (mv_y_prevs _ _ _ _ _ _ _ _ M). apply in_map_iff. exists q.
      destruct (Nat.eqb_spec q p) as [->|]; [contradiction|]. split; [reflexivity|]. apply Hps. now right.
    - intros t' w' q K Hq. assert (Hqw : q <> w) by (specialize (Hlt q (Hps q (or_intror Hq))); lia).
      assert (Eq : produced (g_node g1 q) = produced (g_node g q)) by (unfold produced; now rewrite (mv_nextt _ _ _ _ _ _ _ _ M q Hqw)).
      rewrite Eq. destruct K as [K|K].
      + inversion K; subst t' w'. intros K'. pose proof (td_unique _ _ T _ _ _ Ht K'). subst q. contradiction.
      + apply (Hm t' w' q K). now right.
    - exists h, m'. split; [exact E2|]. split.
      + apply (wider_trans n [x] [x] [x] g g1 h); try assumption. tauto.
      + intros V pick attr sem f vs.
        pose proof (wd_fresh _ _ _ _ W1) as F1. pose proof (wd_fresh _ _ _ _ W2) as F2. fold w in F1.
        set (sem1 := new_sems w (g_fresh g1) f sem).
        rewrite (run_agree V pick attr _ (new_sems (g_fresh g1) (g_fresh h) f sem1) h vs)
          by (intros z us _; unfold sem1; rewrite new_sems_join by lia; reflexivity).
        rewrite R, (mv_run _ _ _ _ _ _ _ _ M V pick attr _ f vs).
        2: { unfold with_sem. destruct (Nat.eqb_spec w x) as [K|_]; [lia|]. unfold sem1. apply new_sems_in. lia. }
        apply run_agree. intros z us Hz. unfold with_sem. rewrite Nat.eqb_refl.
        destruct (Nat.eqb_spec z x) as [->|Hzx].
        2: { unfold sem1. rewrite new_sems_out; [reflexivity|]. left.
             exact (lk_fresh _ L z (or_intror (or_introl (or_introl Hz)))). }
        assert (E3 : map (fun q => mem q ps && negb (nums q)) (n_prevs (g_node g1 x)) =
                     map (fun q => mem q ps && negb (nums q)) (n_prevs (g_node g x))).
        { rewrite (mv_y_prevs _ _ _ _ _ _ _ _ M), map_map. apply map_ext. intros q.
          destruct (Nat.eqb_spec q p) as [->|]; [|reflexivity].
          destruct (mem w ps) eqn:Ew; [apply mem_In in Ew; specialize (Hlt w (Hps w (or_intror Ew))); lia|].
          destruct (mem p ps) eqn:Ep; [apply mem_In in Ep; contradiction|reflexivity]. }
        rewrite E3. unfold sem1. rewrite new_sems_out by lia. rewrite through_join.
        * f_equal. apply map_ext. intros q. cbn [mem]. destruct (Nat.eqb_spec q p) as [->|]; [|reflexivity]. now rewrite En.
        * intros q Hq K. apply Nat.eqb_eq in K. subst q.
          destruct (mem p ps) eqn:Ep; [apply mem_In in Ep; contradiction|reflexivity].
  Qed.

  Theorem dequant_before_run : forall g, tidy n g -> n <= g_fresh g -> In x (g_fwd g) -> n_rev (g_node g x) = false ->
    exists h, dequant_before nums g x = Some h /\ wider n [x] g h /\
      forall V pick attr (sem : nat -> list V -> option V) f vs,
        run pick attr (new_sems (g_fresh g) (g_fresh h) f sem) (plain h) vs =
        run pick attr (with_sem sem x (through f (map (fun q => negb (nums q)) (n_prevs (g_node g x))) (sem x))) (plain g) vs.
  Proof.
    intros g T Hf Hx Hr. unfold dequant_before. rewrite Hr. set (ps := distinct [] (n_prevs (g_node g x))).
    assert (Hin : forall q, In q ps <-> In q (n_prevs (g_node g x))).
    { intros q. unfold ps. rewrite distinct_iff. cbn. tauto. }
    destruct (dequant_loop ps g [] T Hf Hx (distinct_NoDup _ _)) as [h [m' [E [W R]]]].
    - intros p. apply Hin.
    - intros t w p [].
    - exists h. rewrite E. split; [reflexivity|]. split; [exact W|]. intros V pick attr sem f vs. rewrite R.
      apply run_agree. intros z us _. unfold with_sem. destruct (z =? x); [|reflexivity].
      f_equal. apply map_ext_in. intros q Hq. apply Hin, mem_In in Hq. now rewrite Hq.
  Qed.
End Dequant.

Lemma dequant_fold : forall n nums us g, tidy n g -> n <= g_fresh g -> NoDup us ->
  (forall x, In x us -> x < n /\ In x (g_fwd g) /\ n_rev (g_node g x) = false) ->
  exists h, dequant_all nums g us = Some h /\ wider n us g h /\
    forall V pick attr (sem : nat -> list V -> option V) f vs,
      run pick attr (new_sems (g_fresh g) (g_fresh h) f sem) (plain h) vs =
      run pick attr (fun y => if mem y us then through f (map (fun q => negb (nums q)) (n_prevs (g_node g y))) (sem y) else sem y)
        (plain g) vs.
Proof.
  intros n nums us. unfold dequant_all. induction us as [|x us IH]; intros g T Hf Hd Hus.
  { exists g. split; [reflexivity|]. split; [now apply wider_refl|]. intros V pick attr sem f vs.
    apply run_agree. intros z ws _. rewrite new_sems_out by lia. reflexivity. }
  inversion Hd as [|? ? Hx Hd']; subst.
  destruct (Hus x (or_introl eq_refl)) as [Hxn [Hxf Hxr]].
  destruct (dequant_before_run n x nums Hxn g T Hf Hxf Hxr) as [g1 [E1 [W1 R1]]].
  destruct (IH g1) as [h [E2 [W2 R2]]].
  - exact (wd_tidy _ _ _ _ W1).
  - pose proof (wd_fresh _ _ _ _ W1). lia.
  - exact Hd'.
  - intros z Hz. destruct (Hus z (or_intror Hz)) as [Hzn [Hzf Hzr]]. split; [exact Hzn|].
    split; [now apply (wd_fwd _ _ _ _ W1)|]. rewrite (wd_rev _ _ _ _ W1); [exact Hzr|lia].
  - exists h. cbn [fold_opt]. rewrite E1. cbn [bind]. split; [exact E2|]. split.
    + apply (wider_trans n [x] us (x :: us) g g1 h); try assumption. intros z [[->|[]]|K]; [now left|now right].
    + intros V pick attr sem f vs.
      pose proof (wd_fresh _ _ _ _ W1) as F1. pose proof (wd_fresh _ _ _ _ W2) as F2.
      set (sem1 := new_sems (g_fresh g) (g_fresh g1) f sem).
      rewrite (run_agree V pick attr _ (new_sems (g_fresh g1) (g_fresh h) f sem1) h vs)
        by (intros z ws _; unfold sem1; rewrite new_sems_join by lia; reflexivity).
      rewrite R2.
      set (sem2 := fun y => if mem y us then through f (map (fun q => negb (nums q)) (n_prevs (g_node g y))) (sem y) else sem y).
      rewrite (run_agree V pick attr _ (new_sems (g_fresh g) (g_fresh g1) f sem2) g1 vs).
      2: { intros z ws Hz. destruct (mem z us) eqn:Ez.
           - apply mem_In in Ez. destruct (Hus z (or_intror Ez)) as [Hzn _].
             rewrite (wd_prevs _ _ _ _ W1); [|lia|intros [->|[]]; contradiction].
             unfold sem1. rewrite !new_sems_out by lia. unfold sem2. apply mem_In in Ez. now rewrite Ez.
           - unfold sem1, new_sems. destruct ((g_fresh g <=? z) && (z <? g_fresh g1)); [reflexivity|].
             unfold sem2. now rewrite Ez. }
      rewrite R1. apply run_agree. intros z ws Hz. unfold with_sem, sem2. cbn [mem].
      destruct (Nat.eqb_spec z x) as [->|]; [|reflexivity]. cbn [orb].
      destruct (mem x us) eqn:Ex; [apply mem_In in Ex; contradiction|reflexivity].
Qed.

(* both loops *)
Theorem stubs_run : forall n prop nums us g, tidy n g -> n <= g_fresh g -> NoDup us ->
  (forall x, In x us -> x < n /\ In x (g_fwd g) /\ inner g x /\ (forall y, In y (n_nexts (g_node g x)) -> y < n) /\
     n_rev (g_node g x) = false /\ nums x = false) ->
  (forall z, n <= z -> nums z = false) ->
  exists d h, stubs prop nums g us = Some h /\ tidy n h /\ g_fresh g <= d <= g_fresh h /\ g_in h = g_in g /\ g_out h = g_out g /\
    (forall z, In z (g_fwd h) <-> In z (g_fwd g) \/ (g_fresh g <= z < g_fresh h /\ In z (g_fwd h))) /\
    forall V pick attr (sem : nat -> list V -> option V) q dq vs,
      run pick attr (new_sems d (g_fresh h) dq (new_sems (g_fresh g) d q sem)) (plain h) vs =
      run pick attr (see_through q g (fun y p => mem p us && negb (prop y))
        (fun y => if mem y us then through dq (map (fun p => negb (nums p)) (n_prevs (g_node g y))) (sem y) else sem y)) (plain g) vs.
Proof.
  intros n prop nums us g T Hf Hd Hus Hnew.
  destruct (quant_fold n prop (rev us) g T Hf (NoDup_rev Hd)) as [g1 [E1 [N R1]]].
  { intros x Hx. apply in_rev in Hx. destruct (Hus x Hx) as [A [B [C [D _]]]]. auto. }
  destruct (dequant_fold n nums us g1) as [h [E2 [W R2]]].
  - exact (en_tidy _ _ _ _ N).
  - pose proof (en_fresh _ _ _ _ N). lia.
  - exact Hd.
  - intros x Hx. destruct (Hus x Hx) as [A [B [C [D [F _]]]]]. split; [exact A|].
    split; [now apply (en_fwd _ _ _ _ N)|]. now rewrite (en_rev _ _ _ _ N).
  - pose proof (en_fresh _ _ _ _ N) as F1. pose proof (wd_fresh _ _ _ _ W) as F2.
    exists (g_fresh g1), h. unfold stubs, quant_all. rewrite E1. cbn [bind]. split; [exact E2|].
    split; [exact (wd_tidy _ _ _ _ W)|]. split; [lia|].
    destruct (en_io _ _ _ _ N) as [I1 I2], (wd_io _ _ _ _ W) as [J1 J2].
    split; [congruence|]. split; [congruence|]. split.
    { intros z. split.
      - intros Hz. destruct (wd_new _ _ _ _ W z Hz) as [K|K]; [destruct (en_new _ _ _ _ N z K) as [K'|K']; [now left|]|];
          right; (split; [lia|exact Hz]).
      - intros [Hz|[_ Hz]]; [|exact Hz]. apply (wd_fwd _ _ _ _ W). now apply (en_fwd _ _ _ _ N). }
    intros V pick attr sem q dq vs. rewrite R2.
    set (sem2 := fun y => if mem y us then through dq (map (fun p => negb (nums p)) (n_prevs (g_node g y))) (sem y) else sem y).
    rewrite (run_agree V pick attr _ (new_sems (g_fresh g) (g_fresh g1) q sem2) g1 vs).
    2: { intros z ws Hz. destruct (mem z us) eqn:Ez.
         - apply mem_In in Ez. destruct (Hus z Ez) as [Hzn [Hzf _]].
           rewrite !new_sems_out by lia. unfold sem2. apply mem_In in Ez. rewrite Ez. apply mem_In in Ez.
           rewrite (replaced_map bool n (rev us) (n_prevs (g_node g z)) (n_prevs (g_node g1 z)) _ true); [reflexivity| | |].
           + intros p Hp. apply in_rev in Hp. destruct (Hus p Hp) as [_ [_ [_ [_ [_ K]]]]]. now rewrite K.
           + intros p Hp. now rewrite Hnew.
           + now apply (en_prevs _ _ _ _ N).
         - unfold new_sems. destruct ((g_fresh g <=? z) && (z <? g_fresh g1)); [reflexivity|].
           unfold sem2. now rewrite Ez. }
    rewrite R1. apply run_agree. intros z ws Hz. unfold see_through.
    f_equal. apply map_ext. intros p.
    assert (Er : mem p (rev us) = mem p us); [|now rewrite Er].
    destruct (mem p us) eqn:Ep; [apply mem_In in Ep; apply mem_In; now apply in_rev in Ep|].
    destruct (mem p (rev us)) eqn:Eq; [|reflexivity]. apply mem_In, in_rev, mem_In in Eq. congruence.
Qed.

(* ------------------------------------------------------------------ *)
(* The generated code *)

Theorem code_existing : forall g p y w t c0 idx rest ptrs, linked g -> In y (g_fwd g) -> before (g_fwd g) w y ->
  In p (n_prevs (g_node g y)) -> p <> y -> (In p (g_fwd g) -> before (g_fwd g) p w) -> p <> w ->
  length (n_prevt (g_node g y)) = length (n_prevs (g_node g y)) ->
  (forall i, nth_error (n_prevs (g_node g y)) i = Some p ->
     nth_error (n_prevt (g_node g y)) i = Some t /\ nth_error (n_previ (g_node g y)) i = Some idx) ->
  match ptrs with Some l => In t l | None => True end ->
  n_prevs (g_node g w) = [p] -> nth_error (n_previ (g_node g w)) 0 = Some idx ->
  outputs_of (g_node g w) (c0 :: rest) ->
  (forall x i, live g x -> nth_error (n_prevs (g_node g x)) i = Some w -> nth_error (n_prevt (g_node g x)) i = Some c0) ->
  (forall q q' s, In s (produced (g_node g q)) -> In s (produced (g_node g q')) -> q = q') ->
  exists h a b, insert_existing g p y w true ptrs = Some h /\ linked h /\
    gen (recompute g) = Some a /\ gen (recompute h) = Some b /\
    forall V pick attr (sem : nat -> list V -> option V) f vs, (forall v, sem w [v] = f v) ->
      run pick attr sem b vs =
      run pick attr (with_sem sem y (through f (map (fun q => q =? p) (n_prevs (g_node g y))) (sem y))) a vs.
Proof.
  intros g p y w t c0 idx rest ptrs L Hy Hb Hp Hpy Hpb Hpw Hal Hone Hptrs Hwp Hwi Hwo Hwr Hu.
  pose proof (before_In _ _ _ Hb) as [Hw _].
  pose proof (nodup_fwd _ L) as Hnd.
  assert (Hwy : w <> y) by (eapply before_neq; eassumption).
  destruct (ex_eq g p y w t c0 idx rest ptrs L (or_introl Hy) Hw Hp Hpy Hpw Hwy Hal Hone Hptrs Hwp Hwo) as [b [E [H1 H2]]].
  pose proof (linked_existing g p y w t c0 idx rest ptrs L (or_introl Hy) Hw Hp Hpy Hpw Hwy Hal Hone Hptrs Hwp Hwi Hwo Hwr Hu b H1 H2) as Lh.
  destruct (gen_recompute g (lk_rendered _ L)) as [c [Ec [_ Rc]]].
  destruct (gen_recompute _ (lk_rendered _ Lh)) as [d [Ed [_ Rd]]].
  eexists. exists c, d. split; [exact E|]. split; [exact Lh|]. split; [exact Ec|]. split; [exact Ed|].
  intros V pick attr sem f vs Hf. rewrite Rc, Rd.
  destruct Hb as [l1 [l2 [l3 E0]]].
  eapply run_insert_existing; try eassumption; [now left|].
  intros K. assert (Hp' : In p (g_fwd g)) by (rewrite E0; repeat (rewrite in_app_iff; cbn); tauto).
  destruct (Hpb Hp') as [m1 [m2 [m3 B]]]. rewrite E0 in B, Hnd.
  replace (m1 ++ p :: m2 ++ w :: m3) with ((m1 ++ p :: m2) ++ w :: m3) in B by (now rewrite <- app_assoc).
  destruct (split_once _ _ _ _ _ Hnd B) as [B1 _]. rewrite B1 in Hnd.
  rewrite <- app_assoc in Hnd. cbn in Hnd. apply NoDup_remove_2 in Hnd. apply Hnd.
  repeat (rewrite in_app_iff; cbn). tauto.
Qed.

Lemma mem_one_of : forall l x, mem x l = one_of l x.
Proof.
  intros l x. apply eq_true_iff_eq. unfold one_of. rewrite mem_In, existsb_exists. split.
  - intros H. exists x. split; [exact H|apply Nat.eqb_refl].
  - intros [y [H E]]. apply Nat.eqb_eq in E. now subst y.
Qed.

Theorem code_stubs : forall g prop nums us, tidy (g_fresh g) g -> NoDup us ->
  (forall x, In x us -> In x (g_fwd g) /\ inner g x /\ n_rev (g_node g x) = false /\ nums x = false) ->
  (forall z, g_fresh g <= z -> nums z = false) ->
  exists d h a b, stubs prop nums g us = Some h /\ tidy (g_fresh g) h /\ g_fresh g <= d <= g_fresh h /\
    (forall z, In z (g_fwd h) -> z < g_fresh g -> In z (g_fwd g)) /\
    gen (recompute g) = Some a /\ gen (recompute h) = Some b /\
    forall V pick attr (sem : nat -> list V -> option V) q dq vs,
      run pick attr (new_sems d (g_fresh h) dq (new_sems (g_fresh g) d q sem)) b vs =
      run pick attr (in_float q dq us prop nums g sem) a vs.
Proof.
  intros g prop nums us T Hd Hus Hnew. pose proof (td_linked _ _ T) as L.
  destruct (stubs_run (g_fresh g) prop nums us g T (le_n _) Hd) as [d [h [E [Th [Hf [_ [_ [Hz R]]]]]]]].
  - intros x Hx. destruct (Hus x Hx) as [A [B [C D]]]. split; [exact (lk_fresh _ L x (or_intror (or_introl (or_introl A))))|].
    split; [exact A|]. split; [exact B|]. split; [|now split].
    intros y Hy. exact (lk_fresh_next _ L y x Hy).
  - exact Hnew.
  - destruct (gen_recompute g (lk_rendered _ L)) as [a [Ea [_ Ra]]].
    destruct (gen_recompute _ (lk_rendered _ (td_linked _ _ Th))) as [b [Eb [_ Rb]]].
    exists d, h, a, b. split; [exact E|]. split; [exact Th|]. split; [exact Hf|]. split.
    + intros z Hz1 Hz2. apply Hz in Hz1 as [K|[K _]]; [exact K|lia].
    + split; [exact Ea|]. split; [exact Eb|]. intros V pick attr sem q dq vs. rewrite Ra, Rb, R. apply run_agree.
      intros z ws _. unfold in_float, see_through. rewrite !mem_one_of.
      replace (map (fun p => mem p us && negb (prop z)) (n_prevs (g_node g z)))
        with (map (fun p => one_of us p && negb (prop z)) (n_prevs (g_node g z))); [reflexivity|].
      apply map_ext. intros p. now rewrite mem_one_of.
Qed.
