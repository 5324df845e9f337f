(* Proofs about inserting a node between two nodes of the traced graph. *)
From Coq Require Import List Arith Bool Lia.
From Verif Require Import TraceSpec TraceModel TraceProofs TraceAfterProofs TraceRemoveProofs TraceInsertModel
  TraceTailProofs.
Import ListNotations.

(* ------------------------------------------------------------------ *)
(* The programs *)

Section Programs.
  Variable V : Type.
  Variable pick : V -> nat -> option V.
  Variable attr : nat -> option V.
  Variable sem : nat -> list V -> option V.
  Variable f : V -> option V.
  Variables (y w p : nat) (r0 : ref) (rs : list ref).
  Hypothesis Hyw : y <> w.
  Hypothesis Hr0w : r_name r0 <> w.
  Hypothesis Hr0 : forall r, In r rs -> r_name r = p -> r = r0.
  Hypothesis Hsome : exists r, In r rs /\ r_name r = p.
  Hypothesis Hrsw : forall r, In r rs -> r_name r <> w.

  Definition avoids (l : list (nat * list ref)) : Prop :=
    forall x qs, In (x, qs) l -> x <> w /\ x <> y /\ forall r, In r qs -> r_name r <> w.

  Let sem_h := with_sem sem w (call1 f).
  Let sem_g := with_sem sem y (through f (map (fun r => r_name r =? p) rs) (sem y)).
  Let off (e e' : env V) : Prop := forall z, z <> w -> e' z = e z.

  Lemma off_reads : forall e e' qs, off e e' -> (forall r, In r qs -> r_name r <> w) ->
    traverse (read pick attr e') qs = traverse (read pick attr e) qs.
  Proof.
    intros e e' qs H Hq. apply traverse_ext. intros r Hr. apply read_agree. intros _. apply H. auto.
  Qed.

  Lemma off_lines : forall l e e', avoids l -> off e e' ->
    related V off (exec pick attr sem_g (lines_of l) e) (exec pick attr sem_h (lines_of l) e').
  Proof.
    intros l e e' Hl He.
    assert (Hl' : forall x qs, In (x, qs) l -> x <> w /\ x <> y /\ forall r, In r qs -> r_name r <> w) by exact Hl.
    pose proof (exec_lines V pick attr attr sem_g sem_h off (fun r => r)
      (fun x qs => x <> w /\ x <> y /\ forall r, In r qs -> r_name r <> w)) as K.
    unfold lines_of. replace (map (fun e0 => Assign (fst e0) (snd e0)) l) with
      (map (fun p0 : nat * list ref => Assign (fst p0) (map (fun r => r) (snd p0))) l) at 2
      by (apply map_ext; intro a; now rewrite map_id).
    apply K; auto.
    - intros x a a' qs [_ [_ Hq]] Ha. rewrite map_id. now apply off_reads.
    - intros x a a' v Ha _ z Hz. unfold bindv. destruct (z =? x); auto.
    - intros x vs [qs [H1 [H2 _]]]. unfold sem_h, sem_g, with_sem.
      destruct (Nat.eqb_spec x w); [congruence|]. destruct (Nat.eqb_spec x y); [congruence|]. reflexivity.
  Qed.

  (* the arguments behind the insertion *)
  Lemma sub_args : forall e v u qs, read pick attr e r0 = Some v -> f v = Some u ->
    (forall r, In r qs -> r_name r = p -> r = r0) -> (forall r, In r qs -> r_name r <> w) ->
    traverse (read pick attr (bindv e w (Some u))) (map (subr p (mkref false w [])) qs) =
    bind (traverse (read pick attr e) qs) (some_args f (map (fun r => r_name r =? p) qs)).
  Proof.
    intros e v u qs Hv Hu. induction qs as [|r t IH]; intros Hq Hw; [reflexivity|].
    cbn [map traverse]. rewrite IH; [|intros; apply Hq; [now right|assumption]|intros; apply Hw; now right].
    unfold subr at 1. destruct (Nat.eqb_spec (r_name r) p) as [E|E].
    - rewrite (Hq r (or_introl eq_refl) E), Hv. cbn [bind].
      unfold read at 1. cbn [r_self r_name r_idx picks]. unfold bindv at 1. rewrite Nat.eqb_refl. cbn [bind picks].
      destruct (traverse (read pick attr e) t) as [vs|]; cbn [bind]; [|reflexivity].
      cbn [some_args]. rewrite Hu. reflexivity.
    - replace (read pick attr (bindv e w (Some u)) r) with (read pick attr e r).
      2: { apply read_agree. intros _. unfold bindv.
           destruct (Nat.eqb_spec (r_name r) w) as [K|]; [|reflexivity]. exfalso. now apply (Hw r (or_introl eq_refl)). }
      destruct (read pick attr e r) as [a|]; cbn [bind]; [|reflexivity].
      destruct (traverse (read pick attr e) t) as [vs|]; cbn [bind]; reflexivity.
  Qed.

  (* the call fails when the replaced argument or [f] does *)
  Lemma sub_fails : forall e qs, (forall r, In r qs -> r_name r = p -> r = r0) ->
    (exists r, In r qs /\ r_name r = p) ->
    (bind (read pick attr e r0) f = None) ->
    bind (traverse (read pick attr e) qs) (some_args f (map (fun r => r_name r =? p) qs)) = None.
  Proof.
    intros e qs. induction qs as [|r t IH]; intros Hq [r1 [Hin Hn]] Hf; [contradiction|].
    cbn [map traverse]. destruct (Nat.eqb_spec (r_name r) p) as [E|E].
    - rewrite (Hq r (or_introl eq_refl) E). destruct (read pick attr e r0) as [v|]; [|reflexivity].
      cbn [bind] in *. destruct (traverse (read pick attr e) t) as [vs|]; [|reflexivity].
      cbn [bind some_args]. now rewrite Hf.
    - destruct Hin as [<-|Hin]; [contradiction|].
      specialize (IH (fun r' Hr' => Hq r' (or_intror Hr')) (ex_intro _ r1 (conj Hin Hn)) Hf).
      destruct (read pick attr e r) as [a|]; [|reflexivity]. cbn [bind].
      destruct (traverse (read pick attr e) t) as [vs|]; [|reflexivity]. cbn [bind] in *. cbn [some_args bind].
      now rewrite IH.
  Qed.

  Theorem run_between : forall ins l1 l2 ret vs,
    avoids l1 -> avoids l2 -> (forall qs, In qs ret -> forall r, In r qs -> r_name r <> w) -> ~ In w ins ->
    run pick attr sem_h
      (mkprog ins (lines_of l1 ++ Assign w [r0] :: Assign y (map (subr p (mkref false w [])) rs) :: lines_of l2) ret) vs =
    run pick attr sem_g (mkprog ins (lines_of l1 ++ Assign y rs :: lines_of l2) ret) vs.
  Proof.
    intros ins l1 l2 ret vs H1 H2 Hret Hw. unfold run. cbn [p_params p_body p_ret].
    destruct (params ins vs) as [e|]; cbn [bind]; [|reflexivity].
    rewrite !exec_app.
    pose proof (off_lines l1 e e H1 (fun z _ => eq_refl)) as K1.
    destruct (exec pick attr sem_g (lines_of l1) e) as [a|], (exec pick attr sem_h (lines_of l1) e) as [a'|];
      try (exact (match K1 with end)); [|reflexivity].
    cbn [related] in K1. cbn [bind exec step traverse].
    replace (read pick attr a' r0) with (read pick attr a r0)
      by (apply read_agree; intros _; symmetry; now apply K1).
    replace (sem_g y) with (through f (map (fun r => r_name r =? p) rs) (sem y))
      by (unfold sem_g, with_sem; now rewrite Nat.eqb_refl).
    unfold through.
    destruct (read pick attr a r0) as [v|] eqn:Ev.
    2: { cbn [bind]. pose proof (sub_fails a rs Hr0 Hsome) as Hf. rewrite Ev in Hf. specialize (Hf eq_refl).
         destruct (traverse (read pick attr a) rs) as [us|]; cbn [bind] in *; [now rewrite Hf|reflexivity]. }
    cbn [bind]. replace (sem_h w [v]) with (f v) by (unfold sem_h, with_sem; now rewrite Nat.eqb_refl).
    destruct (f v) as [u|] eqn:Eu.
    2: { cbn [bind]. pose proof (sub_fails a rs Hr0 Hsome) as Hf. rewrite Ev in Hf. specialize (Hf Eu).
         destruct (traverse (read pick attr a) rs) as [us|]; cbn [bind] in *; [now rewrite Hf|reflexivity]. }
    cbn [bind].
    assert (Ev' : read pick attr a' r0 = Some v)
      by (rewrite <- Ev; apply read_agree; intros _; now apply K1).
    rewrite (sub_args a' v u rs Ev' Eu Hr0 Hrsw).
    rewrite (off_reads a a' rs K1 Hrsw).
    destruct (traverse (read pick attr a) rs) as [us|]; cbn [bind]; [|reflexivity].
    destruct (some_args f (map (fun r => r_name r =? p) rs) us) as [us'|]; cbn [bind]; [|reflexivity].
    replace (sem_h y us') with (sem y us')
      by (unfold sem_h, with_sem; destruct (Nat.eqb_spec y w); [contradiction|reflexivity]).
    destruct (sem y us') as [b|]; cbn [bind]; [|reflexivity].
    assert (K2 : off (bindv a y (Some b)) (bindv (bindv a' w (Some u)) y (Some b))).
    { intros z Hz. unfold bindv. destruct (z =? y); [reflexivity|].
      destruct (Nat.eqb_spec z w); [contradiction|]. now apply K1. }
    pose proof (off_lines l2 _ _ H2 K2) as K3.
    destruct (exec pick attr sem_g (lines_of l2) (bindv a y (Some b))) as [c|],
      (exec pick attr sem_h (lines_of l2) (bindv (bindv a' w (Some u)) y (Some b))) as [c'|];
      try (exact (match K3 with end)); [|reflexivity].
    cbn [related bind] in *. apply traverse_ext. intros qs Hq. apply off_reads; [exact K3|]. now apply Hret.
  Qed.
End Programs.

(* ------------------------------------------------------------------ *)
(* Lists *)

Lemma hits_produced : forall t outs, 0 < hits t outs <->
  In t (flat_map (fun it => match it with TT t => [t] | TL ts => ts | TN _ => [] end) outs).
Proof.
  intros t outs. induction outs as [|o r IH]; cbn; [split; [lia|tauto]|].
  destruct o as [s|ts|m]; cbn [app].
  - destruct (Nat.eqb_spec s t) as [->|Hn]; cbn; [split; [now left|lia]|]. rewrite IH. split; [now right|].
    intros [|]; [congruence|assumption].
  - rewrite in_app_iff, <- IH, <- (mem_In t ts). destruct (mem t ts); split; intro H; try lia; auto.
    all: try (destruct H as [H|H]; [discriminate|lia]).
  - exact IH.
Qed.

Lemma replace_in_all : forall p w l k, length l <= k ->
  replace_in k p w l = map (fun q => if q =? p then w else q) l.
Proof.
  induction l as [|q l IH]; intros k H; [now destruct k|]. destruct k as [|k]; cbn in *; [lia|].
  now rewrite IH by lia.
Qed.

Lemma replace_first_In : forall y w l z, In z (replace_first y w l) -> z = w \/ In z l.
Proof.
  induction l as [|a l IH]; cbn; intros z H; [contradiction|]. destruct (a =? y).
  - destruct H; [now left|right; now right].
  - destruct H as [H|H]; [right; now left|]. apply IH in H. tauto.
Qed.

Lemma replace_first_keeps : forall y w l z, z <> y -> In z l -> In z (replace_first y w l).
Proof.
  induction l as [|a l IH]; cbn; intros z Hz H; [contradiction|]. destruct (Nat.eqb_spec a y) as [->|].
  - destruct H; [congruence|now right].
  - destruct H; [now left|right; auto].
Qed.

Lemma replace_first_new : forall y w l, In y l -> In w (replace_first y w l).
Proof.
  induction l as [|a l IH]; cbn; intro H; [contradiction|]. destruct (Nat.eqb_spec a y); [now left|].
  destruct H; [congruence|right; auto].
Qed.

Lemma insert_at_before : forall l1 l2 (y w : nat), insert_at (l1 ++ y :: l2) (length l1) w = l1 ++ w :: y :: l2.
Proof.
  intros. unfold insert_at. rewrite firstn_app, firstn_all, Nat.sub_diag, skipn_app, skipn_all, Nat.sub_diag.
  cbn. now rewrite app_nil_r.
Qed.

(* all shared tensors are the same one *)
Lemma gather_same : forall ptrs outs t idx pts,
  (forall s i, In (s, i) pts -> 0 < hits s outs -> s = t /\ i = idx) ->
  match ptrs with Some l => In t l | None => True end ->
  (forall e, In e (gather ptrs outs pts) -> e = (t, idx)) /\ remaining ptrs outs pts = 0 /\
  ((exists i, In (t, i) pts) -> 0 < hits t outs -> gather ptrs outs pts <> []).
Proof.
  intros ptrs outs t idx pts. induction pts as [|[s i] pts IH]; intros H Hp.
  - cbn. split; [tauto|]. split; [reflexivity|]. intros [i []].
  - destruct (IH (fun s' i' Hi => H s' i' (or_intror Hi)) Hp) as [I1 [I2 I3]].
    unfold gather, remaining in *. cbn [flat_map map list_sum fold_right fst]. split; [|split].
    + intros e He. apply in_app_or in He as [He|He]; [|auto].
      destruct (skipped ptrs s); [contradiction|]. pose proof He as He'. apply repeat_spec in He. subst e.
      assert (0 < hits s outs) by (destruct (hits s outs); cbn in He'; [contradiction|lia]).
      destruct (H s i (or_introl eq_refl) H0). congruence.
    + change (fold_right Nat.add 0) with list_sum. rewrite I2.
      destruct (skipped ptrs s) eqn:Es; [|reflexivity].
      destruct (hits s outs) eqn:Eh; [reflexivity|]. exfalso.
      destruct (H s i (or_introl eq_refl)) as [-> _]; [lia|].
      unfold skipped in Es. destruct ptrs as [l|]; [|discriminate]. apply negb_true_iff in Es.
      now apply mem_false in Es.
    + intros [j Hj] Ht E. apply app_eq_nil in E as [E1 E2].
      destruct Hj as [Hj|Hj]; [|now apply I3; eauto].
      inversion Hj; subst. assert (Es : skipped ptrs t = false).
      { unfold skipped. destruct ptrs as [l|]; [|reflexivity]. apply negb_false_iff. now apply mem_In. }
      rewrite Es in E1. destruct (hits t outs); [lia|discriminate].
Qed.

Lemma assoc_same : forall (found : list (nat * list nat)) t idx (cs : list nat) c s,
  (forall e, In e found -> e = (t, idx)) -> found <> [] ->
  assoc (combine (map fst found) (c :: cs)) s = if s =? t then Some c else None.
Proof.
  intros found t idx cs c s Hf Hne. destruct found as [|e fs]; [congruence|].
  rewrite (Hf e (or_introl eq_refl)) in *. cbn. rewrite (Nat.eqb_sym t s).
  destruct (Nat.eqb_spec s t) as [->|Hn]; [reflexivity|].
  assert (K : forall l (m : list nat), (forall e, In e l -> e = (t, idx)) -> assoc (combine (map fst l) m) s = None).
  { induction l as [|a l IH]; intros m Hl; [reflexivity|]. destruct m as [|b m]; [reflexivity|].
    cbn. rewrite (Hl a (or_introl eq_refl)). cbn. destruct (Nat.eqb_spec t s); [congruence|].
    apply IH. intros; apply Hl; now right. }
  apply K. intros; apply Hf; now right.
Qed.

(* the tensors, indices and replaced indices of the next node *)
Lemma retag_same : forall d t c idx prevt previ,
  (forall s, assoc d s = if s =? t then Some c else None) -> length prevt <= length previ ->
  (forall i, nth_error prevt i = Some t -> nth_error previ i = Some idx) ->
  exists b m, retag true d prevt previ = Some (map (fun s => if s =? t then c else s) prevt, b, m) /\
    length b = length previ /\ (forall e, In e m -> e = (idx, [])) /\ (In t prevt -> m <> []) /\
    (forall i s j, nth_error prevt i = Some s -> nth_error previ i = Some j ->
       nth_error b i = Some (if s =? t then [] else j)).
Proof.
  intros d t c idx prevt previ Hd. revert previ. induction prevt as [|s ts IH]; intros previ Hl Hi.
  - exists previ, []. cbn. repeat split; auto; try tauto. intros i s j H. destruct i; discriminate.
  - destruct previ as [|j js]; [cbn in Hl; lia|]. cbn in Hl.
    destruct (IH js) as [b [m [E [E1 [E2 [E3 E4]]]]]]; [lia|intros i Hn; exact (Hi (S i) Hn)|].
    cbn [retag]. rewrite E. cbn [bind]. rewrite (Hd s). cbn [map].
    destruct (Nat.eqb_spec s t) as [->|Hn].
    + eexists _, _. split; [reflexivity|]. split; [cbn; congruence|]. split; [|split].
      * intros e [<-|He]; [|auto]. specialize (Hi 0 eq_refl). cbn in Hi. congruence.
      * discriminate.
      * intros [|i] s j' H1 H2; cbn in *; [|eauto]. assert (s = t) by congruence. subst s. now rewrite Nat.eqb_refl.
    + eexists _, _. split; [reflexivity|]. split; [cbn; congruence|]. split; [auto|]. split.
      * intros [|H]; [congruence|auto].
      * intros [|i] s' j' H1 H2; cbn in *; [|eauto].
        assert (s = s') by congruence. assert (j = j') by congruence. subst s' j'.
        destruct (Nat.eqb_spec s t); [congruence|reflexivity].
Qed.

Lemma rename_same : forall p old new (m : list (list nat * list nat)) names,
  r_name new <> p -> r_name old = p ->
  (forall e, In e m -> mkref (r_self old) p (fst e) = old /\ mkref (r_self new) (r_name new) (snd e) = new) ->
  (forall r, In r names -> r_name r = p -> r = old) -> m <> [] ->
  fold_left (fun k on => rename_kind (mkref (r_self old) p (fst on)) (mkref (r_self new) (r_name new) (snd on)) k) m
    (KFun false names) = KFun false (map (subr p new) names) /\
  fold_left (fun k on => rename_kind (mkref (r_self old) p (fst on)) (mkref (r_self new) (r_name new) (snd on)) k) m
    (KFun true names) = KFun true (map (subr p new) names).
Proof.
  intros p old new m names Hnew Hold Hm Hnames Hne.
  assert (K : forall l c qs, (forall e, In e l -> mkref (r_self old) p (fst e) = old /\ mkref (r_self new) (r_name new) (snd e) = new) ->
    (forall r, In r qs -> r_name r = p -> False) ->
    fold_left (fun k on => rename_kind (mkref (r_self old) p (fst on)) (mkref (r_self new) (r_name new) (snd on)) k) l
      (KFun c qs) = KFun c qs).
  { induction l as [|e l IH]; intros c qs Hl Hq; [reflexivity|]. cbn [fold_left rename_kind].
    destruct (Hl e (or_introl eq_refl)) as [-> ->].
    replace (rename old new qs) with qs; [apply IH; [intros; apply Hl; now right|exact Hq]|].
    unfold rename. rewrite <- (map_id qs) at 1. apply map_ext_in. intros r Hr.
    destruct (ref_eqb r old) eqn:E; [|reflexivity]. apply ref_eqb_eq in E. subst r. exfalso. eapply Hq; eauto. }
  destruct m as [|e l]; [congruence|]. cbn [fold_left rename_kind].
  destruct (Hm e (or_introl eq_refl)) as [-> ->].
  assert (E : rename old new names = map (subr p new) names).
  { unfold rename, subr. apply map_ext_in. intros r Hr. destruct (Nat.eqb_spec (r_name r) p) as [Ep|Ep].
    - rewrite (Hnames r Hr Ep). replace (ref_eqb old old) with true; [reflexivity|].
      symmetry. now apply ref_eqb_eq.
    - destruct (ref_eqb r old) eqn:Er; [|reflexivity]. apply ref_eqb_eq in Er. congruence. }
  rewrite E.
  assert (Hq : forall r, In r (map (subr p new) names) -> r_name r = p -> False).
  { intros r Hr Ep. apply in_map_iff in Hr as [r1 [<- Hr1]]. unfold subr in Ep.
    destruct (Nat.eqb_spec (r_name r1) p); congruence. }
  split; apply K; auto; intros; apply Hm; now right.
Qed.

(* ------------------------------------------------------------------ *)
(* The graph behind insert_between *)

Lemma nodup_app_r : forall (a b : list nat), NoDup (a ++ b) -> NoDup b.
Proof. induction a as [|x a IH]; intros b H; [exact H|]. inversion_clear H. auto. Qed.

Lemma refs_count : forall g y, length (n_prevs (g_node g y)) <= length (n_previ (g_node g y)) ->
  length (refs g y) = length (n_prevs (g_node g y)).
Proof. intros. unfold refs. rewrite map_length, combine_length. lia. Qed.

(* insert_between without the check of the link and with the given order *)
Definition insert_core (g : graph) (p y : nat) (k : kind) (given : option nat) (move : bool)
  (ptrs : option (list nat)) (fwd : list nat) : option graph :=
  let w := g_fresh g in
  let n := match given with
           | Some m => m
           | None => length (gather ptrs (n_nextt (g_node g p))
                       (combine (n_prevt (g_node g y)) (n_previ (g_node g y))))
           end in
  let g1 := mkgraph (g_node g) (g_in g) fwd (g_out g) (g_const g) (S w) (g_tensor g + n) (g_shape g) in
  between g1 p y w (mknode k [p] [y] [] [] [] 0 false) (new_tensors g given) move ptrs.

Section Between.
  Variable g : graph.
  Variables p y t : nat.
  Variable idx : list nat.
  Variable k : kind.
  Variable given : option nat.
  Variable ptrs : option (list nat).
  Hypothesis L : linked g.
  Hypothesis Ly : live g y.
  (* the new node is put somewhere into the order *)
  Variables l1 l2 : list nat.
  Hypothesis El : g_fwd g = l1 ++ l2.
  Hypothesis Hp : In p (n_prevs (g_node g y)).
  Hypothesis Hpy : p <> y.
  Hypothesis Halign : length (n_prevt (g_node g y)) = length (n_prevs (g_node g y)).
  (* the next node takes one tensor of the previous node *)
  Hypothesis Hone : forall i, nth_error (n_prevs (g_node g y)) i = Some p ->
    nth_error (n_prevt (g_node g y)) i = Some t /\ nth_error (n_previ (g_node g y)) i = Some idx.
  Hypothesis Hgiven : match given with Some m => 1 <= m | None => True end.
  Hypothesis Hptrs : match ptrs with Some l => In t l | None => True end.

  Let ny := g_node g y.
  Let np := g_node g p.
  Let pc := is_const (n_kind np).
  Let w := g_fresh g.
  Let old := mkref pc p idx.
  Let new := mkref false w [].
  Let c0 := g_tensor g.

  Hypothesis Hk : k = KMod \/ exists c, k = KFun c [old].

  Lemma bt_y : y < w. Proof. apply (lk_fresh _ L). right. left. exact Ly. Qed.
  Lemma bt_p : p < w. Proof. now apply (lk_fresh_prev _ L y). Qed.

  Lemma bt_at : forall i s, nth_error (n_prevs ny) i = Some s ->
    exists r j, nth_error (n_prevt ny) i = Some r /\ nth_error (n_previ ny) i = Some j /\
      In r (produced (g_node g s)) /\ (s = p <-> r = t).
  Proof.
    intros i s Hs. destruct (lk_prev _ L y i s Ly Hs) as [_ [_ [r [Hr Hpr]]]].
    assert (Hj : exists j, nth_error (n_previ ny) i = Some j).
    { pose proof (rd_align _ (lk_rendered _ L) y Ly) as Hal. fold ny in Hal.
      assert (i < length (n_prevs ny)) by (apply nth_error_Some; congruence).
      destruct (nth_error (n_previ ny) i) eqn:E; [eauto|]. apply nth_error_None in E. lia. }
    destruct Hj as [j Hj]. exists r, j. repeat (split; [assumption|]). split.
    - intros ->. destruct (Hone i Hs) as [K _]. unfold ny in Hr. congruence.
    - intros ->. apply In_nth_error in Hp as [i0 Hi0]. destruct (Hone i0 Hi0) as [K1 _].
      destruct (lk_prev _ L y i0 p Ly Hi0) as [_ [Hn [t' [Ht' Hp']]]].
      assert (t' = t) by congruence. subst t'.
      pose proof (lk_own _ L y i p t Ly Hn Hr Hp') as K2.
      assert (i < length (n_prevs (g_node g y))) by (apply nth_error_Some; unfold ny in Hs; congruence).
      specialize (K2 H). unfold ny in Hs. congruence.
  Qed.

  Lemma bt_t : In t (produced np) /\ In y (n_nexts np) /\ In t (n_prevt ny) /\ defined g p.
  Proof.
    apply In_nth_error in Hp as [i0 Hi0]. destruct (Hone i0 Hi0) as [K1 _].
    destruct (lk_prev _ L y i0 p Ly Hi0) as [K2 [Hn [t' [Ht' Hp']]]].
    assert (t' = t) by congruence. subst t'. repeat split; auto. eapply nth_error_In; eauto.
  Qed.

  Lemma bt_prev_of_t : forall i r, nth_error (n_prevt ny) i = Some r ->
    exists s, nth_error (n_prevs ny) i = Some s.
  Proof.
    intros i r H. assert (i < length (n_prevt ny)) by (apply nth_error_Some; congruence).
    destruct (nth_error (n_prevs ny) i) eqn:E; [eauto|]. apply nth_error_None in E. unfold ny in *. lia.
  Qed.

  Let outs := n_nextt np.
  Let pts := combine (n_prevt ny) (n_previ ny).
  Let found := gather ptrs outs pts.

  Lemma bt_pts : forall s i, In (s, i) pts -> 0 < hits s outs -> s = t /\ i = idx.
  Proof.
    intros s i H Hh. apply hits_produced in Hh. fold (produced np) in Hh.
    apply In_nth_error in H as [j Hj].
    assert (H1 : nth_error (n_prevt ny) j = Some s /\ nth_error (n_previ ny) j = Some i).
    { revert Hj. unfold pts. generalize (n_prevt ny) as a. generalize (n_previ ny) as b. clear.
      induction j as [|j IH]; intros [|b bs] [|a l] H; cbn in *; try discriminate; [inversion H; auto|auto]. }
    destruct H1 as [H1 H2]. destruct (bt_prev_of_t j s H1) as [q Hq].
    assert (q = p).
    { pose proof (lk_own _ L y j p s Ly (proj1 (proj2 bt_t)) H1 Hh) as K.
      assert (j < length (n_prevs (g_node g y))) by (apply nth_error_Some; unfold ny in Hq; congruence).
      specialize (K H). unfold ny in Hq. congruence. }
    subst q. destruct (Hone j Hq). unfold ny in *. split; congruence.
  Qed.

  Lemma bt_found : (forall e, In e found -> e = (t, idx)) /\ remaining ptrs outs pts = 0 /\ found <> [].
  Proof.
    destruct (gather_same ptrs outs t idx pts bt_pts Hptrs) as [H1 [H2 H3]].
    split; [exact H1|]. split; [exact H2|]. apply H3.
    - destruct bt_t as [_ [_ [Ht _]]]. apply In_nth_error in Ht as [i Hi].
      destruct (bt_prev_of_t i t Hi) as [q Hq]. destruct (bt_at i q Hq) as [r [j [K1 [K2 _]]]].
      exists j. eapply nth_error_In. apply nth_combine; eauto.
    - apply hits_produced. apply bt_t.
  Qed.

  Let cs := new_tensors g given (length found).
  Let z := combine found cs.
  Let nw := mknode k [p] [y] (map (fun e => fst (fst e)) z) (map (fun e => TT (snd e)) z)
              (map (fun e => snd (fst e)) z) 0 false.

  Lemma bt_cs : exists rest, cs = c0 :: rest /\ (forall c, In c cs -> c0 <= c < c0 + length cs).
  Proof.
    unfold cs, new_tensors. fold c0.
    assert (Hm : exists m, match given with Some m => m | None => length found end = S m).
    { destruct given as [m|]; [destruct m; [cbn in Hgiven; lia|eauto]|].
      destruct bt_found as [_ [_ Hf]]. destruct found; [congruence|]. cbn. eauto. }
    destruct Hm as [m ->]. exists (seq (S c0) m). split; [reflexivity|].
    intros c Hc. rewrite seq_length. apply in_seq in Hc. lia.
  Qed.

  Lemma bt_z : exists z', z = ((t, idx), c0) :: z' /\
    (forall e, In e z -> fst e = (t, idx) /\ c0 <= snd e < c0 + length cs).
  Proof.
    destruct bt_cs as [rest [Ec Hc]]. destruct bt_found as [Hf [_ Hne]].
    assert (K : exists e fs, found = e :: fs) by (destruct found; [congruence|eauto]). destruct K as [e [fs Ef]].
    exists (combine fs rest). split.
    - unfold z. rewrite Ec, Ef. cbn [combine]. rewrite (Hf e); [reflexivity|]. rewrite Ef. now left.
    - intros [e' c] He. unfold z in He. split.
      + apply in_combine_l in He. now apply Hf.
      + apply in_combine_r in He. now apply Hc.
  Qed.

  Lemma bt_retag : exists b m, retag true (combine (map fst found) cs) (n_prevt ny) (n_previ ny) =
      Some (map (fun s => if s =? t then c0 else s) (n_prevt ny), b, m) /\
    length b = length (n_previ ny) /\ (forall e, In e m -> e = (idx, [])) /\ m <> [] /\
    (forall i s j, nth_error (n_prevt ny) i = Some s -> nth_error (n_previ ny) i = Some j ->
       nth_error b i = Some (if s =? t then [] else j)).
  Proof.
    destruct bt_cs as [rest [Ec _]]. destruct bt_found as [Hf [_ Hne]].
    destruct (retag_same (combine (map fst found) cs) t c0 idx (n_prevt ny) (n_previ ny)) as [b [m [E1 [E2 [E3 [E4 E5]]]]]].
    - intro s. rewrite Ec. now apply (assoc_same found t idx).
    - pose proof (rd_align _ (lk_rendered _ L) y Ly). unfold ny. lia.
    - intros i Hi. destruct (bt_prev_of_t i t Hi) as [q Hq]. destruct (bt_at i q Hq) as [r [j [K1 [K2 [_ K3]]]]].
      assert (q = p) by (apply K3; congruence). subst q. now apply Hone.
    - exists b, m. repeat (split; [assumption|]). split; [|exact E5]. apply E4. apply bt_t.
  Qed.

  (* the graph, with the indices [b] of the next node *)
  Definition bt_kind : kind :=
    match n_kind ny with KFun c names => KFun c (map (subr p new) names) | k' => k' end.
  Definition bt_node (b : list (list nat)) : node :=
    mknode bt_kind (map (fun q => if q =? p then w else q) (n_prevs ny)) (n_nexts ny)
      (map (fun s => if s =? t then c0 else s) (n_prevt ny)) (n_nextt ny) b (n_order ny) (n_rev ny).
  Definition bt_graph (b : list (list nat)) : graph :=
    upd (upd (upd (mkgraph (g_node g) (g_in g) (l1 ++ w :: l2) (g_out g) (g_const g) (S w)
      (c0 + match given with Some m => m | None => length found end) (g_shape g)) w nw) y (bt_node b)) p
      (set_nexts np (replace_first y w (n_nexts np))).

  Lemma bt_eq : exists b, insert_core g p y k given true ptrs (l1 ++ w :: l2) = Some (bt_graph b) /\
    length b = length (n_previ ny) /\
    (forall i s j, nth_error (n_prevt ny) i = Some s -> nth_error (n_previ ny) i = Some j ->
       nth_error b i = Some (if s =? t then [] else j)).
  Proof.
    destruct bt_retag as [b [m [E1 [E2 [E3 [E4 E5]]]]]]. exists b. split; [|auto].
    pose proof bt_y as By. pose proof bt_p as Bp.
    unfold insert_core.
    unfold between. cbn [g_node g_tensor]. fold ny np w. fold outs pts found.
    destruct bt_cs as [rest [Ec _]]. fold cs. rewrite Ec at 1. cbn [n_kind n_prevs n_nexts n_order n_rev].
    rewrite E1. cbn [bind fold_left]. f_equal. unfold connect. destruct bt_found as [_ [Erem _]]. rewrite Erem.
    cbn [Nat.ltb Nat.leb]. rewrite Nat.sub_0_r, replace_in_all by lia.
    unfold bt_graph. fold z. f_equal.
    - f_equal. unfold bt_node. f_equal. unfold bt_kind.
      assert (Hkc : is_const k = false) by (destruct Hk as [E|[c E]]; rewrite E; reflexivity). rewrite Hkc.
      destruct (n_kind ny) as [ | | | |c names] eqn:Ek.
      1-4: clear; induction m as [|e m IH]; cbn; auto.
      assert (Hn : names = refs g y).
      { destruct Ly as [Hy|Hy].
        - pose proof (rd_fwd _ (lk_rendered _ L) y Hy) as K. fold ny in K. rewrite Ek in K. tauto.
        - pose proof (lk_out _ L y Hy) as K. fold ny in K. congruence. }
      destruct (rename_same p old new m names) as [R1 R2]; try (exact E4).
      + unfold new. cbn. lia.
      + reflexivity.
      + intros e He. rewrite (E3 e He). split; reflexivity.
      + intros r Hr Er. rewrite Hn in Hr. apply refs_In in Hr as [j [q [ix [K1 [K2 ->]]]]]. cbn in Er. subst q.
        destruct (Hone j K1) as [_ K3]. unfold old, pc, np. congruence.
      + unfold old, new in R1, R2. cbn [r_self r_name] in R1, R2. destruct c; assumption.
    - rewrite !upd_node. destruct (Nat.eqb_spec p y); [congruence|]. destruct (Nat.eqb_spec p w); [lia|]. reflexivity.
  Qed.

  Section Fixed.
    Variable b : list (list nat).
    Hypothesis Hb : length b = length (n_previ ny).
    Hypothesis Hbi : forall i s j, nth_error (n_prevt ny) i = Some s -> nth_error (n_previ ny) i = Some j ->
       nth_error b i = Some (if s =? t then [] else j).
    Let h := bt_graph b.

    Lemma bt_nodes : forall x, g_node h x =
      if x =? p then set_nexts np (replace_first y w (n_nexts np))
      else if x =? y then bt_node b else if x =? w then nw else g_node g x.
    Proof. reflexivity. Qed.

    Lemma bt_node_y : g_node h y = bt_node b.
    Proof. rewrite bt_nodes. destruct (Nat.eqb_spec y p); [congruence|]. now rewrite Nat.eqb_refl. Qed.

    Lemma bt_node_w : g_node h w = nw.
    Proof.
      rewrite bt_nodes. pose proof bt_y. pose proof bt_p. destruct (Nat.eqb_spec w p); [lia|].
      destruct (Nat.eqb_spec w y); [lia|]. now rewrite Nat.eqb_refl.
    Qed.

    Lemma bt_old : forall x, x <> w -> x <> y ->
      n_kind (g_node h x) = n_kind (g_node g x) /\ n_prevs (g_node h x) = n_prevs (g_node g x) /\
      n_prevt (g_node h x) = n_prevt (g_node g x) /\ n_nextt (g_node h x) = n_nextt (g_node g x) /\
      n_previ (g_node h x) = n_previ (g_node g x) /\ n_rev (g_node h x) = n_rev (g_node g x).
    Proof.
      intros x H1 H2. rewrite bt_nodes. destruct (Nat.eqb_spec x p) as [->|]; [repeat split|].
      destruct (Nat.eqb_spec x y); [congruence|]. destruct (Nat.eqb_spec x w); [congruence|]. repeat split.
    Qed.

    Lemma bt_const : forall x, x <> w -> is_const (n_kind (g_node h x)) = is_const (n_kind (g_node g x)).
    Proof.
      intros x H. destruct (Nat.eq_dec x y) as [->|Hn]; [|now destruct (bt_old x H Hn) as [-> _]].
      rewrite bt_node_y. cbn. unfold bt_kind. fold ny. now destruct (n_kind ny).
    Qed.

    Lemma bt_const_w : is_const (n_kind (g_node h w)) = false.
    Proof. rewrite bt_node_w. cbn. destruct Hk as [E|[c E]]; rewrite E; reflexivity. Qed.

    Lemma bt_nextt : forall x, x <> w -> n_nextt (g_node h x) = n_nextt (g_node g x).
    Proof.
      intros x H. destruct (Nat.eq_dec x y) as [->|Hn]; [|now destruct (bt_old x H Hn) as [_ [_ [_ [-> _]]]]].
      now rewrite bt_node_y.
    Qed.

    Lemma bt_in_fwd : forall x, In x (g_fwd h) <-> x = w \/ In x (g_fwd g).
    Proof. intro x. change (g_fwd h) with (l1 ++ w :: l2). rewrite El, !in_app_iff. cbn. intuition. Qed.

    Lemma bt_live : forall x, live h x <-> x = w \/ live g x.
    Proof.
      intro x. unfold live. change (g_out h) with (g_out g). rewrite bt_in_fwd. tauto.
    Qed.

    Lemma live_lt : forall x, live g x -> x < w.
    Proof. intros x H. apply (lk_fresh _ L). tauto. Qed.

    Lemma bt_defined : forall x, x <> w -> defined g x -> defined h x.
    Proof.
      intros x Hx [H|[H|H]]; [now left| |].
      - right. left. apply bt_in_fwd. now right.
      - right. right. now rewrite bt_const.
    Qed.

    Lemma bt_refs_old : forall x, live g x -> x <> y -> refs h x = refs g x.
    Proof.
      intros x Hl Hn. pose proof (live_lt x Hl). destruct (bt_old x) as [_ [H2 [_ [_ [H5 _]]]]]; [lia|exact Hn|].
      apply refs_eq; [exact H2|exact H5|]. intros q Hq. apply bt_const.
      pose proof (lk_fresh_prev _ L x q Hl Hq). unfold w. lia.
    Qed.

    Lemma bt_refs_y : refs h y = map (subr p new) (refs g y).
    Proof.
      pose proof (rd_align _ (lk_rendered _ L) y Ly) as Hal. apply nth_ext_error. intro i. rewrite nth_error_map.
      destruct (nth_error (n_prevs ny) i) as [q|] eqn:Eq.
      - destruct (bt_at i q Eq) as [r [j [K1 [K2 [_ K3]]]]].
        rewrite (nth_refs g y i q j Eq K2). cbn [option_map].
        assert (E1 : nth_error (n_prevs (g_node h y)) i = Some (if q =? p then w else q))
          by (rewrite bt_node_y; cbn; rewrite nth_error_map, Eq; reflexivity).
        assert (E2 : nth_error (n_previ (g_node h y)) i = Some (if r =? t then [] else j))
          by (rewrite bt_node_y; cbn; now apply Hbi).
        rewrite (nth_refs h y i _ _ E1 E2). f_equal. unfold subr. cbn [r_name].
        assert (q < w) by (apply (lk_fresh_prev _ L y q Ly); eapply nth_error_In; eauto).
        destruct (Nat.eqb_spec q p) as [->|Hq].
        + rewrite (proj1 K3 eq_refl), Nat.eqb_refl, bt_const_w. reflexivity.
        + destruct (Nat.eqb_spec r t) as [->|Hr]; [tauto|]. rewrite bt_const by lia. reflexivity.
      - assert (E1 : nth_error (refs g y) i = None)
          by (apply nth_error_None; rewrite refs_count by exact Hal; now apply nth_error_None).
        rewrite E1. apply nth_error_None. rewrite refs_count.
        + rewrite bt_node_y. cbn. rewrite map_length. now apply nth_error_None.
        + rewrite bt_node_y. cbn. rewrite map_length, Hb. exact Hal.
    Qed.

    Lemma bt_refs_w : refs h w = [old].
    Proof.
      unfold refs. rewrite bt_node_w. unfold nw. cbn [n_prevs n_previ].
      destruct bt_z as [z' [Ez _]]; rewrite Ez. cbn [map combine fst snd]. rewrite bt_const by (pose proof bt_p; lia). reflexivity.
    Qed.

    Lemma linked_between : linked h.
    Proof.
      pose proof (lk_rendered _ L) as Rd. pose proof bt_y as By. pose proof bt_p as Bp.
      destruct bt_t as [Bt1 [Bt2 [Bt3 Bt4]]].
      assert (Hfw : In w (g_fwd h)) by (apply bt_in_fwd; now left).
      assert (Hfr : forall x, In x (g_in g) \/ live g x \/ In x (g_const g) -> x <> w)
        by (intros x K; apply (lk_fresh _ L) in K; unfold w; lia).
      assert (Hfc : c0 < g_tensor h).
      { change (g_tensor h) with (c0 + match given with Some m => m | None => length found end).
        destruct bt_cs as [rest [Ec _]]. unfold cs, new_tensors in Ec.
        destruct (match given with Some m => m | None => length found end); [discriminate|lia]. }
      assert (Hprod : forall q s, In s (produced (g_node h q)) ->
        (q = w /\ c0 <= s < g_tensor h) \/ (q <> w /\ In s (produced (g_node g q)))).
      { intros q s H. destruct (Nat.eq_dec q w) as [->|Hq].
        - left. split; [reflexivity|]. rewrite bt_node_w in H. unfold produced, nw in H. cbn [n_nextt] in H.
          apply in_flat_map in H as [it [Hit Hs]]. apply in_map_iff in Hit as [e [<- He]].
          destruct Hs as [<-|[]]. destruct bt_z as [_ [_ Hz]]. destruct (Hz e He) as [_ K].
          change (g_tensor h) with (c0 + match given with Some m => m | None => length found end).
          unfold cs, new_tensors in K. rewrite seq_length in K. exact K.
        - right. split; [exact Hq|]. unfold produced in *. now rewrite bt_nextt in H. }
      assert (Hprod2 : forall q s, q <> w -> In s (produced (g_node g q)) -> In s (produced (g_node h q)))
        by (intros q s Hq H; unfold produced in *; now rewrite bt_nextt).
      assert (Hcw : In c0 (produced (g_node h w))).
      { rewrite bt_node_w. unfold produced, nw. cbn [n_nextt]. destruct bt_z as [z' [Ez _]]; rewrite Ez. now left. }
      assert (Hlt : forall q s, In s (produced (g_node g q)) -> s < c0) by (intros q s H; now apply (lk_tensor _ L q)).
      constructor; [constructor|..].
      - change (g_in h) with (g_in g). change (g_out h) with (g_out g). change (g_fwd h) with (l1 ++ w :: l2).
        pose proof (rd_nodup _ Rd) as Hn. rewrite El in Hn.
        replace (g_in g ++ (l1 ++ l2) ++ g_out g) with ((g_in g ++ l1) ++ l2 ++ g_out g) in Hn
          by (rewrite <- !app_assoc; reflexivity).
        replace (g_in g ++ (l1 ++ w :: l2) ++ g_out g) with ((g_in g ++ l1) ++ (w :: l2) ++ g_out g)
          by (rewrite <- !app_assoc; reflexivity).
        apply NoDup_insert; [exact Hn|]. intro K.
        assert (K' : In w (g_in g) \/ live g w).
        { unfold live. rewrite El. rewrite !in_app_iff in *. tauto. }
        apply (Hfr w); tauto.
      - intros x Hx. apply bt_live in Hx as [->|Hx].
        + rewrite bt_node_w. cbn. destruct bt_z as [z' [Ez _]]; rewrite Ez. cbn. lia.
        + destruct (Nat.eq_dec x y) as [->|Hn].
          * rewrite bt_node_y. cbn. rewrite map_length, Hb. now apply (rd_align _ Rd).
          * destruct (bt_old x) as [_ [-> [_ [_ [-> _]]]]]; [apply Hfr; tauto|exact Hn|]. now apply (rd_align _ Rd).
      - intros x Hx. assert (Hl : live h x) by (now left). apply bt_live in Hl as [->|Hl].
        + rewrite bt_refs_w, bt_node_w. cbn. destruct Hk as [E|[c E]]; rewrite E; [exact I|]. split; [reflexivity|discriminate].
        + assert (Hxw : x <> w) by (apply Hfr; tauto).
          assert (Hx' : In x (g_fwd g)).
          { apply bt_in_fwd in Hx as [|]; [congruence|assumption]. }
          pose proof (rd_fwd _ Rd x Hx') as Hkx. destruct (Nat.eq_dec x y) as [->|Hn].
          * rewrite bt_refs_y, bt_node_y. cbn. unfold bt_kind. fold ny in Hkx. destruct (n_kind ny); try exact Hkx.
            destruct Hkx as [-> Hc]. split; [reflexivity|]. intros C E. apply (Hc C). now destruct (refs g y).
          * rewrite (bt_refs_old x Hl Hn). destruct (bt_old x Hxw Hn) as [-> _]. exact Hkx.
      - intros x Hx. change (g_out h) with (g_out g) in Hx. pose proof (rd_out _ Rd x Hx) as K.
        destruct (Nat.eq_dec x y) as [->|Hn].
        + rewrite bt_node_y. cbn. fold ny in K. intro E. apply K. exact (map_eq_nil _ _ E).
        + destruct (bt_old x) as [_ [-> _]]; [apply Hfr; unfold live; tauto|exact Hn|exact K].
      - intros x Hx. change (g_in h) with (g_in g) in Hx. pose proof (lk_in _ L x Hx) as K.
        destruct (Nat.eq_dec x y) as [->|Hn].
        + rewrite bt_node_y. cbn. unfold bt_kind. fold ny in K. now rewrite K.
        + destruct (bt_old x) as [-> _]; [apply Hfr; tauto|exact Hn|exact K].
      - intros x Hx. change (g_out h) with (g_out g) in Hx. pose proof (lk_out _ L x Hx) as K.
        destruct (Nat.eq_dec x y) as [->|Hn].
        + rewrite bt_node_y. cbn. unfold bt_kind. fold ny in K. now rewrite K.
        + destruct (bt_old x) as [-> _]; [apply Hfr; unfold live; tauto|exact Hn|exact K].
      - intros x Hx. change (g_const h) with (g_const g) in Hx. pose proof (lk_const _ L x Hx) as K.
        destruct (Nat.eq_dec x y) as [->|Hn].
        + rewrite bt_node_y. cbn. unfold bt_kind. fold ny in K. now rewrite K.
        + destruct (bt_old x) as [-> _]; [apply Hfr; tauto|exact Hn|exact K].
      - intros x i q Hx Hq. apply bt_live in Hx as [->|Hx].
        + rewrite bt_node_w in *. unfold nw in *. cbn [n_prevs n_prevt] in *.
          destruct i as [|[|i]]; cbn in Hq; try discriminate. assert (q = p) by congruence. subst q. split; [|split].
          * apply bt_defined; [lia|exact Bt4].
          * rewrite bt_nodes, Nat.eqb_refl. cbn. now apply replace_first_new.
          * exists t. destruct bt_z as [z' [Ez _]]; rewrite Ez. split; [reflexivity|]. apply Hprod2; [lia|exact Bt1].
        + assert (Hxw : x <> w) by (apply Hfr; tauto). destruct (Nat.eq_dec x y) as [->|Hn].
          * rewrite bt_node_y in *. cbn [bt_node n_prevs n_prevt] in *. rewrite nth_error_map in Hq.
            destruct (nth_error (n_prevs ny) i) as [s|] eqn:Es; [|discriminate]. cbn in Hq.
            destruct (bt_at i s Es) as [r [j [K1 [K2 [K3 K4]]]]].
            rewrite nth_error_map, K1. cbn [option_map].
            destruct (Nat.eqb_spec s p) as [->|Hs].
            -- assert (q = w) by congruence. subst q. rewrite (proj1 K4 eq_refl), Nat.eqb_refl.
               split; [right; now left|]. split; [rewrite bt_node_w; now left|]. exists c0. auto.
            -- assert (q = s) by congruence. subst q. destruct (Nat.eqb_spec r t) as [Er|Hr]; [tauto|].
               assert (s < w) by (apply (lk_fresh_prev _ L y s Ly); eapply nth_error_In; eauto).
               destruct (lk_prev _ L y i s Ly Es) as [Hd [Hnx _]].
               split; [apply bt_defined; [lia|exact Hd]|]. split.
               ++ rewrite bt_nodes. destruct (Nat.eqb_spec s p); [congruence|].
                  destruct (Nat.eqb_spec s y) as [->|]; [exact Hnx|]. destruct (Nat.eqb_spec s w); [lia|exact Hnx].
               ++ exists r. split; [reflexivity|]. apply Hprod2; [lia|exact K3].
          * destruct (bt_old x Hxw Hn) as [_ [E2 [E3 _]]]. rewrite E2 in Hq. rewrite E3.
            destruct (lk_prev _ L x i q Hx Hq) as [Hd [Hnx [s [Hs Hps]]]].
            assert (q < w) by (apply (lk_fresh_prev _ L x q Hx); eapply nth_error_In; eauto).
            split; [apply bt_defined; [lia|exact Hd]|]. split.
            -- rewrite bt_nodes. destruct (Nat.eqb_spec q p) as [->|].
               ++ cbn. now apply replace_first_keeps.
               ++ destruct (Nat.eqb_spec q y) as [->|]; [exact Hnx|]. destruct (Nat.eqb_spec q w); [lia|exact Hnx].
            -- exists s. split; [exact Hs|]. apply Hprod2; [lia|exact Hps].
      - intros x i q s Hx Hnx Hs Hpr Hi. apply bt_live in Hx as [->|Hx].
        + rewrite bt_node_w in *. unfold nw in *. cbn [n_prevs n_prevt] in *. cbn in Hi. assert (i = 0) by lia. subst i.
          destruct bt_z as [z' [Ez _]]. rewrite Ez in Hs. cbn in Hs. assert (s = t) by congruence. subst s.
          apply Hprod in Hpr as [[-> K]|[Hq K]]; [pose proof (Hlt p t Bt1); lia|].
          cbn. f_equal. symmetry.
          (* [w] is among the next nodes of [q] only when [q] is [p] *)
          rewrite bt_nodes in Hnx. destruct (Nat.eqb_spec q p) as [|Hqp]; [assumption|]. exfalso.
          destruct (Nat.eqb_spec q y) as [->|Hqy].
          * cbn in Hnx. pose proof (lk_fresh_next _ L w y Hnx). unfold w in *. lia.
          * destruct (Nat.eqb_spec q w); [congruence|]. pose proof (lk_fresh_next _ L w q Hnx). unfold w in *. lia.
        + assert (Hxw : x <> w) by (apply Hfr; tauto). destruct (Nat.eq_dec x y) as [->|Hn].
          * rewrite bt_node_y in *. cbn [bt_node n_prevs n_prevt] in *. rewrite map_length in Hi.
            rewrite nth_error_map. destruct (nth_error (n_prevs ny) i) as [s0|] eqn:Es; [|apply nth_error_None in Es; lia].
            destruct (bt_at i s0 Es) as [r [j [K1 [K2 [K3 K4]]]]].
            rewrite nth_error_map, K1 in Hs. cbn [option_map] in *.
            apply Hprod in Hpr as [[-> Hge]|[Hqw Hpr]].
            -- destruct (Nat.eqb_spec s0 p) as [->|Hs0]; [reflexivity|]. exfalso.
               destruct (Nat.eqb_spec r t) as [Er|Hr]; [tauto|]. assert (s = r) by congruence. subst s.
               pose proof (Hlt s0 r K3). lia.
            -- destruct (Nat.eqb_spec r t) as [Er|Hr].
               ++ exfalso. assert (s = c0) by congruence. subst s. pose proof (Hlt q c0 Hpr). lia.
               ++ assert (s = r) by congruence. subst s. destruct (Nat.eqb_spec s0 p) as [->|Hs0]; [tauto|]. f_equal.
                  assert (Hnx' : In y (n_nexts (g_node g q))).
                  { rewrite bt_nodes in Hnx. destruct (Nat.eqb_spec q p) as [->|].
                    - cbn in Hnx. apply replace_first_In in Hnx as [Ew|]; [lia|assumption].
                    - destruct (Nat.eqb_spec q y) as [->|]; [exact Hnx|]. destruct (Nat.eqb_spec q w); [congruence|exact Hnx]. }
                  pose proof (lk_own _ L y i q r Ly Hnx' K1 Hpr Hi) as K. unfold ny in Es. congruence.
          * destruct (bt_old x Hxw Hn) as [_ [E2 [E3 _]]]. rewrite E2 in *. rewrite E3 in Hs.
            destruct (nth_error (n_prevs (g_node g x)) i) as [s0|] eqn:Es; [|apply nth_error_None in Es; lia].
            destruct (lk_prev _ L x i s0 Hx Es) as [_ [_ [s' [Hs' Hps']]]]. assert (s' = s) by congruence. subst s'.
            apply Hprod in Hpr as [[-> Hge]|[Hqw Hpr]]; [pose proof (Hlt s0 s Hps'); lia|].
            assert (Hnx' : In x (n_nexts (g_node g q))).
            { rewrite bt_nodes in Hnx. destruct (Nat.eqb_spec q p) as [->|].
              - cbn in Hnx. apply replace_first_In in Hnx as [Ew|]; [congruence|assumption].
              - destruct (Nat.eqb_spec q y) as [->|]; [exact Hnx|]. destruct (Nat.eqb_spec q w); [congruence|exact Hnx]. }
            rewrite <- Es. now apply (lk_own _ L x i q s).
      - intros x Hx. change (g_in h) with (g_in g) in Hx. change (g_const h) with (g_const g) in Hx.
        change (g_fresh h) with (S w). rewrite bt_live in Hx.
        assert (x = w \/ (In x (g_in g) \/ live g x \/ In x (g_const g))) by tauto.
        destruct H as [->|H]; [lia|]. apply (lk_fresh _ L) in H. unfold w. lia.
      - intros x q Hx Hq. change (g_fresh h) with (S w). apply bt_live in Hx as [->|Hx].
        + rewrite bt_node_w in Hq. cbn in Hq. destruct Hq as [<-|[]]. lia.
        + destruct (Nat.eq_dec x y) as [->|Hn].
          * rewrite bt_node_y in Hq. cbn in Hq. apply in_map_iff in Hq as [s [<- Hs]].
            pose proof (lk_fresh_prev _ L y s Ly Hs). destruct (s =? p); unfold w; lia.
          * destruct (bt_old x) as [_ [E2 _]]; [apply Hfr; tauto|exact Hn|]. rewrite E2 in Hq.
            pose proof (lk_fresh_prev _ L x q Hx Hq). unfold w. lia.
      - intros x q Hx. change (g_fresh h) with (S w). rewrite bt_nodes in Hx.
        destruct (Nat.eqb_spec q p).
        + cbn in Hx. apply replace_first_In in Hx as [->|Hx]; [lia|]. pose proof (lk_fresh_next _ L x p Hx). unfold w. lia.
        + destruct (Nat.eqb_spec q y).
          * cbn in Hx. pose proof (lk_fresh_next _ L x y Hx). unfold w. lia.
          * destruct (Nat.eqb_spec q w); [cbn in Hx; destruct Hx as [<-|[]]; lia|].
            pose proof (lk_fresh_next _ L x q Hx). unfold w. lia.
      - intros x s Hs. apply Hprod in Hs as [[_ K]|[_ K]]; [lia|]. pose proof (Hlt x s K). lia.
    Qed.

    Lemma bt_idle : forall x, live g x -> idle (g_node h x) = idle (g_node g x).
    Proof.
      intros x Hx. assert (Hxw : x <> w) by (pose proof (live_lt x Hx); lia).
      destruct (Nat.eq_dec x y) as [->|Hn].
      - rewrite bt_node_y. unfold idle. cbn. unfold bt_kind. fold ny. destruct (n_kind ny); try reflexivity.
        now case (n_prevt ny).
      - destruct (bt_old x Hxw Hn) as [E1 [_ [E3 [E4 _]]]]. unfold idle. now rewrite E1, E3, E4.
    Qed.

    Lemma bt_busy : idle (g_node g y) = false /\ idle (g_node h w) = false.
    Proof.
      split.
      - unfold idle. destruct (n_kind (g_node g y)); try reflexivity. destruct bt_t as [_ [_ [H _]]]. unfold ny in H.
        destruct (n_prevt (g_node g y)); [contradiction|reflexivity].
      - rewrite bt_node_w. unfold idle, nw. cbn. destruct bt_z as [z' [Ez _]]; rewrite Ez. cbn. now case k.
    Qed.

    Lemma bt_refs_w_free : forall x r, live g x -> In r (refs g x) -> r_name r <> w.
    Proof.
      intros x r Hx Hr. apply refs_In in Hr as [i [q [ix [K1 [_ ->]]]]]. cbn.
      assert (q < w) by (apply (lk_fresh_prev _ L x q Hx); eapply nth_error_In; eauto). lia.
    Qed.

    Theorem run_insert_between : forall l2', l2 = y :: l2' -> forall V pick attr (sem : nat -> list V -> option V) f vs,
      run pick attr (with_sem sem w (call1 f)) (plain h) vs =
      run pick attr (with_sem sem y (through f (map (fun q => q =? p) (n_prevs ny)) (sem y))) (plain g) vs.
    Proof.
      intros l2' E0 V pick attr sem f vs.
      assert (E1 : g_fwd g = l1 ++ y :: l2') by (now rewrite <- E0).
      assert (E2 : g_fwd h = l1 ++ w :: y :: l2') by (now rewrite <- E0).
      assert (Hy : In y (g_fwd g)) by (rewrite E1; apply in_or_app; right; now left).
      pose proof (rd_nodup _ (lk_rendered _ L)) as Hnd.
      assert (Hin : forall x, In x l1 \/ In x l2' -> live g x /\ x <> y).
      { intros x Hx. split; [left; rewrite E1; rewrite in_app_iff; cbn; tauto|]. intros ->.
        rewrite E1 in Hnd.
        replace (g_in g ++ (l1 ++ y :: l2') ++ g_out g) with ((g_in g ++ l1) ++ y :: (l2' ++ g_out g)) in Hnd
          by (rewrite <- !app_assoc; reflexivity).
        apply NoDup_remove_2 in Hnd. apply Hnd. rewrite !in_app_iff. tauto. }
      set (bz := fun x => negb (idle (g_node g x))).
      assert (Ef : forall l, (forall x, In x l -> live g x) -> filter (fun x => negb (idle (g_node h x))) l = filter bz l)
        by (intros l Hl; apply filter_ext_in; intros x Hx; unfold bz; now rewrite bt_idle by auto).
      set (ln := fun l => map (fun x => (x, refs g x)) (filter bz l)).
      assert (Eg : plain g = mkprog (g_in g) (lines_of (ln l1) ++ Assign y (refs g y) :: lines_of (ln l2')) (p_ret (plain g))).
      { unfold plain at 1. f_equal. rewrite E1, filter_app. cbn [filter]. rewrite (proj1 bt_busy). cbn [negb].
        rewrite map_app. cbn [map]. unfold lines_of, ln. rewrite !map_map. reflexivity. }
      assert (Eh : plain h = mkprog (g_in g) (lines_of (ln l1) ++ Assign w [old] ::
          Assign y (map (subr p (mkref false w [])) (refs g y)) :: lines_of (ln l2')) (p_ret (plain g))).
      { unfold plain. cbn [p_ret]. f_equal.
        - rewrite E2, filter_app. cbn [filter]. rewrite (proj2 bt_busy), (bt_idle y Ly), (proj1 bt_busy). cbn [negb].
          rewrite (Ef l1), (Ef l2') by (intros x Hx; apply Hin; tauto).
          rewrite map_app. cbn [map]. rewrite bt_refs_w, bt_refs_y. unfold lines_of, ln. rewrite !map_map. cbn [fst snd].
          f_equal; [|f_equal; f_equal].
          + apply map_ext_in. intros x Hx. apply filter_In in Hx as [Hx _].
            destruct (Hin x (or_introl Hx)). now rewrite bt_refs_old.
          + apply map_ext_in. intros x Hx. apply filter_In in Hx as [Hx _].
            destruct (Hin x (or_intror Hx)). now rewrite bt_refs_old.
        - change (g_out h) with (g_out g). apply map_ext_in. intros x Hx.
          assert (Hxy : x <> y).
          { intros ->. pose proof (rd_fwd _ (lk_rendered _ L) y Hy) as K. rewrite (lk_out _ L y Hx) in K. exact K. }
          assert (Hl : live g x) by (now right).
          rewrite (bt_refs_old x Hl Hxy).
          destruct (bt_old x) as [_ [_ [_ [_ [_ ->]]]]]; [pose proof (live_lt x Hl); lia|exact Hxy|]. reflexivity. }
      rewrite Eg, Eh.
      replace (map (fun q => q =? p) (n_prevs ny)) with (map (fun r => r_name r =? p) (refs g y)).
      2: { unfold refs. rewrite map_map. cbn [r_name].
           pose proof (rd_align _ (lk_rendered _ L) y Ly) as Hal. fold ny in Hal. fold ny.
           rewrite <- (map_fst_combine _ _ (n_prevs ny) (n_previ ny) Hal) at 2. now rewrite map_map. }
      apply run_between.
      - pose proof bt_y. lia.
      - unfold old. cbn. pose proof bt_p. lia.
      - intros r Hr Er. apply refs_In in Hr as [i [q [ix [K1 [K2 ->]]]]]. cbn in Er. subst q.
        destruct (Hone i K1) as [_ K3]. unfold old, pc, np. congruence.
      - pose proof Hp as Hp'. apply In_nth_error in Hp' as [i Hi]. destruct (Hone i Hi) as [_ K2].
        exists (mkref pc p idx). split; [|reflexivity]. eapply nth_error_In. apply (nth_refs g y i p idx Hi K2).
      - intros r Hr. eapply bt_refs_w_free; eauto.
      - intros x qs Hx. unfold ln in Hx. apply in_map_iff in Hx as [x0 [Ex Hx]]. apply filter_In in Hx as [Hx _].
        inversion Ex; subst x0 qs. destruct (Hin x (or_introl Hx)) as [H1 H2]. split; [pose proof (live_lt x H1); lia|].
        split; [exact H2|]. intros r Hr. eapply bt_refs_w_free; eauto.
      - intros x qs Hx. unfold ln in Hx. apply in_map_iff in Hx as [x0 [Ex Hx]]. apply filter_In in Hx as [Hx _].
        inversion Ex; subst x0 qs. destruct (Hin x (or_intror Hx)) as [H1 H2]. split; [pose proof (live_lt x H1); lia|].
        split; [exact H2|]. intros r Hr. eapply bt_refs_w_free; eauto.
      - intros qs Hq r Hr. cbn [plain p_ret] in Hq. apply in_map_iff in Hq as [x [<- Hx]].
        assert (Hl : live g x) by (now right). eapply bt_refs_w_free; [exact Hl|].
        destruct (n_rev (g_node g x)); [exact Hr|]. destruct (refs g x); cbn in *; [contradiction|].
        destruct Hr as [->|[]]; now left.
      - intro K. assert (w < w); [|lia]. apply (lk_fresh _ L). now left.
    Qed.

    Theorem run_insert_out : forall i, l2 = [] -> nth_error (g_out g) i = Some y -> n_prevs ny = [p] ->
      forall V pick attr (sem : nat -> list V -> option V) f vs,
      run pick attr (with_sem sem w (call1 f)) (plain h) vs =
      bind (run pick attr sem (plain g) vs) (nth_through (each_through [f]) i).
    Proof.
      intros i E0 Hi Hps V pick attr sem f vs.
      assert (E2 : g_fwd h = g_fwd g ++ [w]) by (rewrite El, E0, app_nil_r; change (g_fwd h) with (l1 ++ w :: l2); now rewrite E0).
      assert (Hfy : ~ In y (g_fwd g)).
      { intro K. pose proof (rd_fwd _ (lk_rendered _ L) y K) as Kf.
        rewrite (lk_out _ L y (nth_error_In _ _ Hi)) in Kf. exact Kf. }
      assert (Hnd : NoDup (g_out g)).
      { pose proof (rd_nodup _ (lk_rendered _ L)) as K. apply nodup_app_r in K. now apply nodup_app_r in K. }
      set (ln := map (fun x => (x, refs g x)) (filter (fun x => negb (idle (g_node g x))) (g_fwd g))).
      assert (Eg : plain g = mkprog (g_in g) (lines_of ln) (p_ret (plain g))).
      { unfold plain at 1. f_equal. unfold lines_of, ln. now rewrite map_map. }
      assert (Eh : plain h = mkprog (g_in g) (lines_of ln ++ nc_lines V [(w, old, f)]) (p_ret (plain h))).
      { unfold plain at 1. f_equal. rewrite E2, filter_app. cbn [filter]. rewrite (proj2 bt_busy). cbn [negb].
        rewrite map_app. cbn [map]. rewrite bt_refs_w. f_equal. unfold lines_of, ln. rewrite map_map. cbn [fst snd].
        replace (filter (fun x => negb (idle (g_node h x))) (g_fwd g)) with (filter (fun x => negb (idle (g_node g x))) (g_fwd g))
          by (apply filter_ext_in; intros x Hx; now rewrite bt_idle by (now left)).
        apply map_ext_in. intros x Hx. apply filter_In in Hx as [Hx _]. rewrite bt_refs_old; [reflexivity|now left|congruence]. }
      assert (Ery : refs g y = [old]).
      { destruct (Hone 0) as [_ K]; [unfold ny in Hps; now rewrite Hps|].
        unfold refs. unfold ny in Hps. rewrite Hps. destruct (n_previ (g_node g y)) as [|a l]; [discriminate|].
        assert (a = idx) by (cbn in K; congruence). now subst a. }
      rewrite Eg, Eh.
      change (with_sem sem w (call1 f)) with (nc_sems V sem [(w, old, f)]).
      apply run_tail.
      - cbn. constructor; [tauto|constructor].
      - cbn [plain p_ret]. now rewrite !map_length.
      - cbn [plain p_ret]. rewrite nth_error_map, Hi. cbn [option_map]. rewrite Ery. now case (n_rev (g_node g y)).
      - cbn [plain p_ret]. change (g_out h) with (g_out g). rewrite nth_error_map, Hi. cbn [option_map].
        rewrite bt_refs_y, Ery. cbn [map]. unfold subr at 1 2. cbn [r_name old]. rewrite Nat.eqb_refl.
        now case (n_rev (g_node h y)).
      - intros j Hj. cbn [plain p_ret]. change (g_out h) with (g_out g). rewrite !nth_error_map.
        destruct (nth_error (g_out g) j) as [x|] eqn:Ej; [|reflexivity]. cbn [option_map].
        assert (Hxy : x <> y).
        { intros ->. apply Hj. apply (proj1 (NoDup_nth_error (g_out g)) Hnd); [|congruence].
          apply nth_error_Some. congruence. }
        assert (Hl : live g x) by (right; eapply nth_error_In; eauto).
        rewrite (bt_refs_old x Hl Hxy).
        destruct (bt_old x) as [_ [_ [_ [_ [_ ->]]]]]; [pose proof (live_lt x Hl); lia|exact Hxy|]. reflexivity.
      - intros x qs Hx. unfold ln in Hx. apply in_map_iff in Hx as [x0 [Ex Hx]]. apply filter_In in Hx as [Hx _].
        inversion Ex; subst x0 qs. assert (Hl : live g x) by (now left). split.
        + intros [K|[]]. cbn in K. pose proof (live_lt x Hl). lia.
        + intros r Hr [K|[]]. cbn in K. now apply (bt_refs_w_free x r Hl Hr).
      - intros qs Hq r Hr [K|[]]. cbn in K. cbn [plain p_ret] in Hq. apply in_map_iff in Hq as [x [<- Hx]].
        assert (Hl : live g x) by (now right). apply (bt_refs_w_free x r Hl); [|now symmetry].
        destruct (n_rev (g_node g x)); [exact Hr|]. destruct (refs g x); cbn in *; [contradiction|].
        destruct Hr as [->|[]]; now left.
    Qed.
  End Fixed.
End Between.

Theorem code_between : forall g p y t idx k given ptrs, linked g -> In y (g_fwd g) ->
  In p (n_prevs (g_node g y)) -> p <> y ->
  length (n_prevt (g_node g y)) = length (n_prevs (g_node g y)) ->
  (forall i, nth_error (n_prevs (g_node g y)) i = Some p ->
     nth_error (n_prevt (g_node g y)) i = Some t /\ nth_error (n_previ (g_node g y)) i = Some idx) ->
  match given with Some m => 1 <= m | None => True end ->
  match ptrs with Some l => In t l | None => True end ->
  (k = KMod \/ exists c, k = KFun c [mkref (is_const (n_kind (g_node g p))) p idx]) ->
  exists h a b, insert_between g p y k given true ptrs = Some h /\ linked h /\
    gen (recompute g) = Some a /\ gen (recompute h) = Some b /\
    forall V pick attr (sem : nat -> list V -> option V) f vs,
      run pick attr (with_sem sem (g_fresh g) (call1 f)) b vs =
      run pick attr (with_sem sem y (through f (map (fun q => q =? p) (n_prevs (g_node g y))) (sem y))) a vs.
Proof.
  intros g p y t idx k given ptrs L Hy Hp Hpy Hal Hone Hgiven Hptrs Hk.
  destruct (index_of_In y (g_fwd g) Hy) as [i Ei]. pose proof Ei as Es.
  apply index_of_split in Es as [l1 [l2 [El [Ei' _]]]].
  pose proof (or_introl Hy : live g y) as Ly.
  destruct (bt_eq g p y t idx k given ptrs L Ly l1 (y :: l2) Hp Hpy Hal Hone Hgiven Hptrs Hk) as [bi [E [H1 H2]]].
  pose proof (linked_between g p y t idx k given ptrs L Ly l1 (y :: l2) El Hp Hpy Hal Hone Hgiven Hptrs Hk bi H1 H2) as Lh.
  destruct (gen_recompute g (lk_rendered _ L)) as [a [Ea [_ Ra]]].
  destruct (gen_recompute _ (lk_rendered _ Lh)) as [b [Eb [_ Rb]]].
  eexists _, a, b. split.
  { unfold insert_between. rewrite (proj2 (mem_In _ _) Hp), (proj2 (mem_In _ _)).
    - cbn [andb negb]. rewrite Ei. cbn [bind]. rewrite El, <- Ei', insert_at_before. exact E.
    - apply In_nth_error in Hp as [j Hj]. now destruct (lk_prev _ L y j p Ly Hj) as [_ [K _]]. }
  split; [exact Lh|]. split; [exact Ea|]. split; [exact Eb|].
  intros. rewrite Ra, Rb. eapply run_insert_between; eauto.
Qed.
