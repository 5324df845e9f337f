(* Proofs about the removal of consecutive QuantStub and DeQuantStub nodes. *)
From Coq Require Import List Arith Bool Lia.
From Verif Require Import TraceSpec TraceModel TraceProofs TraceAfterProofs TraceRemoveProofs TraceInsertModel
  TraceStubSpec TraceStubModel TraceStubProofs.
Import ListNotations.

(* ------------------------------------------------------------------ *)
(* One removal *)

Record removed (g h : graph) (x p t : nat) (idx : list nat) : Prop := {
  re_linked : linked h;
  re_once : made_once h;
  re_fwd : forall z, In z (g_fwd h) <-> In z (g_fwd g) /\ z <> x;
  re_live : forall z, live h z -> live g z /\ z <> x;
  re_prevs : forall z, live g z -> n_prevs (g_node h z) = map (fun q => if q =? x then p else q) (n_prevs (g_node g z));
  re_at : forall z i q, live g z -> nth_error (n_prevs (g_node g z)) i = Some q ->
    exists s j, nth_error (n_prevt (g_node g z)) i = Some s /\ nth_error (n_previ (g_node g z)) i = Some j /\
      nth_error (n_prevt (g_node h z)) i = Some (if q =? x then t else s) /\
      nth_error (n_previ (g_node h z)) i = Some (if q =? x then idx else j);
  re_len : forall z, length (n_prevt (g_node h z)) = length (n_prevt (g_node g z));
  re_nextt : forall z, n_nextt (g_node h z) = n_nextt (g_node g z);
  re_nexts : forall z, z <> p -> n_nexts (g_node h z) = n_nexts (g_node g z);
  re_shape : g_shape h = g_shape g;
  re_io : g_in h = g_in g /\ g_out h = g_out g;
  re_run : forall V pick attr (sem : nat -> list V -> option V) vs r, (forall v, sem x [v] = Some v) ->
    run pick attr sem (plain g) vs = Some r -> run pick attr sem (plain h) vs = Some r
}.

Lemma remove_stub : forall g x p t u idx, linked g -> made_once g -> stub_at g x p t u idx ->
  exists h, remove_node g x = Some h /\ removed g h x p t idx.
Proof.
  intros g x p t u i0 L U [Hx Hprevs Hprevt Hprevi Hout Hshape Hpx Hut Hwhole].
  assert (Honly : forall q s, In s (produced (g_node g p)) -> In s (produced (g_node g q)) -> q = p)
    by (intros q s H1 H2; eapply U; eassumption).
  eexists. split; [eapply remove_node_eq; eassumption|].
  pose proof (rm_frame g x p t u i0) as [F1 [F2 [F3 _]]].
  constructor.
  - eapply linked_remove; eassumption.
  - intros a b s Ha Hb. unfold produced in *. rewrite rm_nextt in Ha, Hb by assumption. now apply (U a b s).
  - intros z. destruct (rm_split g x p t u i0 L Hx) as [l1 [l2 [E1 [E2 E3]]]]; try assumption.
    rewrite E2, E1. rewrite !in_app_iff in *. cbn. split.
    + intros K. split; [tauto|]. intros ->. tauto.
    + intros [[K|[K|K]] Hz]; [now left|congruence|now right].
  - intros z Hz. eapply rm_live; eassumption.
  - intros z Hz. eapply rm_prevs; eassumption.
  - intros z i q Hz Hq. edestruct (rm_at g x p t u i0) with (y := z) (i := i) (q := q) as [s [j [A [B [_ [C [D _]]]]]]]; try assumption.
    exists s, j. auto.
  - intros z. now apply rm_prevt_len.
  - intros z. now apply rm_nextt.
  - intros z Hz. rewrite rm_nexts by assumption. destruct (Nat.eqb_spec z p); [contradiction|reflexivity].
  - cbn [g_shape with_fwd].
    destruct (touch_frame (rewire_removed x p (is_const (n_kind (g_node g p))) [(u, t)] [(u, i0)]) (n_nexts (g_node g x))
      (upd g p (set_nexts (g_node g p) (remove1 x (n_nexts (g_node g p)) ++ n_nexts (g_node g x)))))
      as [_ [_ [_ [_ [_ [_ E]]]]]]. rewrite E. reflexivity.
  - now split.
  - intros V pick attr sem vs r Hid H. eapply run_remove; eassumption.
Qed.

Lemma single_list : forall A (l : list A) a, length l = 1 -> nth_error l 0 = Some a -> l = [a].
Proof. intros A [|b [|c l]] a H K; cbn in *; try discriminate. congruence. Qed.

Section Kept.
  Variables (g h : graph) (x p t u : nat) (idx : list nat).
  Hypothesis L : linked g.
  Hypothesis U : made_once g.
  Hypothesis S : stub_at g x p t u idx.
  Hypothesis R : removed g h x p t idx.

  Lemma kept_whole : forall z, z <> x ->
    (forall y i, live g y -> nth_error (n_prevs (g_node g y)) i = Some z -> nth_error (n_previ (g_node g y)) i = Some []) ->
    forall y i, live h y -> nth_error (n_prevs (g_node h y)) i = Some z -> nth_error (n_previ (g_node h y)) i = Some [].
  Proof.
    intros z Hzx W y i Hy Hi. destruct (re_live _ _ _ _ _ _ R y Hy) as [Ly Hyx].
    rewrite (re_prevs _ _ _ _ _ _ R y Ly), nth_error_map in Hi.
    destruct (nth_error (n_prevs (g_node g y)) i) as [q|] eqn:Eq; [|discriminate]. cbn in Hi.
    destruct (re_at _ _ _ _ _ _ R y i q Ly Eq) as [s [j [_ [B [_ D]]]]]. rewrite D.
    destruct (Nat.eqb_spec q x) as [->|Hq].
    - assert (p = z) by congruence. subst z.
      pose proof (W x 0 (or_introl (sa_fwd _ _ _ _ _ _ S))) as K. rewrite (sa_prevs _ _ _ _ _ _ S) in K.
      specialize (K eq_refl). rewrite (sa_previ _ _ _ _ _ _ S) in K. exact K.
    - assert (q = z) by congruence. subst q. rewrite <- B. now apply W.
  Qed.

  (* another stub *)
  Lemma stub_kept : forall z q s v j, z <> x -> q <> x -> stub_at g z q s v j -> stub_at h z q s v j.
  Proof.
    intros z q s v j Hz Hq [A B C D E F G I J].
    pose proof (or_introl A : live g z) as Lz.
    destruct (re_at _ _ _ _ _ _ R z 0 q Lz) as [s' [j' [K1 [K2 [K3 K4]]]]]; [now rewrite B|].
    destruct (Nat.eqb_spec q x) as [->|_]; [contradiction|].
    rewrite C in K1. cbn in K1. injection K1 as K1. subst s'. constructor.
    - apply (re_fwd _ _ _ _ _ _ R). now split.
    - rewrite (re_prevs _ _ _ _ _ _ R z Lz), B. cbn. destruct (Nat.eqb_spec q x); [contradiction|reflexivity].
    - apply single_list; [|exact K3]. now rewrite (re_len _ _ _ _ _ _ R), C.
    - rewrite K4. congruence.
    - unfold outputs_of. now rewrite (re_nextt _ _ _ _ _ _ R).
    - now rewrite (re_shape _ _ _ _ _ _ R).
    - exact G.
    - exact I.
    - now apply kept_whole.
  Qed.

  (* a stub that reads [x] *)
  Lemma stub_next : forall z s v j, z <> p -> stub_at g z x s v j -> stub_at h z p t v idx.
  Proof.
    intros z s v j Hz [A B C D E F G I J].
    pose proof (or_introl A : live g z) as Lz. assert (Hzx : z <> x) by congruence.
    destruct (re_at _ _ _ _ _ _ R z 0 x Lz) as [s' [j' [K1 [K2 [K3 K4]]]]]; [now rewrite B|].
    rewrite Nat.eqb_refl in K3, K4.
    assert (Es : s = u).
    { destruct (lk_prev _ L z 0 x Lz) as [_ [_ [s0 [M1 M2]]]]; [now rewrite B|].
      rewrite C in M1. cbn in M1. injection M1 as M1. subst s0.
      rewrite (produced_TT _ _ (sa_out _ _ _ _ _ _ S)) in M2. destruct M2 as [M2|[]]. now symmetry. }
    subst s. constructor.
    - apply (re_fwd _ _ _ _ _ _ R). now split.
    - rewrite (re_prevs _ _ _ _ _ _ R z Lz), B. cbn. now rewrite Nat.eqb_refl.
    - apply single_list; [|exact K3]. now rewrite (re_len _ _ _ _ _ _ R), C.
    - exact K4.
    - unfold outputs_of. now rewrite (re_nextt _ _ _ _ _ _ R).
    - rewrite (re_shape _ _ _ _ _ _ R), <- F. exact (sa_shape _ _ _ _ _ _ S).
    - congruence.
    - intros ->. apply Hz. apply (U z p t).
      + rewrite (produced_TT _ _ E). now left.
      + destruct (lk_prev _ L x 0 p (or_introl (sa_fwd _ _ _ _ _ _ S))) as [_ [_ [s0 [M1 M2]]]];
          [now rewrite (sa_prevs _ _ _ _ _ _ S)|].
        rewrite (sa_prevt _ _ _ _ _ _ S) in M1. cbn in M1. congruence.
    - now apply kept_whole.
  Qed.

  Lemma link_kept : forall kind quiet z, z <> x -> ~ In x (n_nexts (g_node g z)) -> kind x <> None -> p <> z ->
    stub_link_ok kind quiet g z -> stub_link_ok kind quiet h z.
  Proof.
    intros kind quiet z Hz Hn Hk Hpz [q [s [v [j [A [B [C D]]]]]]].
    assert (Hq : q <> x) by congruence.
    exists q, s, v, j. split; [now apply stub_kept|]. split; [exact B|].
    rewrite (re_nexts _ _ _ _ _ _ R z) by congruence. split; [exact C|].
    intros n Hin. destruct (D n Hin) as [D1 D2]. assert (Hnx : n <> x) by (intros ->; contradiction). split.
    - intros K. destruct (D1 K) as [s' K']. exists s'. now apply stub_kept.
    - intros K. destruct (D2 K) as [K1 K2]. split; [apply (re_fwd _ _ _ _ _ _ R); now split|].
      rewrite (re_prevs _ _ _ _ _ _ R n (or_introl K1)), K2. cbn. destruct (Nat.eqb_spec z x); [contradiction|reflexivity].
  Qed.
End Kept.

(* ------------------------------------------------------------------ *)
(* A stub whose readers undo it *)

Section Undone.
  Variable V : Type.
  Variable pick : V -> nat -> option V.
  Variable attr : nat -> option V.
  Variable sem : nat -> list V -> option V.
  Variables (g : graph) (a p t u : nat) (idx : list nat) (bs : list nat).
  Hypothesis L : linked g.
  Hypothesis S : stub_at g a p t u idx.
  Hypothesis Hb : forall b, In b bs -> n_prevs (g_node g b) = [a].
  Hypothesis Hr : forall y, live g y -> In a (n_prevs (g_node g y)) ->
    In y (g_fwd g) /\ n_prevs (g_node g y) = [a] /\
    (In y bs \/ forall v w, sem a [v] = Some w -> sem y [w] = sem y [v]).
  Hypothesis Hs : forall b v w, In b bs -> sem a [v] = Some w -> sem b [w] = Some v.

  Definition skip : nat -> list V -> option V :=
    fun z => if (z =? a) || mem z bs then call1 (fun v => Some v) else sem z.

  Definition shift (e e' : env V) : Prop :=
    (forall z, z <> a -> e z = e' z) /\ (forall w, e a = Some w -> exists v, e' a = Some v /\ sem a [v] = Some w).

  Lemma sk_reads : forall e e' rs, shift e e' -> (forall r, In r rs -> r_name r = a -> r_self r = true) ->
    traverse (read pick attr e) rs = traverse (read pick attr e') rs.
  Proof.
    intros e e' rs [H _] Hn. apply traverse_ext. intros r Hin. unfold read. destruct (r_self r) eqn:E; [reflexivity|].
    rewrite H; [reflexivity|]. intros K. specialize (Hn r Hin K). congruence.
  Qed.

  Lemma sk_refs : forall y, live g y -> n_prevs (g_node g y) = [a] -> refs g y = [mkref false a []].
  Proof.
    intros y Ly E. unfold refs. rewrite E.
    pose proof (sa_whole _ _ _ _ _ _ S y 0 Ly) as K. rewrite E in K. specialize (K eq_refl).
    destruct (n_previ (g_node g y)) as [|j l]; [discriminate|]. cbn in K. injection K as ->. cbn.
    pose proof (rd_fwd _ (lk_rendered _ L) a (sa_fwd _ _ _ _ _ _ S)) as K.
    destruct (n_kind (g_node g a)); try contradiction; reflexivity.
  Qed.

  Lemma sk_other : forall y r, ~ In a (n_prevs (g_node g y)) -> In r (refs g y) -> r_name r <> a.
  Proof.
    intros y r Hn Hin K. apply refs_In in Hin as [i [q [j [K1 [_ ->]]]]]. cbn in K. subst q.
    apply Hn. eapply nth_error_In; eassumption.
  Qed.

  Lemma sk_exec : forall l e e' b, (forall y, In y l -> In y (g_fwd g)) -> shift e e' ->
    exec pick attr sem (map (fun y => Assign y (refs g y)) l) e = Some b ->
    exists b', exec pick attr skip (map (fun y => Assign y (refs g y)) l) e' = Some b' /\ shift b b'.
  Proof.
    induction l as [|y l IH]; intros e e' b Hl Rel H.
    { exists e'. cbn in *. injection H as <-. now split. }
    assert (Hy : In y (g_fwd g)) by (apply Hl; now left).
    cbn [map exec step] in *.
    destruct (traverse (read pick attr e) (refs g y)) as [vs|] eqn:Ev; [|discriminate]. cbn [bind] in H.
    destruct (sem y vs) as [v|] eqn:Es; [|discriminate]. cbn [bind] in H.
    assert (Hcase : exists vs' v', traverse (read pick attr e') (refs g y) = Some vs' /\ skip y vs' = Some v' /\
              shift (bindv e y (Some v)) (bindv e' y (Some v'))).
    { assert (Hsame : forall vs' , traverse (read pick attr e') (refs g y) = Some vs' -> y <> a -> skip y vs' = Some v ->
        exists vs' v', traverse (read pick attr e') (refs g y) = Some vs' /\ skip y vs' = Some v' /\
              shift (bindv e y (Some v)) (bindv e' y (Some v'))).
      { intros vs' E1 Hya E2. exists vs', v. split; [exact E1|]. split; [exact E2|]. destruct Rel as [R1 R2]. split.
        - intros z Hz. unfold bindv. destruct (z =? y); [reflexivity|now apply R1].
        - intros w. unfold bindv. destruct (Nat.eqb_spec a y); [congruence|apply R2]. }
      destruct (Nat.eq_dec y a) as [->|Hya].
      - rewrite (sk_reads e e') in Ev; [|exact Rel|].
        2: { intros r Hin K. exfalso. revert K. apply (sk_other a); [|exact Hin].
             rewrite (sa_prevs _ _ _ _ _ _ S). intros [K|[]]. exact (sa_neq _ _ _ _ _ _ S K). }
        assert (Hlen : exists v0, vs = [v0]).
        { unfold refs in Ev. rewrite (sa_prevs _ _ _ _ _ _ S) in Ev. pose proof (sa_previ _ _ _ _ _ _ S) as K.
          destruct (n_previ (g_node g a)) as [|j k]; [discriminate|]. cbn [combine map traverse] in Ev.
          destruct (read pick attr e' _) as [v0|]; [|discriminate]. cbn in Ev. injection Ev as <-. now exists v0. }
        destruct Hlen as [v0 ->]. exists [v0], v0. split; [exact Ev|]. split.
        + unfold skip. rewrite Nat.eqb_refl. reflexivity.
        + destruct Rel as [R1 R2]. split.
          * intros z Hz. unfold bindv. destruct (Nat.eqb_spec z a); [contradiction|now apply R1].
          * intros w. unfold bindv. rewrite Nat.eqb_refl. intros K. injection K as <-. now exists v0.
      - destruct (in_dec Nat.eq_dec a (n_prevs (g_node g y))) as [Hin|Hin].
        + destruct (Hr y (or_introl Hy) Hin) as [_ [Ep Hb']].
          rewrite (sk_refs y (or_introl Hy) Ep) in *. cbn [traverse] in Ev. unfold read in Ev at 1. cbn [r_self r_name r_idx] in Ev.
          destruct (e a) as [w|] eqn:Ea; [|discriminate]. cbn in Ev. injection Ev as <-.
          destruct (proj2 Rel w Ea) as [v0 [E1 E2]].
          apply (Hsame [v0]); [|exact Hya|].
          * cbn [traverse]. unfold read. cbn [r_self r_name r_idx]. rewrite E1. reflexivity.
          * unfold skip. destruct (Nat.eqb_spec y a); [contradiction|]. cbn [orb].
            destruct (mem y bs) eqn:Em.
            -- apply mem_In in Em. rewrite (Hs y v0 w Em E2) in Es. injection Es as <-. reflexivity.
            -- destruct Hb' as [K|K]; [apply mem_In in K; congruence|]. rewrite <- (K v0 w E2). exact Es.
        + apply (Hsame vs); [|exact Hya|].
          * rewrite <- (sk_reads e e'); [exact Ev|exact Rel|]. intros r K1 K2. exfalso. revert K2. now apply (sk_other y).
          * unfold skip. destruct (Nat.eqb_spec y a); [contradiction|]. cbn [orb].
            destruct (mem y bs) eqn:Em; [|exact Es]. apply mem_In, Hb in Em. rewrite Em in Hin. exfalso. apply Hin. now left. }
    destruct Hcase as [vs' [v' [-> [E2 Rel']]]]. cbn [bind]. rewrite E2. cbn [bind].
    apply (IH _ _ b (fun z Hz => Hl z (or_intror Hz)) Rel' H).
  Qed.

  Theorem run_undone : forall vs r, run pick attr sem (plain g) vs = Some r -> run pick attr skip (plain g) vs = Some r.
  Proof.
    intros vs r H. unfold run, plain in *. cbn [p_params p_body p_ret] in *.
    destruct (params (g_in g) vs) as [e|] eqn:Ep; [|discriminate]. cbn [bind] in *.
    destruct (exec pick attr sem _ e) as [b|] eqn:Eb; [|discriminate]. cbn [bind] in H.
    assert (Ha : e a = None).
    { eapply params_None; [exact Ep|]. intros K.
      pose proof (rd_fwd _ (lk_rendered _ L) a (sa_fwd _ _ _ _ _ _ S)) as K2. rewrite (lk_in _ L a K) in K2. exact K2. }
    assert (Rel0 : shift e e) by (split; [reflexivity|intros w K; congruence]).
    destruct (sk_exec (filter (fun x => negb (idle (g_node g x))) (g_fwd g)) e e b) as [b' [Eb' Rel]]; [|exact Rel0|exact Eb|].
    { intros y Hy. now apply filter_In in Hy. }
    rewrite Eb'. cbn [bind]. rewrite <- H. apply traverse_ext. intros rs Hin.
    symmetry. apply sk_reads; [exact Rel|]. intros r0 Hr0 K. exfalso.
    apply in_map_iff in Hin as [y [<- Hy]].
    assert (Hr1 : In r0 (refs g y)).
    { destruct (n_rev (g_node g y)); [exact Hr0|]. destruct (refs g y); [contradiction|]. destruct Hr0 as [->|[]]. now left. }
    revert K. apply (sk_other y); [|exact Hr1]. intros K.
    destruct (Hr y (or_intror Hy) K) as [K1 _].
    pose proof (rd_fwd _ (lk_rendered _ L) y K1) as K2. rewrite (lk_out _ L y Hy) in K2. exact K2.
  Qed.
End Undone.

(* ------------------------------------------------------------------ *)
(* Several removals *)

Lemma skip_call : forall V (sem : nat -> list V -> option V) a bs z v, z = a \/ In z bs -> skip V sem a bs z [v] = Some v.
Proof.
  intros V sem a bs z v H. unfold skip. destruct (Nat.eqb_spec z a) as [->|Hz]; [reflexivity|].
  destruct H as [H|H]; [contradiction|]. apply mem_In in H. now rewrite H.
Qed.

Section Pairs.
  Variable kind : nat -> option bool.
  Variable quiet : nat -> bool.
  Hypothesis Hquiet : forall n, quiet n = true -> kind n = None.

  Notation ok := (stub_link_ok kind quiet).

  (* [rs] are removed, the links of the stubs outside [ts] are as before *)
  Record dropped (g k : graph) (rs ts : list nat) : Prop := {
    dp_linked : linked k;
    dp_once : made_once k;
    dp_fwd : forall z, In z (g_fwd k) <-> In z (g_fwd g) /\ ~ In z rs;
    dp_ok : forall z, kind z <> None -> ~ In z ts -> ok g z -> ok k z;
    dp_nexts : forall z, kind z <> None -> ~ In z ts -> n_nexts (g_node k z) = n_nexts (g_node g z);
    dp_run : forall V pick attr (sem : nat -> list V -> option V) vs r, (forall x v, In x rs -> sem x [v] = Some v) ->
      run pick attr sem (plain g) vs = Some r -> run pick attr sem (plain k) vs = Some r
  }.

  Lemma dropped_refl : forall g, linked g -> made_once g -> dropped g g [] [].
  Proof. intros g L U. constructor; auto. intros z. cbn. tauto. Qed.

  Lemma dropped_trans : forall a b c r1 t1 r2 t2, dropped a b r1 t1 -> dropped b c r2 t2 -> dropped a c (r1 ++ r2) (t1 ++ t2).
  Proof.
    intros a b c r1 t1 r2 t2 [A1 A2 A3 A4 A5 A6] [B1 B2 B3 B4 B5 B6]. constructor; auto.
    - intros z. rewrite B3, A3, in_app_iff. tauto.
    - intros z Hk Hz H. rewrite in_app_iff in Hz. apply B4; [exact Hk|tauto|]. apply A4; tauto.
    - intros z Hk Hz. rewrite in_app_iff in Hz. rewrite B5 by tauto. apply A5; tauto.
    - intros V pick attr sem vs r H K. apply B6; [intros; apply H, in_or_app; now right|].
      apply A6; [intros; apply H, in_or_app; now left|exact K].
  Qed.

  Lemma kind_stub : forall n, stub_node kind n = true <-> kind n <> None.
  Proof. intros n. unfold stub_node. destruct (kind n); split; congruence. Qed.

  Lemma drop_one : forall g x p t u idx, linked g -> made_once g -> kind x <> None -> stub_at g x p t u idx ->
    exists h, remove_node g x = Some h /\ removed g h x p t idx /\ dropped g h [x] [x; p].
  Proof.
    intros g x p t u idx L U Hk S. destruct (remove_stub g x p t u idx L U S) as [h [E R]].
    exists h. split; [exact E|]. split; [exact R|]. constructor.
    - exact (re_linked _ _ _ _ _ _ R).
    - exact (re_once _ _ _ _ _ _ R).
    - intros z. rewrite (re_fwd _ _ _ _ _ _ R). cbn. split; intros [A B]; (split; [exact A|]); intros K; apply B; [now destruct K as [->|[]]|now left].
    - intros z Hz Hn K. cbn in Hn. assert (z <> x /\ p <> z) as [H1 H2] by (split; intros ->; apply Hn; auto).
      apply (link_kept g h x p t u idx S R kind quiet z); try assumption.
      intros Hin. destruct K as [q [s [v [j [_ [_ [_ D]]]]]]]. destruct (D x Hin) as [D1 _].
      destruct D1 as [s' D1]; [now apply kind_stub|]. pose proof (sa_prevs _ _ _ _ _ _ D1) as E1.
      rewrite (sa_prevs _ _ _ _ _ _ S) in E1. congruence.
    - intros z Hz Hn. apply (re_nexts _ _ _ _ _ _ R). intros ->. apply Hn. cbn. auto.
    - intros V pick attr sem vs r H. apply (re_run _ _ _ _ _ _ R). intros v. apply H. now left.
  Qed.

  (* a weaker list of touched nodes *)
  Lemma dropped_touch : forall g k rs ts ts', (forall z, kind z <> None -> In z ts -> In z ts') -> dropped g k rs ts -> dropped g k rs ts'.
  Proof. intros g k rs ts ts' H [A1 A2 A3 A4 A5 A6]. constructor; eauto. Qed.

  Lemma drop_list : forall bs g p t idx, linked g -> made_once g -> NoDup bs -> kind p = None ->
    (forall b, In b bs -> kind b <> None /\ exists u, stub_at g b p t u idx) ->
    exists k, fold_opt remove_node bs g = Some k /\ dropped g k bs bs.
  Proof.
    induction bs as [|b bs IH]; intros g p t idx L U Hd Hp Hb.
    { exists g. split; [reflexivity|]. now apply dropped_refl. }
    inversion Hd as [|? ? Hn Hd']; subst.
    destruct (Hb b (or_introl eq_refl)) as [Hk [u S]].
    destruct (drop_one g b p t u idx L U Hk S) as [h [E [R D]]].
    destruct (IH h p t idx (dp_linked _ _ _ _ D) (dp_once _ _ _ _ D) Hd' Hp) as [k [E2 D2]].
    - intros c Hc. destruct (Hb c (or_intror Hc)) as [Kc [v Sc]]. split; [exact Kc|]. exists v.
      apply (stub_kept g h b p t u idx S R); [intros ->; contradiction|congruence|exact Sc].
    - exists k. cbn [fold_opt]. rewrite E. cbn [bind]. split; [exact E2|].
      apply (dropped_touch _ _ _ ([b; p] ++ bs)); [|now apply (dropped_trans g h k [b] [b; p] bs bs)].
      intros z Hz. cbn. intros [K|[K|K]]; auto. congruence.
  Qed.

  Lemma fold_filter : forall l g, fold_opt (fun k n => match kind n with Some _ => remove_node k n | None => Some k end) l g =
    fold_opt remove_node (filter (stub_node kind) l) g.
  Proof.
    induction l as [|n l IH]; intros g; [reflexivity|]. cbn [fold_opt filter]. unfold stub_node at 1.
    destruct (kind n); cbn [fold_opt bind]; [|apply IH]. destruct (remove_node g n); cbn [bind]; [apply IH|reflexivity].
  Qed.

  Lemma opposite_kind : forall x n, opposite kind x n = true <-> kind x <> None /\ stub_node kind n = true /\ kind n <> kind x.
  Proof.
    intros x n. unfold opposite, stub_node. destruct (kind x) as [a|], (kind n) as [b|]; split; try (intros K; discriminate);
      try (intros [K1 [K2 K3]]; congruence).
    - intros K. repeat split; try congruence. intros E. injection E as ->. now destruct a.
    - intros [_ [_ K]]. destruct a, b; try reflexivity; congruence.
  Qed.

  (* the stub [x] and the stubs that read it, all of them removed *)
  Lemma undone_run : forall V pick attr (sem : nat -> list V -> option V) g x k rs ts vs r,
    linked g -> ok g x -> kind x <> None ->
    (forall n, In n (n_nexts (g_node g x)) -> opposite kind x n = true \/ quiet n = true) ->
    undone kind quiet (n_nexts (g_node g x)) sem x ->
    dropped g k rs ts -> (forall z, In z rs <-> z = x \/ In z (filter (stub_node kind) (n_nexts (g_node g x)))) ->
    run pick attr sem (plain g) vs = Some r -> run pick attr sem (plain k) vs = Some r.
  Proof.
    intros V pick attr sem g x k rs ts vs r L K Hk Hn Hu D Hrs H.
    destruct K as [p [t [u [idx [S [Kp [Hnd Hrd]]]]]]].
    set (bs := filter (stub_node kind) (n_nexts (g_node g x))) in *.
    assert (Hbs : forall b, In b bs -> In b (n_nexts (g_node g x)) /\ stub_node kind b = true) by (intros b Hb; now apply filter_In in Hb).
    assert (Hop : forall b, In b bs -> stub_node kind b = true /\ kind b <> kind x).
    { intros b Hb. destruct (Hbs b Hb) as [Hin Hst]. split; [exact Hst|]. destruct (Hn b Hin) as [K|K].
      - now apply opposite_kind in K.
      - apply Hquiet in K. now apply kind_stub in Hst. }
    rewrite (run_agree V pick attr sem (skip V sem x bs) k vs).
    2: { intros z us Hz. apply (dp_fwd _ _ _ _ D) in Hz as [_ Hz]. unfold skip.
         destruct (Nat.eqb_spec z x) as [->|Hzx]; [exfalso; apply Hz, Hrs; now left|]. cbn [orb].
         destruct (mem z bs) eqn:Em; [|reflexivity]. apply mem_In in Em. exfalso. apply Hz, Hrs. now right. }
    apply (dp_run _ _ _ _ D). { intros z v Hz. apply skip_call. now apply Hrs. }
    apply (run_undone V pick attr sem g x p t u idx bs L S); [| | |exact H].
    - intros b Hb. destruct (Hbs b Hb) as [Hin Hst]. destruct (Hrd b Hin) as [K _]. destruct (K Hst) as [s K'].
      exact (sa_prevs _ _ _ _ _ _ K').
    - intros y Ly Hy. apply In_nth_error in Hy as [i Hi]. destruct (lk_prev _ L y i x Ly Hi) as [_ [Hin _]].
      destruct (Hrd y Hin) as [R1 R2]. destruct (Hn y Hin) as [K|K].
      + apply opposite_kind in K as [_ [K _]]. destruct (R1 K) as [s K']. split; [exact (sa_fwd _ _ _ _ _ _ K')|].
        split; [exact (sa_prevs _ _ _ _ _ _ K')|]. left. apply filter_In. now split.
      + destruct (R2 K) as [K1 K2]. split; [exact K1|]. split; [exact K2|]. right. intros v w E.
        now apply (Hu y v w Hin E).
    - intros b v w Hb E. destruct (Hop b Hb) as [H1 H2]. destruct (Hbs b Hb) as [Hin _].
      now apply (Hu b v w Hin E).
  Qed.

  (* a pair without branches *)
  Lemma drop_link_ok : forall g x y, linked g -> made_once g -> ok g x -> kind x <> None -> kind y <> None ->
    n_nexts (g_node g x) = [y] ->
    exists h k, remove_node g y = Some h /\ remove_node h x = Some k /\ dropped g k [y; x] [y; x].
  Proof.
    intros g x y L U [p [t [u [idx [S [Kp [_ Hrd]]]]]]] Hk Hy E.
    destruct (Hrd y) as [R1 _]; [rewrite E; now left|]. destruct R1 as [s Sy]; [now apply kind_stub|].
    destruct (drop_one g y x u s [] L U Hy Sy) as [h [E1 [R D]]].
    assert (Hxy : x <> y) by exact (sa_neq _ _ _ _ _ _ Sy).
    assert (Sx : stub_at h x p t u idx).
    { apply (stub_kept g h y x u s [] Sy R); [exact Hxy|congruence|exact S]. }
    destruct (drop_one h x p t u idx (dp_linked _ _ _ _ D) (dp_once _ _ _ _ D) Hk Sx) as [k [E2 [R2 D2]]].
    exists h, k. split; [exact E1|]. split; [exact E2|].
    apply (dropped_touch _ _ _ ([y; x] ++ [x; p])); [|now apply (dropped_trans g h k [y] [y; x] [x] [x; p])].
    intros z Hz. cbn. intros [K|[K|[K|[K|[]]]]]; auto. congruence.
  Qed.

  (* a stub with branches *)
  Lemma drop_branch_ok : forall g x, linked g -> made_once g -> ok g x -> kind x <> None ->
    let bs := filter (stub_node kind) (n_nexts (g_node g x)) in
    exists h k, remove_node g x = Some h /\ n_nexts (g_node h x) = n_nexts (g_node g x) /\
      fold_opt remove_node bs h = Some k /\ dropped g k (x :: bs) (x :: bs).
  Proof.
    intros g x L U [p [t [u [idx [S [Kp [Hnd Hrd]]]]]]] Hk bs.
    destruct (drop_one g x p t u idx L U Hk S) as [h [E [R D]]].
    assert (Hpx : p <> x) by exact (sa_neq _ _ _ _ _ _ S).
    destruct (drop_list bs h p t idx (dp_linked _ _ _ _ D) (dp_once _ _ _ _ D)) as [k [E2 D2]].
    - unfold bs. now apply NoDup_filter.
    - exact Kp.
    - intros b Hb. apply filter_In in Hb as [Hin Hst]. split; [now apply kind_stub|].
      destruct (Hrd b Hin) as [K _]. destruct (K Hst) as [s Sb]. exists s.
      apply (stub_next g h x p t u idx L U S R b u s []); [|exact Sb]. intros ->. now apply kind_stub in Hst.
    - exists h, k. split; [exact E|]. split; [apply (re_nexts _ _ _ _ _ _ R); congruence|]. split; [exact E2|].
      apply (dropped_touch _ _ _ ([x; p] ++ bs)); [|now apply (dropped_trans g h k [x] [x; p] bs bs)].
      intros z Hz. cbn. intros [K|[K|K]]; auto. congruence.
  Qed.

  (* other stubs of the list are not touched *)
  Lemma ok_apart : forall g x z, ok g x -> ok g z -> kind x <> None -> z <> x -> ~ In z (filter (stub_node kind) (n_nexts (g_node g x))).
  Proof.
    intros g x z [p [t [u [idx [S [Kp [_ Hrd]]]]]]] [q [t' [u' [idx' [S' [Kq _]]]]]] Hk Hz Hin.
    apply filter_In in Hin as [Hin Hst]. destruct (Hrd z Hin) as [K _]. destruct (K Hst) as [s Sz].
    pose proof (sa_prevs _ _ _ _ _ _ Sz) as E1. rewrite (sa_prevs _ _ _ _ _ _ S') in E1. congruence.
  Qed.

  Lemma drop_link_eq : forall g later x y, drop_link (g, later) (x, y) =
    if (length (n_nexts (g_node g x)) =? 1) && (length (n_prevs (g_node g y)) =? 1)
    then bind (remove_node g y) (fun h => bind (remove_node h x) (fun k => Some (k, later)))
    else Some (g, later ++ [(x, y)]).
  Proof. reflexivity. Qed.
  Lemma drop_branch_eq : forall g x y, drop_branch kind quiet g (x, y) =
    if forallb (fun n => opposite kind x n || quiet n) (n_nexts (g_node g x))
    then bind (remove_node g x) (fun h =>
      fold_opt (fun k n => match kind n with Some _ => remove_node k n | None => Some k end) (n_nexts (g_node h x)) h)
    else Some g.
  Proof. reflexivity. Qed.

  Lemma links_loop : forall ps g later, linked g -> made_once g -> NoDup (map fst ps) ->
    (forall x y, In (x, y) ps -> ok g x /\ In y (n_nexts (g_node g x)) /\ opposite kind x y = true) ->
    exists h more, fold_opt drop_link ps (g, later) = Some (h, later ++ more) /\ linked h /\ made_once h /\
      NoDup (map fst more) /\
      (forall x y, In (x, y) more -> In (x, y) ps /\ ok h x /\ n_nexts (g_node h x) = n_nexts (g_node g x)) /\
      (forall z, kind z <> None -> ok g z -> ~ In z (map fst ps) -> ok h z /\ n_nexts (g_node h z) = n_nexts (g_node g z)) /\
      (forall z, In z (g_fwd h) -> In z (g_fwd g)) /\
      (forall x y, In (x, y) ps -> (n_nexts (g_node g x) = [y] /\ ~ In x (g_fwd h) /\ ~ In y (g_fwd h)) \/ In (x, y) more) /\
      (forall z, kind z = None -> In z (g_fwd g) -> In z (g_fwd h)) /\
      forall V pick attr (sem : nat -> list V -> option V) vs r,
        (forall x y, In (x, y) ps -> undone kind quiet (n_nexts (g_node g x)) sem x) ->
        run pick attr sem (plain g) vs = Some r -> run pick attr sem (plain h) vs = Some r.
  Proof.
    induction ps as [|[x y] ps IH]; intros g later L U Hd Hps.
    { exists g, []. split; [now rewrite app_nil_r|]. split; [exact L|]. split; [exact U|]. split; [constructor|].
      split; [intros x y []|]. split; [auto|]. split; [auto|]. split; [intros x y []|]. split; [auto|]. auto. }
    cbn [map fst] in Hd. inversion Hd as [|? ? Hn Hd']; subst.
    destruct (Hps x y (or_introl eq_refl)) as [Hok [Hin Hop]].
    pose proof (proj1 (opposite_kind x y) Hop) as [Hk [Hst _]].
    assert (Hother : forall z w, In (z, w) ps -> z <> x).
    { intros z w K ->. apply Hn. apply in_map_iff. now exists (x, w). }
    assert (Hprev : length (n_prevs (g_node g y)) = 1).
    { destruct Hok as [p [t [u [idx [_ [_ [_ Hrd]]]]]]]. destruct (Hrd y Hin) as [K _]. destruct (K Hst) as [s Sy].
      now rewrite (sa_prevs _ _ _ _ _ _ Sy). }
    cbn [fold_opt]. rewrite drop_link_eq, Hprev. rewrite Nat.eqb_refl, andb_true_r.
    destruct (Nat.eqb_spec (length (n_nexts (g_node g x))) 1) as [El|El].
    - assert (Ex : n_nexts (g_node g x) = [y]).
      { destruct (n_nexts (g_node g x)) as [|a [|b l]]; cbn in El; try discriminate. destruct Hin as [->|[]]. reflexivity. }
      destruct (drop_link_ok g x y L U Hok Hk (proj1 (kind_stub y) Hst) Ex) as [h [k [E1 [E2 D]]]].
      rewrite E1. cbn [bind]. rewrite E2. cbn [bind].
      assert (Hfar : forall z, kind z <> None -> ok g z -> z <> x -> ~ In z [y; x]).
      { intros z Kk Kok Kx. pose proof (ok_apart g x z Hok Kok Hk Kx) as A.
        rewrite Ex in A. cbn [filter] in A. rewrite Hst in A. intros [J|[J|[]]]; [apply A; now left|congruence]. }
      assert (Hz : forall z w, In (z, w) ps -> kind z <> None /\ ~ In z [y; x]).
      { intros z w K. destruct (Hps z w (or_intror K)) as [Kok [_ Kop]]. apply opposite_kind in Kop as [Kk _].
        split; [exact Kk|]. apply Hfar; try assumption. exact (Hother z w K). }
      destruct (IH k later (dp_linked _ _ _ _ D) (dp_once _ _ _ _ D) Hd') as [h' [more [F1 [F2 [F3 [F4 [F5 [Fo [F6 [F7 [F8 F9]]]]]]]]]]].
      + intros z w K. destruct (Hz z w K) as [K1 K2]. destruct (Hps z w (or_intror K)) as [A [B C]].
        split; [now apply (dp_ok _ _ _ _ D)|]. rewrite (dp_nexts _ _ _ _ D) by assumption. now split.
      + exists h', more. split; [exact F1|]. split; [exact F2|]. split; [exact F3|]. split; [exact F4|].
        split; [|split; [|split; [|split; [|split]]]].
        * intros z w K. destruct (F5 z w K) as [A [B C]]. split; [now right|]. split; [exact B|].
          rewrite C. destruct (Hz z w A). now apply (dp_nexts _ _ _ _ D).
        * intros z Kk Kok Kn. cbn [map fst] in Kn.
          assert (K2 : ~ In z [y; x]) by (apply Hfar; try assumption; intros ->; apply Kn; now left).
          destruct (Fo z Kk) as [A B]; [now apply (dp_ok _ _ _ _ D)|intros J; apply Kn; now right|].
          split; [exact A|]. rewrite B. now apply (dp_nexts _ _ _ _ D).
        * intros z K. apply F6 in K. now apply (dp_fwd _ _ _ _ D) in K.
        * intros z w [K|K].
          -- injection K as <- <-. left. split; [exact Ex|].
             split; intros J; apply F6, (dp_fwd _ _ _ _ D) in J as [_ J]; apply J; cbn; auto.
          -- destruct (Hz z w K). destruct (F7 z w K) as [[A B]|A]; [left|now right].
             split; [|exact B]. now rewrite <- (dp_nexts _ _ _ _ D).
        * intros z Kz Jz. apply F8; [exact Kz|]. apply (dp_fwd _ _ _ _ D). split; [exact Jz|].
          apply kind_stub in Hst. intros [<-|[<-|[]]]; congruence.
        * intros V pick attr sem vs r Hu H. apply F9.
          -- intros z w K. destruct (Hz z w K). rewrite (dp_nexts _ _ _ _ D) by assumption. apply (Hu z w). now right.
          -- apply (undone_run V pick attr sem g x k [y; x] [y; x] vs r L Hok Hk); [| |exact D| |exact H].
             ++ intros n K. rewrite Ex in K. destruct K as [<-|[]]. now left.
             ++ apply (Hu x y). now left.
             ++ intros z. rewrite Ex. cbn [filter]. rewrite Hst. cbn. split; [intros [<-|[<-|[]]]; auto|intros [->|[->|[]]]; auto].
    - cbn [bind].
      destruct (IH g (later ++ [(x, y)]) L U Hd') as [h' [more [F1 [F2 [F3 [F4 [F5 [Fo [F6 [F7 [F8 F9]]]]]]]]]]].
      { intros z w K. apply Hps. now right. }
      exists h', ((x, y) :: more). split; [rewrite F1, <- app_assoc; reflexivity|]. split; [exact F2|]. split; [exact F3|].
      split; [|split; [|split; [|split; [|split; [|split]]]]].
      + cbn [map fst]. constructor; [|exact F4]. intros K. apply in_map_iff in K as [[z w] [E K]]. cbn in E. subst z.
        destruct (F5 x w K) as [A _]. exact (Hother x w A eq_refl).
      + intros z w [K|K].
        * injection K as <- <-. split; [now left|]. now apply Fo.
        * destruct (F5 z w K) as [A B]. split; [now right|exact B].
      + intros z Kk Kok Kn. apply Fo; try assumption. intros J. apply Kn. now right.
      + exact F6.
      + intros z w [K|K]; [right; now left|]. destruct (F7 z w K) as [A|A]; [now left|right; now right].
      + exact F8.
      + intros V pick attr sem vs r Hu H. apply F9; [|exact H]. intros z w K. apply (Hu z w). now right.
  Qed.

  Lemma branches_loop : forall ps g, linked g -> made_once g -> NoDup (map fst ps) ->
    (forall x y, In (x, y) ps -> ok g x /\ kind x <> None) ->
    exists h, fold_opt (drop_branch kind quiet) ps g = Some h /\ linked h /\ made_once h /\
      (forall z, In z (g_fwd h) -> In z (g_fwd g)) /\
      (forall x y, In (x, y) ps -> (forall n, In n (n_nexts (g_node g x)) -> opposite kind x n = true \/ quiet n = true) ->
         ~ In x (g_fwd h) /\ forall n, In n (n_nexts (g_node g x)) -> stub_node kind n = true -> ~ In n (g_fwd h)) /\
      (forall z, kind z = None -> In z (g_fwd g) -> In z (g_fwd h)) /\
      forall V pick attr (sem : nat -> list V -> option V) vs r,
        (forall x y, In (x, y) ps -> undone kind quiet (n_nexts (g_node g x)) sem x) ->
        run pick attr sem (plain g) vs = Some r -> run pick attr sem (plain h) vs = Some r.
  Proof.
    induction ps as [|[x y] ps IH]; intros g L U Hd Hps.
    { exists g. split; [reflexivity|]. split; [exact L|]. split; [exact U|]. split; [auto|]. split; [intros x y []|]. split; auto. }
    cbn [map fst] in Hd. inversion Hd as [|? ? Hn Hd']; subst.
    destruct (Hps x y (or_introl eq_refl)) as [Hok Hk].
    assert (Hother : forall z w, In (z, w) ps -> z <> x).
    { intros z w K ->. apply Hn. apply in_map_iff. now exists (x, w). }
    cbn [fold_opt]. rewrite drop_branch_eq.
    destruct (forallb (fun n => opposite kind x n || quiet n) (n_nexts (g_node g x))) eqn:Ef.
    - rewrite forallb_forall in Ef.
      assert (Hall : forall n, In n (n_nexts (g_node g x)) -> opposite kind x n = true \/ quiet n = true)
        by (intros n K; apply Ef, orb_prop in K; exact K).
      destruct (drop_branch_ok g x L U Hok Hk) as [h [k [E1 [E2 [E3 D]]]]].
      set (bs := filter (stub_node kind) (n_nexts (g_node g x))) in *.
      rewrite E1. cbn [bind]. rewrite E2, fold_filter. fold bs. rewrite E3. cbn [bind].
      assert (Hz : forall z w, In (z, w) ps -> ~ In z (x :: bs)).
      { intros z w K [J|J]; [exact (Hother z w K (eq_sym J))|]. destruct (Hps z w (or_intror K)) as [Kok Kk].
        exact (ok_apart g x z Hok Kok Hk (Hother z w K) J). }
      destruct (IH k (dp_linked _ _ _ _ D) (dp_once _ _ _ _ D) Hd') as [h' [F1 [F2 [F3 [F6 [F7 [F8 F9]]]]]]].
      + intros z w K. destruct (Hps z w (or_intror K)) as [A B]. split; [|exact B]. apply (dp_ok _ _ _ _ D); try assumption. now apply (Hz z w).
      + exists h'. split; [exact F1|]. split; [exact F2|]. split; [exact F3|]. split; [|split; [|split]].
        * intros z K. apply F6 in K. now apply (dp_fwd _ _ _ _ D) in K.
        * intros z w [K|K] E.
          -- injection K as <- <-. split.
             ++ intros J. apply F6, (dp_fwd _ _ _ _ D) in J as [_ J]. apply J. now left.
             ++ intros n Kn Ks J. apply F6, (dp_fwd _ _ _ _ D) in J as [_ J]. apply J. right. apply filter_In. now split.
          -- destruct (Hps z w (or_intror K)) as [_ B]. pose proof (Hz z w K) as J.
             rewrite <- (dp_nexts _ _ _ _ D) in E by assumption. rewrite <- (dp_nexts _ _ _ _ D) by assumption. now apply (F7 z w K).
        * intros z Kz Jz. apply F8; [exact Kz|]. apply (dp_fwd _ _ _ _ D). split; [exact Jz|].
          intros [<-|J]; [contradiction|]. apply filter_In in J as [_ J]. now apply kind_stub in J.
        * intros V pick attr sem vs r Hu H. apply F9.
          -- intros z w K. destruct (Hps z w (or_intror K)) as [_ B]. pose proof (Hz z w K) as J.
             rewrite (dp_nexts _ _ _ _ D) by assumption. apply (Hu z w). now right.
          -- apply (undone_run V pick attr sem g x k (x :: bs) (x :: bs) vs r L Hok Hk Hall); [|exact D| |exact H].
             ++ apply (Hu x y). now left.
             ++ intros z. cbn. fold bs. split; intros [K|K]; auto.
    - cbn [bind]. destruct (IH g L U Hd') as [h' [F1 [F2 [F3 [F6 [F7 [F8 F9]]]]]]].
      { intros z w K. apply (Hps z w). now right. }
      exists h'. split; [exact F1|]. split; [exact F2|]. split; [exact F3|]. split; [exact F6|]. split; [|split; [exact F8|]].
      + intros z w [K|K] E; [|now apply (F7 z w)]. injection K as <- <-. exfalso.
        assert (K : forallb (fun n => opposite kind x n || quiet n) (n_nexts (g_node g x)) = true); [|congruence].
        apply forallb_forall. intros n K. apply orb_true_iff. now apply E.
      + intros V pick attr sem vs r Hu H. apply F9; [|exact H]. intros z w K. apply (Hu z w). now right.
  Qed.

  Lemma pairs_In : forall stays g x y, In (x, y) (stub_pairs kind stays g) ->
    In x (g_fwd g) /\ In y (n_nexts (g_node g x)) /\ opposite kind x y = true.
  Proof.
    intros stays g x y H. unfold stub_pairs in H. apply in_flat_map in H as [z [Hz H]].
    destruct (find (opposite kind z) (n_nexts (g_node g z))) as [n|] eqn:E; [|contradiction].
    destruct (stays z n); [contradiction|]. destruct H as [H|[]]. injection H as <- <-.
    apply find_some in E as [E1 E2]. auto.
  Qed.

  Lemma pairs_NoDup : forall stays g, linked g -> NoDup (map fst (stub_pairs kind stays g)).
  Proof.
    intros stays g L. pose proof (nodup_fwd _ L) as H. unfold stub_pairs.
    induction (g_fwd g) as [|x l IH]; [constructor|]. inversion H as [|? ? Hx Hl]; subst. cbn [flat_map].
    assert (Hrest : ~ In x (map fst (flat_map (fun x => match find (opposite kind x) (n_nexts (g_node g x)) with
                     | Some y => if stays x y then [] else [(x, y)] | None => [] end) l))).
    { intros K. apply in_map_iff in K as [[z w] [E K]]. cbn in E. subst z. apply in_flat_map in K as [z [Kz K]].
      destruct (find (opposite kind z) (n_nexts (g_node g z))) as [n|]; [|contradiction].
      destruct (stays z n); [contradiction|]. destruct K as [K|[]]. injection K as -> _. contradiction. }
    destruct (find (opposite kind x) (n_nexts (g_node g x))) as [n|]; [|now apply IH].
    destruct (stays x n); [now apply IH|]. cbn [app map fst]. constructor; [exact Hrest|now apply IH].
  Qed.

  Theorem drop_pairs_run : forall stays g, linked g -> made_once g ->
    (forall x y, In x (g_fwd g) -> In y (n_nexts (g_node g x)) -> opposite kind x y = true -> ok g x) ->
    exists h, drop_pairs kind quiet stays g = Some h /\ linked h /\ made_once h /\
      (forall z, In z (g_fwd h) -> In z (g_fwd g)) /\
      (forall z, kind z = None -> In z (g_fwd g) -> In z (g_fwd h)) /\
      (forall x, In x (g_fwd g) ->
         (forall n, In n (n_nexts (g_node g x)) -> (opposite kind x n = true /\ stays x n = false) \/ quiet n = true) ->
         forall n, In n (n_nexts (g_node g x)) -> opposite kind x n = true -> ~ In x (g_fwd h) /\ ~ In n (g_fwd h)) /\
      forall V pick attr (sem : nat -> list V -> option V) vs r,
        (forall x, In x (g_fwd g) -> stub_node kind x = true -> undone kind quiet (n_nexts (g_node g x)) sem x) ->
        run pick attr sem (plain g) vs = Some r -> run pick attr sem (plain h) vs = Some r.
  Proof.
    intros stays g L U Hg. set (ps := stub_pairs kind stays g).
    destruct (links_loop ps g [] L U (pairs_NoDup stays g L)) as [h [more [F1 [F2 [F3 [F4 [F5 [_ [F6 [F7 [F8 F9]]]]]]]]]]].
    { intros x y K. apply pairs_In in K as [A [B C]]. split; [now apply (Hg x y)|now split]. }
    assert (Hps : forall x y, In (x, y) ps -> In x (g_fwd g) /\ stub_node kind x = true).
    { intros x y K. apply pairs_In in K as [A [B C]]. split; [exact A|]. apply opposite_kind in C as [C _]. now apply kind_stub. }
    destruct (branches_loop more h F2 F3 F4) as [k [G1 [G2 [G3 [G4 [G5 [G6 G7]]]]]]].
    { intros x y K. destruct (F5 x y K) as [A [B _]]. split; [exact B|]. apply Hps in A as [_ A]. now apply kind_stub. }
    exists k. unfold drop_pairs. fold ps. rewrite F1. cbn [bind fst snd app]. split; [exact G1|]. split; [exact G2|].
    split; [exact G3|]. split; [auto|]. split; [auto|]. split.
    - intros x Hx Hall n Hn Ho.
      destruct (find (opposite kind x) (n_nexts (g_node g x))) as [y|] eqn:Ef.
      2: { exfalso. pose proof (find_none _ _ Ef n Hn). congruence. }
      pose proof (find_some _ _ Ef) as [Hy Hoy].
      assert (Hin : In (x, y) ps).
      { unfold ps, stub_pairs. apply in_flat_map. exists x. split; [exact Hx|]. rewrite Ef.
        destruct (Hall y Hy) as [[_ K]|K]; [rewrite K; now left|].
        apply Hquiet in K. apply opposite_kind in Hoy as [_ [Hoy _]]. now apply kind_stub in Hoy. }
      destruct (F7 x y Hin) as [[E [A B]]|K].
      + rewrite E in Hn. destruct Hn as [<-|[]]. split; intros K; [apply A|apply B]; now apply G4.
      + destruct (F5 x y K) as [_ [_ En]]. destruct (G5 x y K) as [A B].
        * intros m Km. rewrite En in Km. destruct (Hall m Km) as [[J _]|J]; auto.
        * split; [exact A|]. apply (B n); [now rewrite En|]. now apply opposite_kind in Ho.
    - intros V pick attr sem vs r Hu H. apply G7.
      + intros x y K. destruct (F5 x y K) as [A [_ C]]. rewrite C. apply Hps in A as [A1 A2]. now apply Hu.
      + apply F9; [|exact H]. intros x y K. apply Hps in K as [A1 A2]. now apply Hu.
  Qed.
End Pairs.

Theorem code_drop_pairs : forall kind quiet stays g, (forall n, quiet n = true -> kind n = None) ->
  linked g -> made_once g ->
  (forall x y, In x (g_fwd g) -> In y (n_nexts (g_node g x)) -> stub_node kind x = true -> stub_node kind y = true ->
     kind y <> kind x -> stub_link_ok kind quiet g x) ->
  exists h a b, drop_pairs kind quiet stays g = Some h /\ linked h /\
    (forall z, In z (g_fwd h) -> In z (g_fwd g)) /\
    (forall z, kind z = None -> In z (g_fwd g) -> In z (g_fwd h)) /\
    (forall x, In x (g_fwd g) -> stub_node kind x = true ->
       (forall n, In n (n_nexts (g_node g x)) ->
          (stub_node kind n = true /\ kind n <> kind x /\ stays x n = false) \/ quiet n = true) ->
       forall n, In n (n_nexts (g_node g x)) -> stub_node kind n = true -> ~ In x (g_fwd h) /\ ~ In n (g_fwd h)) /\
    gen (recompute g) = Some a /\ gen (recompute h) = Some b /\
    forall V pick attr (sem : nat -> list V -> option V) vs r,
      (forall x, In x (g_fwd g) -> stub_node kind x = true -> undone kind quiet (n_nexts (g_node g x)) sem x) ->
      run pick attr sem a vs = Some r -> run pick attr sem b vs = Some r.
Proof.
  intros kind quiet stays g Hq L U Hg.
  assert (Ho : forall x y, opposite kind x y = true <-> stub_node kind x = true /\ stub_node kind y = true /\ kind y <> kind x)
    by (intros x y; rewrite opposite_kind, !kind_stub; tauto).
  destruct (drop_pairs_run kind quiet Hq stays g L U) as [h [E [Lh [Uh [A [B [C R]]]]]]].
  - intros x y Hx Hy K. apply Ho in K as [K1 [K2 K3]]. now apply (Hg x y).
  - destruct (gen_recompute g (lk_rendered _ L)) as [a [Ea [_ Ra]]].
    destruct (gen_recompute _ (lk_rendered _ Lh)) as [b [Eb [_ Rb]]].
    exists h, a, b. split; [exact E|]. split; [exact Lh|]. split; [exact A|]. split; [exact B|]. split.
    + intros x Hx K1 Hall n Hn K2. apply (C x); try assumption.
      * intros m Hm. destruct (Hall m Hm) as [[J1 [J2 J3]]|J]; [left; split; [now apply Ho|exact J3]|now right].
      * apply Ho. split; [exact K1|]. split; [exact K2|]. destruct (Hall n Hn) as [[_ [J _]]|J]; [exact J|].
        apply Hq in J. now apply kind_stub in K2.
    + split; [exact Ea|]. split; [exact Eb|]. intros V pick attr sem vs r Hu. rewrite Ra, Rb. now apply R.
Qed.
