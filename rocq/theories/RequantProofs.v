(** Proofs about the fusion of requantize operators. *)
From Coq Require Import List Arith Bool Lia.
From Verif Require Import RequantModel RequantSpec.
Import ListNotations.

Lemma kind_eqb_eq a b : rkind_eqb a b = true <-> a = b.
Proof. destruct a, b; cbn; split; congruence. Qed.
Lemma r_mem_in n l : r_mem n l = true <-> In n l.
Proof. unfold r_mem. rewrite existsb_exists. split; [intros (x & H & E); apply Nat.eqb_eq in E; now subst|intros H; exists n; split; [exact H|apply Nat.eqb_refl]]. Qed.
Lemma r_outs_in g n d : In d (r_outs g n) <-> In (n, d) (redges g).
Proof.
  unfold r_outs. rewrite in_map_iff. split.
  - intros ([s x] & E & H). cbn in E. subst x. apply filter_In in H. destruct H as [H E]. cbn in E. apply Nat.eqb_eq in E. now subst.
  - intros H. exists (n, d). split; [reflexivity|]. apply filter_In. split; [exact H|]. apply Nat.eqb_refl.
Qed.

Definition node_eq {V} (den : nat -> list V -> V) (copy : nat -> V -> V) (reint : option nat -> option nat -> V -> V) (g : rgraph) (v : nat -> V) (n : nat) : Prop :=
  match rk (rn g n), rins (rn g n) with
  | (KQuant | KDeq | KOut), t :: _ => v (rout (rn g n)) = v t
  | KCopy, t :: _ => v (rout (rn g n)) = copy n (reint (rtq g t) (rtq g (rout (rn g n))) (v t))
  | (KFuse | KOther), ts => v (rout (rn g n)) = den n (map v ts)
  | _, [] => True
  end.

(** * The check *)
Lemma walk_kind g fuel r e : r_walk g fuel r = Some e -> e <> ESkip ->
  (rk (rn g r) = KQuant /\ e = EQuant (rtq g (rout (rn g r)))) \/ rk (rn g r) = KDeq \/ rk (rn g r) = KCopy.
Proof.
  destruct fuel; [discriminate|]. cbn [r_walk]. intros E N. destruct (rk (rn g r)); auto; try (injection E as <-; congruence).
  injection E as <-. auto.
Qed.
Lemma skip_kind g fuel rs : forall pre, r_skip g fuel rs pre = Some false -> forall r, In r rs ->
  rk (rn g r) = KQuant \/ rk (rn g r) = KDeq \/ rk (rn g r) = KCopy.
Proof.
  induction rs as [|x rs IH]; intros pre E r H; [destruct H|]. cbn [r_skip] in E.
  destruct (r_walk g fuel x) as [e|] eqn:W; [|discriminate].
  assert (K : e <> ESkip) by (intros ->; discriminate).
  destruct H as [<-|H].
  - destruct (walk_kind _ _ _ _ W K) as [[X _]|X]; auto.
  - destruct e as [q| |]; [|eapply IH; eauto|congruence]. destruct pre as [q0|]; [|eapply IH; eauto].
    destruct (onat_eqb (Some q0) q); [eapply IH; eauto|discriminate].
Qed.
Lemma onat_eqb_eq a b : onat_eqb a b = true -> a = b.
Proof. destruct a, b; cbn; try discriminate; auto. intros E. apply Nat.eqb_eq in E. now subst. Qed.
Lemma walk_quant g fuel x e : r_walk g fuel x = Some e -> rk (rn g x) = KQuant -> e = EQuant (rtq g (rout (rn g x))).
Proof. destruct fuel; [discriminate|]. cbn [r_walk]. intros E K. rewrite K in E. now injection E as <-. Qed.
Lemma skip_pre g fuel rs : forall q, r_skip g fuel rs (Some q) = Some false -> forall r, In r rs -> rk (rn g r) = KQuant -> rtq g (rout (rn g r)) = Some q.
Proof.
  induction rs as [|x rs IH]; intros q E r H K; [destruct H|]. cbn [r_skip] in E.
  destruct (r_walk g fuel x) as [e|] eqn:W; [|discriminate]. destruct H as [<-|H].
  - rewrite (walk_quant _ _ _ _ W K) in E. destruct (onat_eqb (Some q) (rtq g (rout (rn g x)))) eqn:O; [|discriminate]. now apply onat_eqb_eq in O.
  - destruct e as [q'| |]; [|eapply IH; eauto|discriminate]. destruct (onat_eqb (Some q) q'); [eapply IH; eauto|discriminate].
Qed.
Lemma skip_same g fuel rs : r_skip g fuel rs None = Some false ->
  (forall r, In r rs -> rk (rn g r) = KQuant -> rtq g (rout (rn g r)) <> None) ->
  forall r r', In r rs -> In r' rs -> rk (rn g r) = KQuant -> rk (rn g r') = KQuant -> rtq g (rout (rn g r)) = rtq g (rout (rn g r')).
Proof.
  induction rs as [|x rs IH]; intros E NN r r' H H' K K'; [destruct H|]. cbn [r_skip] in E.
  destruct (r_walk g fuel x) as [e|] eqn:W; [|discriminate].
  destruct (rk (rn g x)) eqn:KX.
  2:{ rewrite (walk_quant _ _ _ _ W KX) in E. destruct (rtq g (rout (rn g x))) as [q|] eqn:Q; [|elim (NN x (or_introl eq_refl) KX Q)].
      assert (A : forall y, In y (x :: rs) -> rk (rn g y) = KQuant -> rtq g (rout (rn g y)) = Some q).
      { intros y [<-|Y] KY; [exact Q|]. eapply skip_pre; eauto. }
      now rewrite (A r H K), (A r' H' K'). }
  all: assert (HR : In r rs) by (destruct H as [->|H]; [congruence|exact H]);
       assert (HR' : In r' rs) by (destruct H' as [->|H']; [congruence|exact H']).
  all: destruct e as [q| |]; [|apply IH; auto; intros; apply NN; [now right|assumption]|discriminate].
  all: destruct q as [q|]; [rewrite (skip_pre _ _ _ _ E r HR K), (skip_pre _ _ _ _ E r' HR' K'); reflexivity|apply IH; auto; intros; apply NN; [now right|assumption]].
Qed.

(** * The invariant *)
Definition alive (g : rgraph) (n : nat) : Prop := In n (rids g) /\ ~ In n (rdel g).
Record rinv (g0 : rgraph) (rest : list (nat * nat)) (g : rgraph) : Prop := {
  i_ids : rids g = rids g0;
  i_k : forall n, rk (rn g n) = rk (rn g0 n);
  i_edges : incl (redges g0) (redges g);
  i_live : forall s d, In (s, d) (redges g) -> In s (rids g0) /\ In d (rids g0);
  i_compl : forall s d, alive g s -> alive g d -> In (rout (rn g s)) (rins (rn g d)) -> In (s, d) (redges g);
  i_made : forall d t, alive g d -> In t (rins (rn g d)) -> exists s, alive g s /\ rout (rn g s) = t;
  i_inj : forall s s', alive g s -> alive g s' -> rout (rn g s) = rout (rn g s') -> s = s';
  i_delq : forall a, In a (rdel g) -> In a (rids g0) /\ rk (rn g0 a) = KQuant;
  i_rout : forall n, rk (rn g0 n) <> KFuse -> rout (rn g n) = rout (rn g0 n);
  i_q : forall n, alive g n -> rk (rn g0 n) <> KQuant -> rk (rn g0 n) <> KDeq -> map (rtq g) (rins (rn g n)) = map (rtq g0) (rins (rn g0 n));
  i_oq : forall n, In n (rids g0) -> rk (rn g0 n) <> KFuse -> rtq g (rout (rn g n)) = rtq g0 (rout (rn g0 n));
  i_val : forall V den copy reint (v : nat -> V), r_computes den copy reint g0 v -> forall n, alive g n -> node_eq den copy reint g v n;
  i_nodup : NoDup (map snd rest);
  i_pend : forall p a, In (p, a) rest -> In (p, a) (redges g0) /\ rk (rn g0 p) = KFuse /\ rk (rn g0 a) = KQuant /\ alive g a /\
    rins (rn g a) = [rout (rn g p)] /\ rout (rn g p) = rout (rn g0 p) /\
    ((forall d, In (rout (rn g p)) (rins (rn g d)) -> In (rout (rn g p)) (rins (rn g0 d))) \/
     (exists a1, In (p, a1) (redges g) /\ rk (rn g0 a1) = KQuant /\ rtq g (rout (rn g a1)) = rtq g (rout (rn g p)))) }.

Lemma inv_start g : r_wf g -> rinv g (filter (r_fusable g) (redges g)) g.
Proof.
  intros W. assert (AL : forall n, alive g n <-> In n (rids g)) by (intros n; unfold alive; rewrite (rw_del _ W); cbn; tauto).
  constructor; auto.
  - intros x H; exact H.
  - intros s d H. destruct (rw_live _ W s d H) as (A & B & _). auto.
  - intros s d A B H. apply AL in A, B. now apply (rw_edge _ W).
  - intros d t A H. apply AL in A. destruct (rw_made _ W d t A H) as (s & S1 & S2). exists s. split; [now apply AL|exact S2].
  - intros s s' A B E. apply AL in A, B. now apply (rw_out _ W).
  - intros a H. rewrite (rw_del _ W) in H. destruct H.
  - intros V den copy reint v C n A. apply AL in A. exact (C n A).
  - (* every requantize operator has one incoming edge *)
    assert (G : forall l, (forall a, In a (map snd (filter (r_fusable g) l)) -> length (filter (fun e => snd e =? a) l) <= 1) -> NoDup (map snd (filter (r_fusable g) l))).
    { induction l as [|[s d] l IH]; intros H; [constructor|]. cbn [filter]. cbn [filter snd] in H.
      assert (IH' : NoDup (map snd (filter (r_fusable g) l))).
      { apply IH. intros a Ha. specialize (H a). destruct (r_fusable g (s, d)); cbn [map] in H;
        (assert (X := H ltac:(auto using in_cons)); destruct (d =? a); cbn [length] in X; lia). }
      destruct (r_fusable g (s, d)); [|exact IH']. cbn [map snd]. constructor; [|exact IH'].
      intros I. specialize (H d). cbn [map] in H. specialize (H (or_introl eq_refl)). rewrite Nat.eqb_refl in H. cbn [length] in H.
      apply in_map_iff in I. destruct I as ([s' d'] & E & I). cbn in E. subst d'. apply filter_In in I. destruct I as [I _].
      assert (X : In (s', d) (filter (fun e => snd e =? d) l)) by (apply filter_In; split; [exact I|apply Nat.eqb_refl]).
      destruct (filter (fun e => snd e =? d) l); [destruct X|cbn [length] in H; lia]. }
    apply G. intros a H. apply in_map_iff in H. destruct H as ([s d] & E & H). cbn in E. subst d. apply filter_In in H. destruct H as [H F].
    unfold r_fusable in F. apply andb_true_iff in F. destruct F as [_ F]. apply kind_eqb_eq in F. cbn in F.
    apply (rw_once _ W); [apply (rw_live _ W _ _ H)|exact F].
  - intros p a H. apply filter_In in H. destruct H as [H F]. unfold r_fusable in F. cbn [fst snd] in F.
    apply andb_true_iff in F. destruct F as [F F2]. apply andb_true_iff in F. destruct F as [F1 _].
    apply kind_eqb_eq in F1, F2. destruct (rw_live _ W _ _ H) as (L1 & L2 & L3).
    split; [exact H|]. split; [exact F1|]. split; [exact F2|]. split; [now apply AL|]. split; [|split; [reflexivity|left; auto]].
    destruct (rw_one _ W a L2 F2) as (t & E). rewrite E in *. destruct L3 as [<-|[]]. reflexivity.
Qed.

Section Step.
  Variables (g0 : rgraph) (W : r_wf g0) (NC : r_no_copies g0) (p a : nat) (rest : list (nat * nat)) (g : rgraph).
  Hypothesis I : rinv g0 ((p, a) :: rest) g.

  Lemma st_pend : In (p, a) (redges g0) /\ rk (rn g0 p) = KFuse /\ rk (rn g0 a) = KQuant /\ alive g a /\
    rins (rn g a) = [rout (rn g p)] /\ rout (rn g p) = rout (rn g0 p) /\
    ((forall d, In (rout (rn g p)) (rins (rn g d)) -> In (rout (rn g p)) (rins (rn g0 d))) \/
     (exists a1, In (p, a1) (redges g) /\ rk (rn g0 a1) = KQuant /\ rtq g (rout (rn g a1)) = rtq g (rout (rn g p)))).
  Proof. apply (i_pend _ _ _ I). now left. Qed.
  Lemma st_p_alive : alive g p.
  Proof.
    destruct st_pend as (E & K & _). split.
    - rewrite (i_ids _ _ _ I). apply (rw_live _ W _ _ E).
    - intros D. apply (i_delq _ _ _ I) in D. destruct D as [_ D]. congruence.
  Qed.
  Lemma st_fuse_alive q b : In (q, b) rest -> alive g q.
  Proof.
    intros H. destruct (i_pend _ _ _ I q b (or_intror H)) as (E & K & _). split.
    - rewrite (i_ids _ _ _ I). apply (rw_live _ W _ _ E).
    - intros D. apply (i_delq _ _ _ I) in D. destruct D as [_ D]. congruence.
  Qed.
  Lemma st_pa : p <> a.
  Proof. destruct st_pend as (_ & K & K' & _). intros ->. congruence. Qed.
  Lemma st_out_pa : rout (rn g p) <> rout (rn g a).
  Proof. intros E. apply st_pa. apply (i_inj _ _ _ I); [exact st_p_alive|apply st_pend|exact E]. Qed.
  Lemma st_rest_a q b : In (q, b) rest -> b <> a.
  Proof. intros H ->. assert (N := i_nodup _ _ _ I). cbn [map snd] in N. inversion N as [|? ? N1 N2]; subst. apply N1. apply in_map_iff. exists (q, a). auto. Qed.

  Lemma skip_inv : rinv g0 rest g.
  Proof.
    destruct I as [H1 H2 H3 H4 H5 H6 H7 H8 H9 H10 H11 H12 H13 H14]. constructor; auto.
    - cbn [map] in H13. now inversion H13.
    - intros q b H. apply H14. now right.
  Qed.

  (** ** The only reader *)
  Definition g_conn : rgraph :=
    mkRG (rids g) (r_upd (rn g) p (mkRN (rk (rn g p)) (rins (rn g p)) (rout (rn g a))))
      (redges g ++ map (fun r => (p, r)) (r_outs g a)) (rtq g) (a :: rdel g).
  Hypothesis one : (1 <? length (r_outs g p)) = false.
  Lemma one_reader d : In (p, d) (redges g) -> d = a.
  Proof.
    intros H. apply r_outs_in in H. assert (A : In a (r_outs g p)) by (apply r_outs_in, (i_edges _ _ _ I), st_pend).
    apply Nat.ltb_ge in one. destruct (r_outs g p) as [|x [|y l]]; cbn [length] in one; [destruct A| |lia].
    destruct A as [<-|[]]. destruct H as [<-|[]]. reflexivity.
  Qed.
  Lemma conn_rk n : rk (rn g_conn n) = rk (rn g n).
  Proof. cbn. unfold r_upd. destruct (n =? p) eqn:E; [apply Nat.eqb_eq in E; now subst|reflexivity]. Qed.
  Lemma conn_rins n : rins (rn g_conn n) = rins (rn g n).
  Proof. cbn. unfold r_upd. destruct (n =? p) eqn:E; [apply Nat.eqb_eq in E; now subst|reflexivity]. Qed.
  Lemma conn_rout n : rout (rn g_conn n) = if n =? p then rout (rn g a) else rout (rn g n).
  Proof. cbn. unfold r_upd. destruct (n =? p) eqn:E; reflexivity. Qed.
  Lemma conn_alive n : alive g_conn n <-> alive g n /\ n <> a.
  Proof. unfold alive, g_conn; cbn [rids rdel In]. split; [intros [A B]; repeat split; auto; intros ->; auto|intros [[A B] C]; split; auto; intros [->|D]; auto]. Qed.
  Lemma conn_edge s d : In (s, d) (redges g_conn) <-> In (s, d) (redges g) \/ (s = p /\ In (a, d) (redges g)).
  Proof.
    unfold g_conn; cbn [redges]. rewrite in_app_iff, in_map_iff. split; (intros [H|H]; [now left|right]).
    - destruct H as (r & E & H). injection E as <- <-. split; [reflexivity|now apply r_outs_in].
    - destruct H as [-> H]. exists d. split; [reflexivity|now apply r_outs_in].
  Qed.
  Lemma conn_inv : rinv g0 rest g_conn.
  Proof.
    destruct st_pend as (PE & PK & AK & AA & AI & PO & PT). assert (PA := st_p_alive).
    constructor.
    - apply (i_ids _ _ _ I).
    - intros n. rewrite conn_rk. apply (i_k _ _ _ I).
    - intros x H. apply in_or_app. left. now apply (i_edges _ _ _ I).
    - intros s d H. apply conn_edge in H. destruct H as [H|[-> H]]; [now apply (i_live _ _ _ I)|].
      split; [rewrite <- (i_ids _ _ _ I); apply PA|now apply (i_live _ _ _ I) in H].
    - intros s d A B H. apply conn_alive in A, B. destruct A as [A A'], B as [B B']. rewrite conn_rins in H. rewrite conn_rout in H. apply conn_edge.
      destruct (s =? p) eqn:E.
      + apply Nat.eqb_eq in E. right. split; [exact E|]. now apply (i_compl _ _ _ I).
      + left. now apply (i_compl _ _ _ I).
    - intros d t A H. apply conn_alive in A. destruct A as [A A']. rewrite conn_rins in H. destruct (i_made _ _ _ I d t A H) as (s & S1 & S2).
      destruct (Nat.eq_dec s a) as [->|NA].
      + exists p. split; [apply conn_alive; split; [exact PA|exact st_pa]|]. rewrite conn_rout, Nat.eqb_refl. exact S2.
      + destruct (Nat.eq_dec s p) as [->|NP].
        * exfalso. apply A'. apply one_reader. apply (i_compl _ _ _ I); auto. now rewrite S2.
        * exists s. split; [now apply conn_alive|]. rewrite conn_rout. now rewrite (proj2 (Nat.eqb_neq s p) NP).
    - intros s s' A B E. apply conn_alive in A, B. destruct A as [A A'], B as [B B']. rewrite !conn_rout in E.
      destruct (s =? p) eqn:E1, (s' =? p) eqn:E2; [apply Nat.eqb_eq in E1, E2; congruence| | |now apply (i_inj _ _ _ I)].
      + elim B'. symmetry. now apply (i_inj _ _ _ I).
      + elim A'. now apply (i_inj _ _ _ I).
    - intros x [<-|H]; [|now apply (i_delq _ _ _ I)]. split; [rewrite <- (i_ids _ _ _ I); apply AA|exact AK].
    - intros n K. rewrite conn_rout. destruct (n =? p) eqn:E; [apply Nat.eqb_eq in E; congruence|now apply (i_rout _ _ _ I)].
    - intros n A K1 K2. apply conn_alive in A. rewrite conn_rins. now apply (i_q _ _ _ I).
    - intros n H K. rewrite conn_rout. destruct (n =? p) eqn:E; [apply Nat.eqb_eq in E; congruence|now apply (i_oq _ _ _ I)].
    - intros V den copy reint v C n A. apply conn_alive in A. destruct A as [A A'].
      assert (X := i_val _ _ _ I V den copy reint v C n A).
      unfold node_eq in *. rewrite conn_rk, conn_rins, conn_rout. destruct (n =? p) eqn:E; [|exact X].
      apply Nat.eqb_eq in E. subst n. rewrite (i_k _ _ _ I), PK in *.
      assert (Y := i_val _ _ _ I V den copy reint v C a AA). unfold node_eq in Y. rewrite (i_k _ _ _ I), AK, AI in Y. now rewrite Y.
    - assert (N := i_nodup _ _ _ I). cbn [map] in N. now inversion N.
    - intros q b H. destruct (i_pend _ _ _ I q b (or_intror H)) as (E1 & E2 & E3 & E4 & E5 & E6 & E7).
      assert (QP : q <> p).
      { intros ->. apply (st_rest_a _ _ H). apply one_reader. now apply (i_edges _ _ _ I). }
      assert (RQ : rout (rn g_conn q) = rout (rn g q)) by (rewrite conn_rout, (proj2 (Nat.eqb_neq q p) QP); reflexivity).
      rewrite RQ. rewrite conn_rins. split; [exact E1|]. split; [exact E2|]. split; [exact E3|]. split; [apply conn_alive; split; [exact E4|apply (st_rest_a _ _ H)]|].
      split; [exact E5|]. split; [exact E6|]. destruct E7 as [E7|(a1 & F1 & F2 & F3)].
      + left. intros d. rewrite conn_rins. apply E7.
      + right. exists a1. split; [apply conn_edge; now left|]. split; [exact F2|].
        rewrite conn_rout. destruct (a1 =? p) eqn:EE; [apply Nat.eqb_eq in EE; congruence|exact F3].
  Qed.
End Step.

Section Multi.
  Variables (g0 : rgraph) (W : r_wf g0) (NC : r_no_copies g0) (p a : nat) (rest : list (nat * nat)) (g : rgraph) (fuel : nat).
  Hypothesis I : rinv g0 ((p, a) :: rest) g.
  Hypothesis noskip : r_skip g fuel (r_outs g p) None = Some false.

  Definition g_rep : rgraph :=
    let g1 := r_replace g a p in
    mkRG (rids g1) (rn g1) (redges g1) (r_upd (rtq g1) (rout (rn g1 p)) (rtq g1 (rout (rn g1 a)))) (a :: rdel g1).
  Definition sub_t (t : nat) : nat := if t =? rout (rn g a) then rout (rn g p) else t.
  Lemma rep_rk n : rk (rn g_rep n) = rk (rn g n).
  Proof. cbn. destruct (r_mem n (r_outs g a)); reflexivity. Qed.
  Lemma rep_rout n : rout (rn g_rep n) = rout (rn g n).
  Proof. cbn. destruct (r_mem n (r_outs g a)); reflexivity. Qed.
  Lemma rep_rins n : alive g n -> rins (rn g_rep n) = map sub_t (rins (rn g n)).
  Proof.
    intros A. cbn. destruct (r_mem n (r_outs g a)) eqn:M; [reflexivity|].
    assert (N : ~ In (rout (rn g a)) (rins (rn g n))).
    { intros H. assert (X : In n (r_outs g a)) by (apply r_outs_in, (i_compl _ _ _ I); [apply (st_pend _ _ _ _ _ I)|exact A|exact H]).
      apply r_mem_in in X. congruence. }
    rewrite <- (map_id (rins (rn g n))) at 1. apply map_ext_in. intros t H. unfold sub_t.
    destruct (t =? rout (rn g a)) eqn:E; [apply Nat.eqb_eq in E; subst; contradiction|reflexivity].
  Qed.
  Lemma rep_rins_in n t : In t (rins (rn g_rep n)) -> t = rout (rn g p) \/ (In t (rins (rn g n))).
  Proof.
    cbn. destruct (r_mem n (r_outs g a)); cbn [rins]; [|auto]. intros H. apply in_map_iff in H. destruct H as (x & E & H).
    destruct (x =? rout (rn g a)); subst; auto.
  Qed.
  Lemma rep_alive n : alive g_rep n <-> alive g n /\ n <> a.
  Proof. unfold alive, g_rep; cbn [rids rdel In r_replace]. split; [intros [A B]; repeat split; auto; intros ->; auto|intros [[A B] C]; split; auto; intros [->|D]; auto]. Qed.
  Lemma rep_edge s d : In (s, d) (redges g_rep) <-> In (s, d) (redges g) \/ (s = p /\ In (a, d) (redges g)).
  Proof.
    unfold g_rep; cbn [redges r_replace]. rewrite in_app_iff, in_map_iff. split; (intros [H|H]; [now left|right]).
    - destruct H as (r & E & H). injection E as <- <-. split; [reflexivity|now apply r_outs_in].
    - destruct H as [-> H]. exists d. split; [reflexivity|now apply r_outs_in].
  Qed.
  Lemma rep_tq t : rtq g_rep t = if t =? rout (rn g p) then rtq g (rout (rn g a)) else rtq g t.
  Proof. change (rtq g_rep t) with (r_upd (rtq g) (rout (rn g_rep p)) (rtq g (rout (rn g_rep a))) t). rewrite !rep_rout. reflexivity. Qed.
  (** a copy that reads the result is read with the same quantization as before *)
  Lemma rep_copy n : alive g n -> rk (rn g0 n) <> KQuant -> rk (rn g0 n) <> KDeq -> In (rout (rn g p)) (rins (rn g n)) ->
    rtq g (rout (rn g a)) = rtq g (rout (rn g p)).
  Proof.
    intros A K1 K2 H. destruct (st_pend _ _ _ _ _ I) as (PE & PK & AK & AA & AI & PO & PT). assert (PA := st_p_alive _ W _ _ _ _ I).
    assert (E : In (p, n) (redges g)) by (now apply (i_compl _ _ _ I)).
    assert (KC : rk (rn g0 n) = KCopy).
    { apply r_outs_in in E. destruct (skip_kind _ _ _ _ noskip n E) as [X|[X|X]]; rewrite (i_k _ _ _ I) in X; congruence. }
    destruct PT as [PT|(a1 & F1 & F2 & F3)].
    - exfalso. specialize (PT n H). rewrite PO in PT. destruct (rw_live _ W _ _ PE) as (L1 & L2 & L3).
      apply (NC p a n); auto. rewrite <- (i_ids _ _ _ I). apply A.
    - rewrite <- F3. apply (skip_same _ _ _ noskip).
      + intros r R K. rewrite (i_k _ _ _ I) in K. apply r_outs_in in R. apply (i_live _ _ _ I) in R.
        rewrite (i_oq _ _ _ I r (proj2 R)) by congruence. apply (rw_q _ W); [apply R|exact K].
      + apply r_outs_in, (i_edges _ _ _ I), PE.
      + now apply r_outs_in.
      + now rewrite (i_k _ _ _ I).
      + now rewrite (i_k _ _ _ I).
  Qed.
  Lemma rep_tq_sub n t : alive g n -> rk (rn g0 n) <> KQuant -> rk (rn g0 n) <> KDeq -> In t (rins (rn g n)) -> rtq g_rep (sub_t t) = rtq g t.
  Proof.
    intros A K1 K2 H. unfold sub_t. rewrite rep_tq. destruct (t =? rout (rn g a)) eqn:E.
    - apply Nat.eqb_eq in E. rewrite Nat.eqb_refl. now subst.
    - destruct (t =? rout (rn g p)) eqn:E2; [|reflexivity]. apply Nat.eqb_eq in E2. subst t. now apply (rep_copy n).
  Qed.
  Lemma rep_tq_out n : alive g n -> n <> p -> rtq g_rep (rout (rn g n)) = rtq g (rout (rn g n)).
  Proof.
    intros A N. rewrite rep_tq. destruct (rout (rn g n) =? rout (rn g p)) eqn:E; [|reflexivity]. apply Nat.eqb_eq in E.
    elim N. apply (i_inj _ _ _ I); [exact A|exact (st_p_alive _ W _ _ _ _ I)|exact E].
  Qed.
  Lemma rep_v V den copy reint (v : nat -> V) : r_computes den copy reint g0 v -> forall t, v (sub_t t) = v t.
  Proof.
    intros C t. unfold sub_t. destruct (t =? rout (rn g a)) eqn:E; [|reflexivity]. apply Nat.eqb_eq in E. subst t.
    destruct (st_pend _ _ _ _ _ I) as (PE & PK & AK & AA & AI & PO & PT).
    assert (Y := i_val _ _ _ I V den copy reint v C a AA). unfold node_eq in Y. rewrite (i_k _ _ _ I), AK, AI in Y. now rewrite Y.
  Qed.

  Lemma rep_inv : rinv g0 rest g_rep.
  Proof.
    destruct (st_pend _ _ _ _ _ I) as (PE & PK & AK & AA & AI & PO & PT). assert (PA := st_p_alive _ W _ _ _ _ I).
    assert (NPA := st_pa _ _ _ _ _ I). assert (OPA := st_out_pa _ W _ _ _ _ I).
    constructor.
    - apply (i_ids _ _ _ I).
    - intros n. rewrite rep_rk. apply (i_k _ _ _ I).
    - intros x H. apply in_or_app. left. now apply (i_edges _ _ _ I).
    - intros s d H. apply rep_edge in H. destruct H as [H|[-> H]]; [now apply (i_live _ _ _ I)|].
      split; [rewrite <- (i_ids _ _ _ I); apply PA|now apply (i_live _ _ _ I) in H].
    - intros s d A B H. apply rep_alive in A, B. destruct A as [A A'], B as [B B']. rewrite rep_rins in H by exact B. rewrite rep_rout in H.
      apply rep_edge. apply in_map_iff in H. destruct H as (t & E & H). unfold sub_t in E. destruct (t =? rout (rn g a)) eqn:T.
      + apply Nat.eqb_eq in T. right. split; [symmetry; now apply (i_inj _ _ _ I)|]. apply (i_compl _ _ _ I); auto. now rewrite <- T.
      + left. apply (i_compl _ _ _ I); auto. now rewrite <- E.
    - intros d t A H. apply rep_alive in A. destruct A as [A A']. rewrite rep_rins in H by exact A. apply in_map_iff in H. destruct H as (x & E & H).
      unfold sub_t in E. destruct (x =? rout (rn g a)) eqn:T.
      + exists p. split; [apply rep_alive; split; [exact PA|exact NPA]|]. now rewrite rep_rout.
      + apply Nat.eqb_neq in T. subst x. destruct (i_made _ _ _ I d t A H) as (s & S1 & S2). exists s. split; [|now rewrite rep_rout].
        apply rep_alive. split; [exact S1|]. intros ->. congruence.
    - intros s s' A B E. apply rep_alive in A, B. rewrite !rep_rout in E. apply (i_inj _ _ _ I); [apply A|apply B|exact E].
    - intros x [<-|H]; [|now apply (i_delq _ _ _ I)]. split; [rewrite <- (i_ids _ _ _ I); apply AA|exact AK].
    - intros n K. rewrite rep_rout. now apply (i_rout _ _ _ I).
    - intros n A K1 K2. apply rep_alive in A. destruct A as [A A']. rewrite rep_rins by exact A. rewrite map_map.
      rewrite <- (i_q _ _ _ I n A K1 K2). apply map_ext_in. intros t H. now apply (rep_tq_sub n).
    - intros n H K. rewrite rep_rout, rep_tq. rewrite (proj2 (Nat.eqb_neq _ _)); [now apply (i_oq _ _ _ I)|].
      rewrite PO, (i_rout _ _ _ I n K). intros E. destruct (rw_live _ W _ _ PE) as (L1 & _). apply (rw_out _ W) in E; auto. congruence.
    - intros V den copy reint v C n A. apply rep_alive in A. destruct A as [A A'].
      assert (X := i_val _ _ _ I V den copy reint v C n A). assert (SV := rep_v V den copy reint v C).
      unfold node_eq in *. rewrite rep_rk, (rep_rins n A), rep_rout.
      destruct (rk (rn g n)) eqn:K.
      + rewrite map_map, (map_ext _ _ SV). exact X.
      + destruct (rins (rn g n)); [exact X|]. cbn [map]. now rewrite SV.
      + destruct (rins (rn g n)); [exact X|]. cbn [map]. now rewrite SV.
      + assert (NP : n <> p) by (intros ->; rewrite (i_k _ _ _ I) in K; congruence). rewrite (i_k _ _ _ I) in K.
        assert (T := rep_tq_sub n). destruct (rins (rn g n)) as [|t ts]; [exact X|]. cbn [map].
        rewrite (T t A) by (try congruence; now left). rewrite SV, (rep_tq_out n A NP). exact X.
      + destruct (rins (rn g n)); [exact X|]. cbn [map]. now rewrite SV.
      + rewrite map_map, (map_ext _ _ SV). exact X.
    - assert (N := i_nodup _ _ _ I). cbn [map] in N. now inversion N.
    - intros q b H. destruct (i_pend _ _ _ I q b (or_intror H)) as (E1 & E2 & E3 & E4 & E5 & E6 & E7).
      assert (QA := st_fuse_alive _ W _ _ _ _ I q b H). assert (NB := st_rest_a _ _ _ _ _ I _ _ H).
      split; [exact E1|]. split; [exact E2|]. split; [exact E3|]. split; [apply rep_alive; auto|]. rewrite !rep_rout.
      split.
      { rewrite (rep_rins b E4), E5. cbn [map]. unfold sub_t. rewrite (proj2 (Nat.eqb_neq _ _)); [reflexivity|].
        intros E. apply (i_inj _ _ _ I) in E; auto. congruence. }
      split; [exact E6|]. destruct (Nat.eq_dec q p) as [->|NQ].
      + right. exists a. split; [apply rep_edge; left; now apply (i_edges _ _ _ I)|]. split; [exact AK|]. rewrite rep_rout, !rep_tq, Nat.eqb_refl.
        now rewrite (proj2 (Nat.eqb_neq _ _)) by congruence.
      + assert (OQ : rout (rn g q) <> rout (rn g p)) by (intros E; apply NQ; now apply (i_inj _ _ _ I)).
        destruct E7 as [E7|(a1 & F1 & F2 & F3)].
        * left. intros d D. apply rep_rins_in in D. destruct D as [D|D]; [congruence|now apply E7].
        * right. exists a1. split; [apply rep_edge; now left|]. split; [exact F2|]. rewrite rep_rout, !rep_tq.
          rewrite (proj2 (Nat.eqb_neq _ _) OQ). rewrite (proj2 (Nat.eqb_neq _ _)); [exact F3|].
          rewrite PO, (i_rout _ _ _ I a1) by congruence. intros E. destruct (rw_live _ W _ _ PE) as (L1 & _).
          apply (rw_out _ W) in E; [congruence|apply (i_live _ _ _ I _ _ F1)|exact L1].
  Qed.
End Multi.

Lemma step_inv g0 fuel e rest g g' : r_wf g0 -> r_no_copies g0 -> rinv g0 (e :: rest) g -> r_step fuel g e = Some g' -> rinv g0 rest g'.
Proof.
  intros W NC I E. destruct e as [p a]. unfold r_step in E. cbn [fst snd] in E.
  destruct (1 <? length (r_outs g p)) eqn:L.
  - destruct (r_skip g fuel (r_outs g p) None) as [[|]|] eqn:S; [| |discriminate].
    + injection E as <-. now apply (skip_inv _ _ _ _ _ I).
    + destruct (existsb (fun r => rkind_eqb (rk (rn g r)) KOut) (r_outs g a)); [discriminate|]. injection E as <-.
      exact (rep_inv g0 W NC p a rest g fuel I S).
  - injection E as <-. exact (conn_inv g0 W p a rest g I L).
Qed.
Lemma steps_inv g0 fuel rest : r_wf g0 -> r_no_copies g0 -> forall g g', rinv g0 rest g -> r_steps fuel g rest = Some g' -> rinv g0 [] g'.
Proof.
  intros W NC. induction rest as [|e rest IH]; intros g g' I E; cbn [r_steps] in E; [now injection E as <-|].
  destruct (r_step fuel g e) as [g1|] eqn:S; [|discriminate]. apply (IH g1); [|exact E]. eapply step_inv; eauto.
Qed.

Lemma step_float g0 fuel e rest g g' n : rinv g0 (e :: rest) g -> rtq g0 (rout (rn g0 (fst e))) <> None -> rtq g0 (rout (rn g0 n)) = None ->
  rout (rn g n) = rout (rn g0 n) /\ rtq g (rout (rn g0 n)) = None -> r_step fuel g e = Some g' -> rout (rn g' n) = rout (rn g0 n) /\ rtq g' (rout (rn g0 n)) = None.
Proof.
  destruct e as [p a]. intros I Q N [H1 H2] S. cbn [fst] in Q. destruct (i_pend _ _ _ I p a (or_introl eq_refl)) as (_ & _ & _ & _ & _ & PO & _).
  assert (NO : rout (rn g0 n) <> rout (rn g0 p)) by congruence.
  unfold r_step in S. cbn [fst snd] in S. destruct (1 <? length (r_outs g p)).
  - destruct (r_skip g fuel (r_outs g p) None) as [[|]|]; [injection S as <-; auto| |discriminate].
    destruct (existsb (fun r => rkind_eqb (rk (rn g r)) KOut) (r_outs g a)); [discriminate|]. injection S as <-. cbn [rn rtq r_replace].
    assert (RO : forall m, rout (if r_mem m (r_outs g a) then mkRN (rk (rn g m)) (map (fun t => if t =? rout (rn g a) then rout (rn g p) else t) (rins (rn g m))) (rout (rn g m)) else rn g m) = rout (rn g m))
      by (intros m; destruct (r_mem m (r_outs g a)); reflexivity).
    rewrite RO. split; [exact H1|]. unfold r_upd. rewrite RO, PO. rewrite (proj2 (Nat.eqb_neq _ _) NO). exact H2.
  - injection S as <-. cbn [rn rtq r_connect]. unfold r_upd. destruct (n =? p) eqn:E; [apply Nat.eqb_eq in E; subst n; contradiction|auto].
Qed.
Lemma steps_float g0 fuel n : r_wf g0 -> r_no_copies g0 -> rtq g0 (rout (rn g0 n)) = None -> forall rest g g', rinv g0 rest g ->
  (forall e, In e rest -> rtq g0 (rout (rn g0 (fst e))) <> None) ->
  rout (rn g n) = rout (rn g0 n) /\ rtq g (rout (rn g0 n)) = None -> r_steps fuel g rest = Some g' -> rout (rn g' n) = rout (rn g0 n) /\ rtq g' (rout (rn g0 n)) = None.
Proof.
  intros W NC N. induction rest as [|e rest IH]; intros g g' I Q H S; cbn [r_steps] in S; [injection S as <-; exact H|].
  destruct (r_step fuel g e) as [g1|] eqn:E; [|discriminate].
  apply (IH g1 g'); [eapply step_inv; eauto|intros x X; apply Q; now right| |exact S].
  eapply step_float; eauto. apply Q. now left.
Qed.
Lemma requant_lemma fuel g g' : r_wf g -> r_no_copies g -> fuse_requantize fuel g = Some g' ->
  (forall V den copy reint (v : nat -> V), r_computes den copy reint g v -> r_computes den copy reint g' v) /\
  (forall n, In n (rids g') -> rk (rn g' n) <> KQuant -> rk (rn g' n) <> KDeq -> map (rtq g') (rins (rn g' n)) = map (rtq g) (rins (rn g n))) /\
  (forall d t, In d (rids g') -> In t (rins (rn g' d)) -> exists s, In s (rids g') /\ rout (rn g' s) = t) /\
  (forall n, In n (rids g) -> rk (rn g' n) = rk (rn g n) /\ (rk (rn g n) <> KFuse -> rout (rn g' n) = rout (rn g n)) /\
             (In n (rids g') \/ rk (rn g n) = KQuant)) /\
  (forall n, In n (rids g) -> rtq g (rout (rn g n)) = None -> rout (rn g' n) = rout (rn g n) /\ rtq g' (rout (rn g' n)) = None) /\
  (forall s d, In (s, d) (redges g') -> In s (rids g') /\ In d (rids g')) /\
  (forall s d, In s (rids g') -> In d (rids g') -> In (rout (rn g' s)) (rins (rn g' d)) -> In (s, d) (redges g')).
Proof.
  intros W NC E. unfold fuse_requantize in E. destruct (r_steps fuel g (filter (r_fusable g) (redges g))) as [g1|] eqn:S; [|discriminate].
  injection E as <-. assert (I := steps_inv g fuel _ W NC g g1 (inv_start g W) S).
  assert (AL : forall n, In n (rids (r_delete g1)) <-> alive g1 n).
  { intros n. unfold alive. cbn [r_delete rids]. rewrite filter_In, negb_true_iff, <- (r_mem_in n (rdel g1)).
    destruct (r_mem n (rdel g1)); split; intros [A B]; (split; [exact A|]); [discriminate B|elim (B eq_refl)|discriminate|reflexivity]. }
  split; [|split; [|split; [|split; [|split; [|split]]]]].
  - intros V den copy reint v C n H. apply AL in H. exact (i_val _ _ _ I V den copy reint v C n H).
  - intros n H K1 K2. apply AL in H. cbn [r_delete rn rtq] in *. rewrite (i_k _ _ _ I) in K1, K2. now apply (i_q _ _ _ I).
  - intros d t H T. apply AL in H. destruct (i_made _ _ _ I d t H T) as (s & S1 & S2). exists s. split; [now apply AL|exact S2].
  - intros n H. split; [apply (i_k _ _ _ I)|]. split; [apply (i_rout _ _ _ I)|].
    destruct (in_dec Nat.eq_dec n (rdel g1)) as [D|D]; [right; apply (i_delq _ _ _ I n D)|left; apply AL; split; [now rewrite (i_ids _ _ _ I)|exact D]].
  - intros n H N. cbn [r_delete rn rtq].
    destruct (steps_float g fuel n W NC N _ g g1 (inv_start g W)) as [A B]; [|auto|exact S|split; [exact A|rewrite A; exact B]].
    intros e X. apply filter_In in X. destruct X as [_ X]. unfold r_fusable in X. destruct (rtq g (rout (rn g (fst e)))); [discriminate|].
    rewrite andb_false_r in X. discriminate X.
  - intros s d H. cbn [r_delete redges] in H. apply filter_In in H. destruct H as [H B]. apply andb_true_iff in B. cbn [fst snd] in B.
    destruct B as [B1 B2]. apply negb_true_iff in B1, B2. destruct (i_live _ _ _ I s d H) as [S1 D1].
    split; apply AL; (split; [now rewrite (i_ids _ _ _ I)|]); intros X; apply (proj2 (r_mem_in _ _)) in X; congruence.
  - intros s d S1 D1 H. apply AL in S1, D1. cbn [r_delete redges rn] in *. apply filter_In. split; [now apply (i_compl _ _ _ I)|].
    cbn [fst snd]. destruct S1 as [_ S1], D1 as [_ D1].
    destruct (r_mem s (rdel g1)) eqn:X; [elim S1; now apply r_mem_in|]. destruct (r_mem d (rdel g1)) eqn:Y; [elim D1; now apply r_mem_in|]. reflexivity.
Qed.

(** * A single reader goes away *)
Lemma outs_other g q a p : p <> q -> r_outs (mkRG (rids g) (rn g) (redges g ++ map (fun r => (q, r)) (r_outs g a)) (rtq g) (rdel g)) p = r_outs g p.
Proof.
  intros N. unfold r_outs at 1. cbn [redges]. rewrite filter_app, map_app. fold (r_outs g p).
  assert (X : filter (fun e : nat * nat => fst e =? p) (map (fun r => (q, r)) (r_outs g a)) = []).
  { generalize (r_outs g a). induction l as [|x l IH]; [reflexivity|]. cbn [map filter fst]. rewrite (proj2 (Nat.eqb_neq q p)) by congruence. exact IH. }
  rewrite X. apply app_nil_r.
Qed.
Lemma step_other fuel g e g' p : r_step fuel g e = Some g' -> fst e <> p -> r_outs g' p = r_outs g p.
Proof.
  destruct e as [q a]. unfold r_step. cbn [fst snd]. intros E N.
  destruct (1 <? length (r_outs g q)).
  - destruct (r_skip g fuel (r_outs g q) None) as [[|]|]; [now injection E as <-| |discriminate].
    destruct (existsb (fun r => rkind_eqb (rk (rn g r)) KOut) (r_outs g a)); [discriminate|]. injection E as <-.
    exact (outs_other g q a p ltac:(congruence)).
  - injection E as <-. exact (outs_other g q a p ltac:(congruence)).
Qed.
Lemma step_del fuel g e g' : r_step fuel g e = Some g' -> incl (rdel g) (rdel g').
Proof.
  destruct e as [q a]. unfold r_step. cbn [fst snd]. intros E x X.
  destruct (1 <? length (r_outs g q)).
  - destruct (r_skip g fuel (r_outs g q) None) as [[|]|]; [now injection E as <-| |discriminate].
    destruct (existsb (fun r => rkind_eqb (rk (rn g r)) KOut) (r_outs g a)); [discriminate|]. injection E as <-. now right.
  - injection E as <-. now right.
Qed.
Lemma steps_del fuel es : forall g g', r_steps fuel g es = Some g' -> incl (rdel g) (rdel g').
Proof.
  induction es as [|e es IH]; intros g g' E; cbn [r_steps] in E; [injection E as <-; apply incl_refl|].
  destruct (r_step fuel g e) as [g1|] eqn:S; [|discriminate]. eapply incl_tran; [eapply step_del; eauto|eauto].
Qed.
Lemma steps_single fuel p a es : forall g g', (forall b, In (p, b) es -> b = a) -> length (r_outs g p) <= 1 -> In (p, a) es ->
  r_steps fuel g es = Some g' -> In a (rdel g').
Proof.
  induction es as [|e es IH]; intros g g' U L H E; [destruct H|]. cbn [r_steps] in E.
  destruct (r_step fuel g e) as [g1|] eqn:S; [|discriminate]. destruct (Nat.eq_dec (fst e) p) as [EP|NP].
  - assert (EE : e = (p, a)) by (destruct e as [q b]; cbn in EP; subst q; f_equal; apply U; now left). subst e.
    apply (steps_del _ _ _ _ E). unfold r_step in S. cbn [fst snd] in S. rewrite (proj2 (Nat.ltb_ge _ _) L) in S. injection S as <-. now left.
  - apply (IH g1 g'); auto.
    + intros b B. apply U. now right.
    + now rewrite (step_other _ _ _ _ _ S NP).
    + destruct H as [->|H]; [now elim NP|exact H].
Qed.
Lemma single_lemma fuel g g' p a : r_wf g -> fuse_requantize fuel g = Some g' -> In p (rids g) -> In a (rids g) ->
  rk (rn g p) = KFuse -> rtq g (rout (rn g p)) <> None -> rk (rn g a) = KQuant -> In (rout (rn g p)) (rins (rn g a)) ->
  (forall e, In e (redges g) -> fst e = p -> e = (p, a)) -> NoDup (redges g) -> ~ In a (rids g').
Proof.
  intros W E P A K1 Q K2 T U ND. unfold fuse_requantize in E.
  destruct (r_steps fuel g (filter (r_fusable g) (redges g))) as [g1|] eqn:S; [|discriminate]. injection E as <-.
  assert (D : In a (rdel g1)).
  { apply (steps_single fuel p a _ _ _) with (4 := S).
    - intros b B. apply filter_In in B. destruct B as [B _]. specialize (U _ B eq_refl). now injection U.
    - unfold r_outs. rewrite map_length. clear S. revert U ND. generalize (redges g). induction l as [|e l IH]; intros U ND; [cbn; lia|].
      inversion ND as [|? ? N1 N2]; subst. cbn [filter]. destruct (fst e =? p) eqn:F; [|apply IH; auto; intros; apply U; [now right|assumption]].
      apply Nat.eqb_eq in F. assert (X := U e (or_introl eq_refl) F). subst e. cbn [length].
      assert (Z : filter (fun e => fst e =? p) l = []).
      { destruct (filter (fun e => fst e =? p) l) as [|y ys] eqn:Y; [reflexivity|]. exfalso. apply N1.
        assert (I : In y (filter (fun e => fst e =? p) l)) by (rewrite Y; now left). apply filter_In in I. destruct I as [I1 I2].
        apply Nat.eqb_eq in I2. now rewrite <- (U y (or_intror I1) I2). }
      rewrite Z. cbn. lia.
    - apply filter_In. split; [now apply (rw_edge _ W)|]. unfold r_fusable. cbn [fst snd]. rewrite K1, K2. cbn.
      destruct (rtq g (rout (rn g p))); [reflexivity|congruence]. }
  cbn [r_delete rids]. intros H. apply filter_In in H. destruct H as [_ H]. apply r_mem_in in D. rewrite D in H. discriminate.
Qed.
