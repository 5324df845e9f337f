(** Proofs about operators that take over the activation or batch norm behind them. *)
From Coq Require Import List Arith Bool Lia.
From Verif Require Import OutTransModel OutTransSpec OutTransProofs FuseActModel FuseActSpec.
Import ListNotations.

Lemma f_edge_iff g s d t : f_consistent g -> In (s, d, t) (fed g) <-> s = fprod g t /\ In d (fids g) /\ In t (fin (fn g d)).
Proof.
  intros C. rewrite <- ecount_In, (C s d t). rewrite <- (o_mem_In d). rewrite (count_occ_In Nat.eq_dec). destruct (s =? fprod g t) eqn:E.
  - apply Nat.eqb_eq in E. destruct (o_mem d (fids g)); cbn [andb]; intuition (lia || discriminate).
  - apply Nat.eqb_neq in E. cbn [andb]. intuition lia.
Qed.
Lemma outs_In g n s d t : In (s, d, t) (f_outs g n) <-> s = n /\ In (s, d, t) (fed g).
Proof. unfold f_outs. rewrite filter_In. cbn [fst]. rewrite Nat.eqb_eq. tauto. Qed.
Definition src (e : oedge) := fst (fst e).
Definition dst (e : oedge) := snd (fst e).
Lemma select_nodup (P : oedge -> bool) L : (forall e, In e L -> P e = true -> length (filter (fun x => src x =? src e) L) = 1) -> NoDup (map src (filter P L)).
Proof.
  intros H. apply (NoDup_count_occ Nat.eq_dec). intros n.
  assert (B : forall l, count_occ Nat.eq_dec (map src (filter P l)) n <= length (filter (fun x => src x =? n) l)).
  { induction l as [|x l IH]; [cbn; lia|]. cbn [filter]. destruct (P x); cbn [map count_occ].
    - destruct (Nat.eq_dec (src x) n) as [E|E]; [apply Nat.eqb_eq in E; rewrite E; cbn; lia|apply Nat.eqb_neq in E; rewrite E; lia].
    - destruct (src x =? n); cbn; lia. }
  destruct (in_dec Nat.eq_dec n (map src (filter P L))) as [I|I].
  - apply in_map_iff in I. destruct I as (e & <- & I). apply filter_In in I. destruct I as [I1 I2]. rewrite (B L). now rewrite (H e I1 I2).
  - rewrite (proj1 (count_occ_not_In Nat.eq_dec _ _) I). lia.
Qed.

Lemma nodup_app_l {A} (a b : list A) : NoDup (a ++ b) -> NoDup a.
Proof. induction a as [|x a IH]; intros H; [constructor|]. inversion H as [|? ? X Y]; subst. constructor; [intros Z; apply X, in_or_app; now left|now apply IH]. Qed.

Section Pass.
Variable pick : fkind -> fkind -> option fkind.
Hypothesis PICK : forall k1 k2 k, pick k1 k2 = Some k ->
  (exists f c w a f' a', k1 = FPre f c w a /\ k = FPre f' c w a') /\ ((exists six, k2 = FRelu six) \/ exists w c a, k2 = FBn w c a).
Variable g : fg.
Hypothesis W : f_wf g.
Hypothesis C : f_consistent g.
Definition takes (p a : nat) : Prop := only_reader g p a /\ pick (fk (fn g p)) (fk (fn g a)) <> None.
Definition ptout (n : nat) : nat := nth 0 (fout (fn g n)) 0.
Lemma pre_shape n k : In n (fids g) -> (exists k2, pick (fk (fn g n)) k2 = Some k) -> exists t, fout (fn g n) = [t].
Proof.
  intros N (k2 & P). destruct (PICK _ _ _ P) as [(f & c & w & a & _ & _ & K & _) _]. destruct W as [_ W']. destruct (W' n N) as (_ & _ & X). now rewrite K in X.
Qed.
Lemma act_shape n k : In n (fids g) -> (exists k1, pick k1 (fk (fn g n)) = Some k) -> exists x t, fin (fn g n) = [x] /\ fout (fn g n) = [t].
Proof.
  intros N (k1 & P). destruct W as [_ W']. destruct (W' n N) as (_ & _ & X). destruct (PICK _ _ _ P) as [_ [(six & K)|(w & c & a & K)]]; now rewrite K in X.
Qed.
Lemma not_both n k1 k2 : pick (fk (fn g n)) k1 <> None -> pick k2 (fk (fn g n)) <> None -> False.
Proof.
  intros H1 H2. destruct (pick (fk (fn g n)) k1) as [k|] eqn:E1; [|congruence]. destruct (pick k2 (fk (fn g n))) as [k'|] eqn:E2; [|congruence].
  destruct (PICK _ _ _ E1) as [(f & c & w & a & _ & _ & K & _) _]. destruct (PICK _ _ _ E2) as [_ [(six & K')|(w' & c' & a' & K')]]; congruence.
Qed.
(** the chosen pairs *)
Lemma selected_takes p a l : In (p, a, l) (filter (f_edge pick g) (fed g)) -> takes p a /\ fout (fn g p) = [l] /\ fin (fn g a) = [l] /\ f_outs g p = [(p, a, l)].
Proof.
  intros H. apply filter_In in H. destruct H as [H S]. unfold f_edge in S. cbn [fst snd] in S. destruct (pick _ _) as [k|] eqn:P; [|discriminate]. apply Nat.eqb_eq in S.
  assert (H' := H). apply (f_edge_iff g p a l C) in H'. destruct H' as (PL & A & IL). assert (W' := W). destruct W' as [_ W']. destruct (W' a A) as (X & _). destruct (X l IL) as [PN PO]. rewrite <- PL in PN, PO.
  destruct (pre_shape p k PN (ex_intro _ _ P)) as (t & T). rewrite T in PO. destruct PO as [->|[]]. destruct (act_shape a k A (ex_intro _ _ P)) as (x & u & X1 & X2).
  rewrite X1 in IL. destruct IL as [->|[]].
  assert (O : In (p, a, l) (f_outs g p)) by (apply outs_In; auto). destruct (f_outs g p) as [|o [|]] eqn:OE; cbn in S; try discriminate. destruct O as [->|[]].
  split; [|auto]. split; [|congruence]. split; [exact PN|]. split; [exact A|]. exists l. split; [exact T|]. split; [exact X1|]. intros d D IN.
  assert (Z : In (p, d, l) (f_outs g p)) by (apply outs_In; split; [reflexivity|apply (f_edge_iff g p d l C); auto]). rewrite OE in Z. destruct Z as [Z|[]]. congruence.
Qed.
Lemma takes_selected p a : takes p a -> exists l, In (p, a, l) (filter (f_edge pick g) (fed g)).
Proof.
  intros [(PN & A & t & T & X & O) P]. exists t. assert (W' := W). destruct W' as [_ W'].
  assert (PT : fprod g t = p) by (destruct (W' p PN) as (_ & Y & _); apply Y; rewrite T; now left).
  assert (E : In (p, a, t) (fed g)) by (apply (f_edge_iff g p a t C); rewrite X; split; [auto|split; [auto|now left]]).
  apply filter_In. split; [exact E|]. unfold f_edge. cbn [fst snd]. destruct (pick _ _); [|congruence]. apply Nat.eqb_eq.
  assert (Q : f_outs g p = filter (fun e => (fst (fst e) =? p) && (snd (fst e) =? a) && (snd e =? t)) (fed g)).
  { unfold f_outs. apply filter_ext_in. intros [[s d] l] IN. cbn [fst snd]. destruct (s =? p) eqn:SP; [|reflexivity]. apply Nat.eqb_eq in SP. subst s.
    apply (f_edge_iff g p d l C) in IN. destruct IN as (I1 & I2 & I3). destruct (W' d I2) as (Y & _). destruct (Y l I3) as [_ Y2]. rewrite <- I1, T in Y2. destruct Y2 as [<-|[]].
    rewrite (O d I2 I3), !Nat.eqb_refl. reflexivity. }
  rewrite Q. change (ecount p a t (fed g) = 1). rewrite (C p a t), PT, Nat.eqb_refl, (proj2 (o_mem_In a _) A), X. cbn. destruct (Nat.eq_dec t t); [reflexivity|congruence].
Qed.
Lemma takes_out p a : takes p a -> exists l u k, fout (fn g p) = [l] /\ fin (fn g a) = [l] /\ fout (fn g a) = [u] /\ fprod g u = a /\ fprod g l = p /\ pick (fk (fn g p)) (fk (fn g a)) = Some k.
Proof.
  intros T. assert (T' := T). destruct T' as [(PN & A & t & T1 & X & O) P]. destruct (pick _ _) as [k|] eqn:E; [|congruence].
  destruct (act_shape a k A (ex_intro _ _ E)) as (x & u & X1 & X2). exists t, u, k. destruct W as [_ W'].
  split; [exact T1|]. split; [exact X|]. split; [exact X2|]. split; [|split; [|reflexivity]].
  - destruct (W' a A) as (_ & Y & _). apply Y. rewrite X2. now left.
  - destruct (W' p PN) as (_ & Y & _). apply Y. rewrite T1. now left.
Qed.
Lemma takes_fun p a a' : takes p a -> takes p a' -> a = a'.
Proof.
  intros T T'. destruct T as [(PN & A & t & T1 & X & O) _], T' as [(_ & A' & t' & T1' & X' & O') _]. rewrite T1 in T1'. injection T1' as <-. symmetry. apply O; [exact A'|]. rewrite X'. now left.
Qed.
Lemma takes_inj p p' a : takes p a -> takes p' a -> p = p'.
Proof.
  intros T T'. destruct (takes_out p a T) as (l & u & k & _ & L & _ & _ & P & _). destruct (takes_out p' a T') as (l' & u' & k' & _ & L' & _ & _ & P' & _). congruence.
Qed.
Lemma takes_apart p a p' a' : takes p a -> takes p' a' -> p <> a'.
Proof. intros [_ H] [_ H'] ->. exact (not_both a' _ _ H H'). Qed.

Definition news (e : oedge) : list oedge := map (fun d => (src e, d, ptout (dst e))) (map dst (f_outs g (dst e))).
Record finv (done : list oedge) (h : fg) : Prop := mkFI {
  fi_ids : fids h = fids g; fi_ed : fed h = fed g ++ flat_map news done;
  fi_fn : forall n, ~ In n (map src done) -> fn h n = fn g n;
  fi_pre : forall e, In e done -> exists k, pick (fk (fn g (src e))) (fk (fn g (dst e))) = Some k /\ fn h (src e) = mkFN k (fin (fn g (src e))) (fout (fn g (dst e)));
  fi_prod : forall e, In e done -> fprod h (ptout (dst e)) = src e;
  fi_old : forall t, (forall e, In e done -> t <> ptout (dst e)) -> fprod h t = fprod g t }.
Lemma connect_ok h p t : forall es, (forall s d l, In (s, d, l) es -> l = t) -> f_connect h p t es = Some (map (fun d => (p, d, t)) (map dst es)).
Proof.
  induction es as [|[[s d] l] es IH]; intros H; [reflexivity|]. cbn [f_connect map]. rewrite (H s d l) by now left. rewrite Nat.eqb_refl, andb_false_r, IH; [reflexivity|].
  intros s' d' l' I. eapply H. right. exact I.
Qed.
Lemma absorb_ok done e h : finv done h -> (forall e', In e' (done ++ [e]) -> takes (src e') (dst e')) -> NoDup (map src (done ++ [e])) ->
  exists h', f_absorb pick h (src e) (dst e) = Some (h', [dst e]) /\ finv (done ++ [e]) h'.
Proof.
  intros I T ND. destruct e as [[p a] l]. change (src (p, a, l)) with p. change (dst (p, a, l)) with a.
  assert (TE : takes p a) by (apply (T (p, a, l)), in_or_app; right; now left). assert (TD : forall e', In e' done -> takes (src e') (dst e')) by (intros e' H; apply T, in_or_app; now left).
  destruct (takes_out p a TE) as (x & u & k & FP & FA & OA & PU & PX & PK).
  rewrite map_app in ND. cbn [map] in ND. apply NoDup_remove in ND. rewrite app_nil_r in ND. destruct ND as [ND NP]. change (src (p, a, l)) with p in NP.
  assert (NA : ~ In a (map src done)). { rewrite in_map_iff. intros (e' & <- & E'). exact (takes_apart _ _ _ _ (TD e' E') TE eq_refl). }
  assert (HP : fn h p = fn g p) by now apply (fi_fn _ _ I). assert (HA : fn h a = fn g a) by now apply (fi_fn _ _ I).
  unfold f_absorb. rewrite HP, HA, PK, OA. cbn [nth].
  assert (OUT : f_outs h a = f_outs g a).
  { unfold f_outs. rewrite (fi_ed _ _ I), filter_app. rewrite <- app_nil_r. f_equal.
    assert (Q : forall L, (forall e', In e' L -> src e' <> a) -> filter (fun e : oedge => fst (fst e) =? a) L = []).
    { induction L as [|y L IH]; intros H; [reflexivity|]. cbn [filter]. assert (Y := H y (or_introl eq_refl)). apply Nat.eqb_neq in Y. unfold src in Y. rewrite Y. apply IH. intros e' E'. apply H. now right. }
    apply Q. intros e' E'. apply in_flat_map in E'. destruct E' as (e2 & E2 & E3). unfold news in E3. rewrite map_map in E3. apply in_map_iff in E3. destruct E3 as (y & <- & _).
    change (src e2 <> a). intros E4. apply NA. rewrite <- E4. now apply in_map. }
  rewrite OUT, (connect_ok h p u).
  2:{ intros s d l' H. apply outs_In in H. destruct H as [-> H]. apply (f_edge_iff g a d l' C) in H. destruct H as (H1 & H2 & H3). destruct W as [_ W']. destruct (W' d H2) as (Y & _).
      destruct (Y l' H3) as [_ Y2]. rewrite <- H1, OA in Y2. destruct Y2 as [Y2|[]]. congruence. }
  eexists. split; [reflexivity|]. constructor; cbn [fids fed fn fprod].
  - apply (fi_ids _ _ I).
  - rewrite (fi_ed _ _ I), flat_map_app, app_assoc. f_equal. cbn [flat_map]. rewrite app_nil_r. unfold news, ptout, src, dst. cbn [fst snd]. rewrite OA. reflexivity.
  - intros n H. rewrite map_app, in_app_iff in H. unfold o_upd. destruct (n =? p) eqn:E; [apply Nat.eqb_eq in E; subst; elim H; right; now left|]. apply (fi_fn _ _ I). tauto.
  - intros e H. apply in_app_iff in H. unfold o_upd. destruct H as [H|[<-|[]]].
    + destruct (src e =? p) eqn:E; [apply Nat.eqb_eq in E; elim NP; rewrite <- E; now apply in_map|]. now apply (fi_pre _ _ I).
    + unfold src, dst. cbn [fst snd]. rewrite Nat.eqb_refl, FP. exists k. split; [exact PK|]. cbn [set_nth]. now rewrite OA.
  - intros e H. apply in_app_iff in H. unfold o_upd. destruct H as [H|[<-|[]]].
    + destruct (ptout (dst e) =? u) eqn:E; [|now apply (fi_prod _ _ I)]. apply Nat.eqb_eq in E. exfalso. assert (TT := TD e H).
      destruct (takes_out _ _ TT) as (x' & u' & k' & _ & _ & OA' & PU' & _ & _). unfold ptout in E. rewrite OA' in E. cbn in E. subst u'. rewrite PU in PU'. rewrite <- PU' in TT.
      apply NP. rewrite (takes_inj _ _ _ TE TT). now apply in_map.
    + unfold src, dst, ptout. cbn [fst snd]. now rewrite OA, Nat.eqb_refl.
  - intros t H. unfold o_upd. destruct (t =? u) eqn:E.
    + apply Nat.eqb_eq in E. subst t. elim (H (p, a, l)); [apply in_or_app; right; now left|]. unfold ptout, dst. cbn [fst snd]. now rewrite OA.
    + apply (fi_old _ _ I). intros e' E'. apply H, in_or_app. now left.
Qed.
Lemma loop_ok : forall es done h rem, finv done h -> (forall e, In e (done ++ es) -> takes (src e) (dst e)) -> NoDup (map src (done ++ es)) ->
  exists h', f_loop pick es h rem = Some (h', rem ++ map dst es) /\ finv (done ++ es) h'.
Proof.
  induction es as [|e es IH]; intros done h rem I T ND; cbn [f_loop].
  - exists h. rewrite !app_nil_r. auto.
  - replace (done ++ e :: es) with ((done ++ [e]) ++ es) in * by (rewrite <- app_assoc; reflexivity).
    destruct (absorb_ok done e h I) as (h1 & E1 & I1).
    + intros e' H. apply T, in_or_app. now left.
    + rewrite map_app in ND. exact (nodup_app_l _ _ ND).
    + unfold src, dst in E1. rewrite E1. destruct (IH _ h1 (rem ++ [dst e]) I1 T ND) as (h2 & E2 & I2). exists h2. split; [|exact I2]. unfold dst in *. rewrite E2. cbn [map]. now rewrite <- app_assoc.
Qed.
Definition sel : list oedge := filter (f_edge pick g) (fed g).
Lemma sel_takes e : In e sel -> takes (src e) (dst e).
Proof. destruct e as [[p a] l]. intros H. exact (proj1 (selected_takes p a l H)). Qed.
Lemma sel_In p a : takes p a <-> exists e, In e sel /\ src e = p /\ dst e = a.
Proof.
  split; [intros T; destruct (takes_selected p a T) as (l & L); exists (p, a, l); auto|]. intros (e & E & <- & <-). now apply sel_takes.
Qed.
Lemma sel_nodup : NoDup (map src sel).
Proof.
  apply select_nodup. intros e E F. destruct e as [[p a] l]. assert (S : In (p, a, l) sel) by (apply filter_In; auto). destruct (selected_takes p a l S) as (_ & _ & _ & O).
  change (length (f_outs g p) = 1). now rewrite O.
Qed.
Lemma run_ok : exists h, f_pass pick g = Some (f_delete h (map dst sel)) /\ finv sel h.
Proof.
  assert (I0 : finv [] g) by (constructor; auto; try (intros; contradiction); cbn; now rewrite app_nil_r).
  destruct (loop_ok sel [] g [] I0) as (h & E & I); [intros e H; now apply sel_takes|exact sel_nodup|]. exists h. cbn in I. split; [|exact I]. unfold f_pass. fold sel. rewrite E. reflexivity.
Qed.
(** the edges after the pass *)
Lemma news_count s d t : forall es, (forall e, In e es -> takes (src e) (dst e)) -> NoDup (map src es) ->
  ecount s d t (flat_map news es) = if existsb (fun e => (src e =? s) && (ptout (dst e) =? t)) es then ecount (fprod g t) d t (fed g) else 0.
Proof.
  induction es as [|e es IH]; intros T ND; [reflexivity|]. cbn [flat_map existsb map] in *. inversion ND as [|? ? N1 N2]; subst. rewrite ecount_app, IH; [|intros; apply T; now right|exact N2].
  assert (TE := T e (or_introl eq_refl)). destruct (takes_out _ _ TE) as (x & u & k & FP & FA & OA & PU & PX & PK).
  assert (E1 : ecount s d t (news e) = if (src e =? s) && (ptout (dst e) =? t) then ecount (fprod g t) d t (fed g) else 0).
  { unfold news. rewrite ecount_map, (Nat.eqb_sym s), (Nat.eqb_sym t). destruct (src e =? s); [|reflexivity]. cbn [andb]. destruct (ptout (dst e) =? t) eqn:E; [|reflexivity].
    apply Nat.eqb_eq in E. unfold ptout in E. rewrite OA in E. cbn in E. subst u. rewrite PU.
    assert (Q : forall L, (forall s' d' l, In (s', d', l) L -> s' = dst e -> l = t) ->
       count_occ Nat.eq_dec (map dst (filter (fun e' : oedge => fst (fst e') =? dst e) L)) d = ecount (dst e) d t L).
    { induction L as [|[[s' d'] l] L IHL]; intros H; [reflexivity|]. unfold ecount in *. cbn [filter fst snd]. destruct (s' =? dst e) eqn:SE; cbn [andb].
      - apply Nat.eqb_eq in SE. rewrite (H s' d' l) by (auto; now left). rewrite Nat.eqb_refl, andb_true_r. cbn [map count_occ]. unfold dst at 1. cbn [fst snd].
        rewrite IHL by (intros; eapply H; [right; eassumption|assumption]). destruct (Nat.eq_dec d' d) as [->|ND']; [now rewrite Nat.eqb_refl|]. apply Nat.eqb_neq in ND'. now rewrite ND'.
      - apply IHL. intros; eapply H; [right; eassumption|assumption]. }
    apply Q. intros s' d' l H ->. apply (f_edge_iff g _ d' l C) in H. destruct H as (H1 & H2 & H3). destruct W as [_ W']. destruct (W' d' H2) as (Y & _). destruct (Y l H3) as [_ Y2].
    rewrite <- H1, OA in Y2. destruct Y2 as [Y2|[]]. congruence. }
  rewrite E1. destruct ((src e =? s) && (ptout (dst e) =? t)) eqn:E; cbn [orb]; [|reflexivity].
  assert (Z : existsb (fun e' => (src e' =? s) && (ptout (dst e') =? t)) es = false).
  { apply andb_true_iff in E. rewrite !Nat.eqb_eq in E. destruct E as [E2 E3]. destruct (existsb _ es) eqn:X; [|reflexivity]. apply existsb_exists in X. destruct X as (e' & X1 & X2).
    rewrite andb_true_iff, !Nat.eqb_eq in X2. destruct X2 as [X2 _]. elim N1. rewrite E2, <- X2. now apply in_map. }
  rewrite Z. lia.
Qed.
Lemma in_rem n : In n (map dst sel) <-> exists p, takes p n.
Proof.
  rewrite in_map_iff. split; [intros (e & <- & E); exists (src e); now apply sel_takes|]. intros (p & T). apply sel_In in T. destruct T as (e & E & _ & D). eauto.
Qed.
Lemma in_pre n : In n (map src sel) <-> exists a, takes n a.
Proof.
  rewrite in_map_iff. split; [intros (e & <- & E); exists (dst e); now apply sel_takes|]. intros (p & T). apply sel_In in T. destruct T as (e & E & D & _). eauto.
Qed.
Lemma old_or_taken t : (exists p a, takes p a /\ ptout a = t) \/ forall e, In e sel -> t <> ptout (dst e).
Proof.
  destruct (Exists_dec (fun e => ptout (dst e) = t) sel) as [X|X]; [intros e; apply Nat.eq_dec| |].
  - left. apply Exists_exists in X. destruct X as (e & E & Q). exists (src e), (dst e). split; [now apply sel_takes|exact Q].
  - right. intros e E Q. apply X. apply Exists_exists. eauto.
Qed.
Section Final.
Variable h : fg.
Hypothesis I : finv sel h.
Let g' := f_delete h (map dst sel).
Lemma fin_ids n : In n (fids g') <-> In n (fids g) /\ forall p, ~ takes p n.
Proof.
  unfold g', f_delete. cbn [fids]. rewrite filter_In, (fi_ids _ _ I), negb_true_iff. split; intros [H K]; (split; [exact H|]).
  - intros p T. assert (X : o_mem n (map dst sel) = true) by (apply o_mem_In, in_rem; eauto). congruence.
  - destruct (o_mem n (map dst sel)) eqn:X; [|reflexivity]. apply o_mem_In, in_rem in X. destruct X as (p & X). elim (K p X).
Qed.
Lemma fin_fn n : (forall a, ~ takes n a) -> fn g' n = fn g n.
Proof. intros H. apply (fi_fn _ _ I). rewrite in_pre. intros (a & T). exact (H a T). Qed.
Lemma fin_pre p a : takes p a -> exists k, pick (fk (fn g p)) (fk (fn g a)) = Some k /\ fn g' p = mkFN k (fin (fn g p)) (fout (fn g a)).
Proof. intros T. apply sel_In in T. destruct T as (e & E & <- & <-). exact (fi_pre _ _ I e E). Qed.
Lemma fin_prod p a : takes p a -> fprod g' (ptout a) = p.
Proof. intros T. apply sel_In in T. destruct T as (e & E & <- & <-). exact (fi_prod _ _ I e E). Qed.
Lemma fin_dec n : (exists a, takes n a) \/ forall a, ~ takes n a.
Proof. destruct (in_dec Nat.eq_dec n (map src sel)) as [X|X]; rewrite in_pre in X; [now left|right]. intros a T. apply X. eauto. Qed.
Lemma fin_fin n : fin (fn g' n) = fin (fn g n).
Proof. destruct (fin_dec n) as [(a & T)|X]; [destruct (fin_pre n a T) as (k & _ & ->); reflexivity|now rewrite fin_fn]. Qed.
Lemma fin_consistent : f_consistent g'.
Proof.
  intros s d t. rewrite fin_fin. unfold g' at 1, f_delete. cbn [fed]. rewrite ecount_keep.
  assert (DI : o_mem d (fids g') = negb (o_mem d (map dst sel)) && o_mem d (fids g)).
  { apply eq_true_iff_eq. rewrite andb_true_iff, negb_true_iff, !o_mem_In, fin_ids. split.
    - intros [A B]. split; [|exact A]. destruct (o_mem d (map dst sel)) eqn:X; [|reflexivity]. apply o_mem_In, in_rem in X. destruct X as (p & X). elim (B p X).
    - intros [A B]. split; [exact B|]. intros p T. assert (X : o_mem d (map dst sel) = true) by (apply o_mem_In, in_rem; eauto). congruence. }
  rewrite DI. destruct (o_mem d (map dst sel)) eqn:DR; [now rewrite orb_true_r, andb_false_r|]. rewrite orb_false_r. cbn [negb andb].
  assert (W' := W). destruct W' as [_ W'].
  (* who makes t *)
  assert (ZERO : forall m, In m (fids g) -> fprod g t = m -> ~ In t (fout (fn g m)) -> o_mem d (fids g) = true -> count_occ Nat.eq_dec (fin (fn g d)) t = 0).
  { intros m M PM NO DD. apply count_occ_not_In. intros IN. apply o_mem_In in DD. destruct (W' d DD) as (Y & _). destruct (Y t IN) as [_ Y2]. rewrite PM in Y2. contradiction. }
  destruct (o_mem s (map dst sel)) eqn:SR.
  - apply o_mem_In, in_rem in SR. destruct SR as (p & T). destruct ((s =? fprod g' t) && o_mem d (fids g)) eqn:B; [|reflexivity].
    apply andb_true_iff in B. destruct B as [B1 B2]. apply Nat.eqb_eq in B1. symmetry.
    destruct (old_or_taken t) as [(p2 & a2 & T2 & Q)|Q].
    + exfalso. subst t. rewrite (fin_prod p2 a2 T2) in B1. subst s. exact (takes_apart _ _ _ _ T2 T eq_refl).
    + assert (PT : fprod g' t = fprod g t) by (apply (fi_old _ _ I); exact Q). destruct (takes_out p s T) as (x & u & k & FP & FA & OA & PU & PX & PK).
      assert (SI : In s (fids g)) by apply T. apply (ZERO s SI); [congruence| |exact B2]. rewrite OA. intros [<-|[]].
      assert (T' := T). apply sel_In in T'. destruct T' as (e & E & _ & D). apply (Q e E). unfold ptout. now rewrite D, OA.
  - rewrite (fi_ed _ _ I), ecount_app, (news_count s d t sel sel_takes sel_nodup).
    destruct (old_or_taken t) as [(p & a & T & Q)|Q].
    + assert (T' := T). apply sel_In in T'. destruct T' as (e & E & E1 & E2). destruct (takes_out p a T) as (x & u & k & FP & FA & OA & PU & PX & PK).
      assert (U : u = t) by (unfold ptout in Q; rewrite OA in Q; exact Q). subst u. assert (PT : fprod g' t = p) by (rewrite <- Q; now apply fin_prod). rewrite PT.
      assert (SA : s <> a). { intros ->. assert (X : o_mem a (map dst sel) = true) by (apply o_mem_In, in_rem; eauto). congruence. }
      rewrite (C s d t), PU. apply Nat.eqb_neq in SA. rewrite SA. cbn [andb Nat.add]. destruct (s =? p) eqn:SP.
      * apply Nat.eqb_eq in SP. subst s. assert (X : existsb (fun e => (src e =? p) && (ptout (dst e) =? t)) sel = true).
        { apply existsb_exists. exists e. split; [exact E|]. now rewrite E1, E2, Q, !Nat.eqb_refl. }
        rewrite X, (C a d t), PU, Nat.eqb_refl. reflexivity.
      * cbn [andb]. destruct (existsb _ sel) eqn:X; [|reflexivity]. exfalso. apply existsb_exists in X. destruct X as (e' & X1 & X2). rewrite andb_true_iff, !Nat.eqb_eq in X2. destruct X2 as [X2 X3].
        apply Nat.eqb_neq in SP. apply SP. assert (T2 := sel_takes e' X1). assert (F := fin_prod _ _ T2). rewrite X3 in F. congruence.
    + assert (PT : fprod g' t = fprod g t) by (apply (fi_old _ _ I); exact Q). rewrite PT, (C s d t).
      assert (X : existsb (fun e => (src e =? s) && (ptout (dst e) =? t)) sel = false).
      { destruct (existsb _ sel) eqn:X; [|reflexivity]. exfalso. apply existsb_exists in X. destruct X as (e & X1 & X2). rewrite andb_true_iff, !Nat.eqb_eq in X2. destruct X2 as [_ X2]. exact (Q e X1 (eq_sym X2)). }
      rewrite X. lia.
Qed.
Lemma fin_wf : f_wf g'.
Proof.
  assert (W' := W). destruct W' as [ND W']. split; [unfold g', f_delete; cbn [fids]; rewrite (fi_ids _ _ I); now apply NoDup_filter|].
  intros n N0. destruct (proj1 (fin_ids n) N0) as [N NT]. clear N0. destruct (W' n N) as (A1 & A2 & A3). split; [|split].
  - intros t H. rewrite fin_fin in H. destruct (A1 t H) as [B1 B2]. destruct (old_or_taken t) as [(p & a & T & Q)|Q].
    + assert (PT : fprod g' t = p) by (rewrite <- Q; now apply fin_prod). rewrite PT. destruct (fin_pre p a T) as (k & PK & ->). cbn [fout]. split.
      * apply fin_ids. split; [apply T|]. intros p2 T2. exact (takes_apart _ _ _ _ T T2 eq_refl).
      * destruct (takes_out p a T) as (x & u & k' & FP & FA & OA & PU & PX & PK'). rewrite OA. left. unfold ptout in Q. now rewrite OA in Q.
    + assert (PT : fprod g' t = fprod g t) by (apply (fi_old _ _ I); exact Q). rewrite PT. split.
      * apply fin_ids. split; [exact B1|]. intros p T. destruct (takes_out p _ T) as (x & u & k & FP & FA & OA & PU & PX & PK). rewrite OA in B2. destruct B2 as [->|[]].
        assert (T' := T). apply sel_In in T'. destruct T' as (e & E & _ & D). apply (Q e E). unfold ptout. now rewrite D, OA.
      * destruct (fin_dec (fprod g t)) as [(a & T)|X]; [|now rewrite fin_fn]. exfalso. assert (T' := T). destruct T' as [(_ & _ & t' & T1 & X1 & O) _]. rewrite T1 in B2. destruct B2 as [->|[]].
        assert (n = a) by (now apply O). subst n. exact (NT _ T).
  - intros t H. destruct (fin_dec n) as [(a & T)|X].
    + destruct (fin_pre n a T) as (k & PK & EN). rewrite EN in H. cbn [fout] in H. destruct (takes_out n a T) as (x & u & k' & FP & FA & OA & PU & PX & PK'). rewrite OA in H. destruct H as [<-|[]].
      assert (F := fin_prod n a T). unfold ptout in F. now rewrite OA in F.
    + rewrite fin_fn in H by exact X. assert (PN := A2 t H). destruct (old_or_taken t) as [(p & a & T & Q)|Q].
      * exfalso. destruct (takes_out p a T) as (x & u & k' & FP & FA & OA & PU & PX & PK'). unfold ptout in Q. rewrite OA in Q. cbn in Q. subst u. rewrite PU in PN. subst a. exact (NT p T).
      * rewrite (fi_old _ _ I t Q : fprod g' t = fprod g t). exact PN.
  - destruct (fin_dec n) as [(a & T)|X]; [|now rewrite fin_fn]. destruct (fin_pre n a T) as (k & PK & ->). cbn [fk fin fout]. destruct (PICK _ _ _ PK) as [(f & c & w & b & f' & b' & _ & ->) _].
    destruct (takes_out n a T) as (x & u & k' & FP & FA & OA & _). eauto.
Qed.
Lemma fin_took : f_took takes g g'.
Proof.
  split; [exact fin_ids|]. split; [intros n _; apply fin_fn|]. intros p a T. destruct (fin_pre p a T) as (k & _ & ->). auto.
Qed.
Lemma fin_computes {V} (m : meaning V) v : f_computes m g v ->
  (forall p a f c w x k, takes p a -> fk (fn g p) = FPre f c w x -> pick (fk (fn g p)) (fk (fn g a)) = Some k ->
     exists f' x', k = FPre f' c w x' /\ forall l, match fk (fn g a) with
       | FRelu six => (if six then m_relu6 m else m_relu m) (m_act m x (m_pre m f l)) = m_act m x' (m_pre m f' l)
       | FBn w' _ y => m_act m y (m_bn m w' (m_act m x (m_pre m f l))) = m_act m x' (m_pre m f' l)
       | _ => False end) -> f_computes m g' v.
Proof.
  intros CO H n N0. destruct (proj1 (fin_ids n) N0) as [N NT]. clear N0. destruct (fin_dec n) as [(a & T)|X]; [|rewrite fin_fn by exact X; exact (CO n N)].
  destruct (fin_pre n a T) as (k & PK & ->). cbn [fk fin fout]. destruct (PICK _ _ _ PK) as [(f & c & w & b & _ & _ & K & _) _].
  destruct (H n a f c w b k T K PK) as (f' & x' & -> & E). destruct (takes_out n a T) as (x & u & k' & FP & FA & OA & PU & PX & _). rewrite OA. cbn [map].
  assert (CN := CO n N). rewrite K, FP in CN. cbn [map] in CN. injection CN as CN. assert (AI : In a (fids g)) by apply T. assert (CA := CO a AI). rewrite FA, OA in CA. cbn [map] in CA.
  specialize (E (map v (fin (fn g n)))). destruct (fk (fn g a)); try contradiction; rewrite CN in CA; rewrite CA; now rewrite E.
Qed.
End Final.
End Pass.

(** * Activations *)
Lemma pick_act_ok wb k1 k2 k : pick_act wb k1 k2 = Some k ->
  (exists f c w a f' a', k1 = FPre f c w a /\ k = FPre f' c w a') /\ ((exists six, k2 = FRelu six) \/ exists w c a, k2 = FBn w c a).
Proof.
  unfold pick_act. destruct k1 as [| | |?|f c w a|?|? ? ?]; try discriminate. destruct a; try discriminate. destruct k2 as [| | |?|? ? ? ?|six|? ? ?]; try discriminate.
  intros H. assert (E : k = FPre f c w (fuse_map six)) by (destruct c, wb; congruence). subst k. split; [exists f, c, w, ANone, f, (fuse_map six); auto|left; eauto].
Qed.
Lemma takes_act_iff wb g p a : takes (pick_act wb) g p a <-> takes_act wb g p a.
Proof.
  unfold takes, takes_act. split; intros [O H]; (split; [exact O|]).
  - destruct (pick_act wb (fk (fn g p)) (fk (fn g a))) as [k|] eqn:E; [|congruence]. unfold pick_act in E. destruct (fk (fn g p)) as [| | |?|f c w b|?|? ? ?]; try discriminate. destruct b; try discriminate.
    destruct (fk (fn g a)) as [| | |?|? ? ? ?|six|? ? ?]; try discriminate. exists f, c, w, six. split; [reflexivity|]. split; [reflexivity|]. destruct wb; [now left|right]. intros ->. discriminate.
  - destruct H as (f & c & w & six & K1 & K2 & B). rewrite K1, K2. cbn. destruct c, wb; try discriminate. destruct B as [B|B]; [discriminate|congruence].
Qed.
Theorem fuse_activation_ok {V} (m : meaning V) wb g v : f_wf g -> f_consistent g -> f_computes m g v ->
  exists g', fuse_activation wb g = Some g' /\ f_wf g' /\ f_consistent g' /\ f_computes m g' v /\ f_took (takes_act wb g) g g' /\ forall p a, ~ takes_act wb g' p a.
Proof.
  intros W C CO. assert (P := pick_act_ok wb). destruct (run_ok _ P g W C) as (h & E & I). exists (f_delete h (map dst (sel (pick_act wb) g))). set (g' := f_delete _ _) in *.
  assert (F : f_took (takes (pick_act wb) g) g g') by exact (fin_took _ P g W C h I).
  assert (F' : f_took (takes_act wb g) g g').
  { destruct F as (F1 & F2 & F3). split; [|split].
    - intros n. rewrite F1. split; intros [A B]; (split; [exact A|]); intros p T; [apply (B p); now apply takes_act_iff|apply (B p); now apply takes_act_iff in T].
    - intros n N H. apply F2; [exact N|]. intros a T. apply (H a). now apply takes_act_iff.
    - intros p a T. apply F3. now apply takes_act_iff. }
  split; [exact E|]. split; [exact (fin_wf _ P g W C h I)|]. split; [exact (fin_consistent _ P g W C h I)|]. split; [|split; [exact F'|]].
  - apply (fin_computes _ P g W C h I m v CO). intros p a f c w x k T K PK. rewrite K in PK. destruct x; try discriminate. cbn in PK.
    destruct (fk (fn g a)) as [| | |?|? ? ? ?|six|? ? ?]; try discriminate. exists f, (fuse_map six). split; [destruct c, wb; congruence|]. intros l. destruct six; reflexivity.
  - intros p a [(PI & AI & t & T1 & X & O) (f & c & w & six & K1 & K2 & B)]. destruct F' as (F1 & F2 & F3). apply F1 in PI. apply F1 in AI. destruct PI as [PI PN], AI as [AI AN].
    assert (NP : forall b, ~ takes_act wb g p b).
    { intros b T. apply takes_act_iff in T. destruct (fin_pre _ P g W C h I p b T) as (k & PK & EN). fold g' in EN. rewrite EN in K1. cbn [fk] in K1. subst k.
      unfold pick_act in PK. destruct (fk (fn g p)) as [| | |?|? c' ? b0|?|? ? ?]; try discriminate. destruct b0; try discriminate. destruct (fk (fn g b)) as [| | |?|? ? ? ?|s2|? ? ?]; try discriminate.
      destruct c', wb, s2; discriminate. }
    assert (NA : forall b, ~ takes_act wb g a b).
    { intros b T. apply takes_act_iff in T. destruct (fin_pre _ P g W C h I a b T) as (k & PK & EN). fold g' in EN. rewrite EN in K2. cbn [fk] in K2. subst k.
      destruct (pick_act_ok _ _ _ _ PK) as [(? & ? & ? & ? & ? & ? & _ & Q) _]. discriminate. }
    rewrite (F2 p PI NP) in K1, T1. rewrite (F2 a AI NA) in K2, X. apply (AN p). split; [|exists f, c, w, six; auto]. split; [exact PI|]. split; [exact AI|]. exists t. split; [exact T1|]. split; [exact X|].
    intros d D IN. assert (DD : In d (fids g') \/ exists p2, takes_act wb g p2 d).
    { destruct (in_dec Nat.eq_dec d (map dst (sel (pick_act wb) g))) as [Z|Z].
      - right. apply (in_rem _ P g W C) in Z. destruct Z as (p2 & Z). exists p2. now apply takes_act_iff.
      - left. apply F1. split; [exact D|]. intros p2 T. apply Z. apply (in_rem _ P g W C). exists p2. now apply takes_act_iff. }
    destruct DD as [DD|(p2 & T)].
    + apply O; [exact DD|]. assert (FF := fin_fin _ P g W C h I d). fold g' in FF. now rewrite FF.
    + exfalso. assert (T' := T). destruct T' as [(P2 & _ & t2 & TT & XX & _) _]. rewrite XX in IN. destruct IN as [->|[]]. destruct W as [_ W']. destruct (W' p PI) as (_ & Y & _). destruct (W' p2 P2) as (_ & Y2 & _).
      assert (p2 = p) by (rewrite <- (Y t), <- (Y2 t); [reflexivity|rewrite TT; now left|rewrite T1; now left]). subst p2. exact (NP d T).
Qed.

(** * Batch norms *)
Lemma pick_bn_ok fold k1 k2 k : pick_bn fold k1 k2 = Some k ->
  (exists f c w a f' a', k1 = FPre f c w a /\ k = FPre f' c w a') /\ ((exists six, k2 = FRelu six) \/ exists w c a, k2 = FBn w c a).
Proof.
  unfold pick_bn. destruct k1 as [| | |?|f c [|] a|?|? ? ?]; try discriminate. destruct k2 as [| | |?|? ? ? ?|six|w [|] b]; try discriminate.
  intros H. split; [|right; eauto]. destruct (_ || _); destruct c; try discriminate; injection H as <-; do 6 eexists; split; reflexivity.
Qed.
Lemma actf_eqb_iff a b : actf_eqb a b = true <-> a = b.
Proof. destruct a, b; cbn; split; congruence. Qed.
Lemma takes_bn_iff fold g p a : takes (pick_bn fold) g p a <-> takes_bn g p a.
Proof.
  unfold takes, takes_bn. split; intros [O H]; (split; [exact O|]).
  - destruct (pick_bn fold (fk (fn g p)) (fk (fn g a))) as [k|] eqn:E; [|congruence]. unfold pick_bn in E. destruct (fk (fn g p)) as [| | |?|f c [|] x|?|? ? ?]; try discriminate.
    destruct (fk (fn g a)) as [| | |?|? ? ? ?|six|w [|] b]; try discriminate. exists f, c, x, w, b. split; [reflexivity|]. split; [reflexivity|].
    destruct (actf_eqb b ANone || (actf_eqb x ANone || actf_eqb x b)) eqn:Q; [|destruct c; discriminate]. split; [intros ->; discriminate|].
    rewrite !orb_true_iff, !actf_eqb_iff in Q. tauto.
  - destruct H as (f & c & x & w & b & K1 & K2 & NC & B). rewrite K1, K2. cbn [pick_bn].
    assert (Q : actf_eqb b ANone || (actf_eqb x ANone || actf_eqb x b) = true) by (rewrite !orb_true_iff, !actf_eqb_iff; tauto). rewrite Q. destruct c; congruence.
Qed.
Theorem fuse_bn_ok {V} (m : meaning V) fold g v : f_wf g -> f_consistent g -> f_computes m g v ->
  (forall f w dec l, m_pre m (fold f w dec) l = m_bn m w (m_pre m f l)) ->
  (forall p a f c w x, takes_bn g p a -> fk (fn g p) = FPre f c w x -> x = ANone) ->
  exists g', fuse_conv_fc_bn fold g = Some g' /\ f_wf g' /\ f_consistent g' /\ f_computes m g' v /\ f_took (takes_bn g) g g'.
Proof.
  intros W C CO FO NA. assert (P := pick_bn_ok fold). destruct (run_ok _ P g W C) as (h & E & I). exists (f_delete h (map dst (sel (pick_bn fold) g))). set (g' := f_delete _ _) in *.
  assert (F : f_took (takes (pick_bn fold) g) g g') by exact (fin_took _ P g W C h I).
  assert (F' : f_took (takes_bn g) g g').
  { destruct F as (F1 & F2 & F3). split; [|split].
    - intros n. rewrite F1. split; intros [A B]; (split; [exact A|]); intros p T; [apply (B p); now apply takes_bn_iff|apply (B p); now apply takes_bn_iff in T].
    - intros n N H. apply F2; [exact N|]. intros a T. apply (H a). now apply takes_bn_iff in T.
    - intros p a T. apply F3. now apply takes_bn_iff. }
  split; [exact E|]. split; [exact (fin_wf _ P g W C h I)|]. split; [exact (fin_consistent _ P g W C h I)|]. split; [|exact F'].
  apply (fin_computes _ P g W C h I m v CO). intros p a f c w x k T K PK. assert (x = ANone) by (eapply NA; [apply takes_bn_iff in T; exact T|exact K]). subst x.
  rewrite K in PK. destruct w; try discriminate. cbn [pick_bn] in PK. destruct (fk (fn g a)) as [| | |?|? ? ? ?|six|w [|] b]; try discriminate.
  cbn [actf_eqb orb andb negb] in PK. rewrite orb_true_r, andb_true_r in PK.
  exists (fold f w (match c with CDeconv => true | _ => false end)), b. split.
  - destruct c; try discriminate; injection PK as <-; destruct b; reflexivity.
  - intros l. cbn [m_act]. now rewrite FO.
Qed.
(** a convolution with an activation before a batch norm *)
Definition bnx_n (n : nat) : fnode :=
  match n with 0 => mkFN FIn [] [0] | 1 => mkFN (FPre 1 CConv true ARelu) [0] [1] | 2 => mkFN (FBn 2 true ANone) [1] [2] | 3 => mkFN FOut [2] [] | _ => mkFN FIn [] [] end.
Definition bnx_g : fg := mkFG bnx_n [0; 1; 2; 3] [(0, 1, 0); (1, 2, 1); (2, 3, 2)] (fun t => t).
Definition f_consistent_b (N : nat) (g : fg) : bool :=
  forallb (fun e : oedge => (fst (fst e) <? N) && (snd (fst e) <? N) && (snd e <? N)) (fed g) && below N (fids g) &&
  forallb (fun n => below N (fin (fn g n))) (fids g) && below N (map (fprod g) (seq 0 N)) &&
  forallb (fun s => forallb (fun d => forallb (fun t => ecount s d t (fed g) =? (if (s =? fprod g t) && o_mem d (fids g) then count_occ Nat.eq_dec (fin (fn g d)) t else 0))
    (seq 0 N)) (seq 0 N)) (seq 0 N).
Lemma f_consistent_check N g : f_consistent_b N g = true -> f_consistent g.
Proof.
  unfold f_consistent_b. rewrite !andb_true_iff. intros ((((A & B) & C) & D) & E) s d t.
  assert (Z : ~ (s < N /\ d < N /\ t < N) -> ecount s d t (fed g) = 0).
  { intros H. destruct (ecount s d t (fed g)) eqn:Q; [reflexivity|]. elim H. assert (X : In (s, d, t) (fed g)) by (apply ecount_In; lia).
    rewrite forallb_forall in A. apply A in X. cbn [fst snd] in X. rewrite !andb_true_iff, !Nat.ltb_lt in X. tauto. }
  assert (R : ~ (s < N /\ d < N /\ t < N) -> (if (s =? fprod g t) && o_mem d (fids g) then count_occ Nat.eq_dec (fin (fn g d)) t else 0) = 0).
  { intros H. destruct (o_mem d (fids g)) eqn:M; [|now rewrite andb_false_r]. apply o_mem_In in M. destruct (s =? fprod g t) eqn:S; [|reflexivity].
    apply Nat.eqb_eq in S. cbn [andb]. apply count_occ_not_In. intros X. apply H. rewrite forallb_forall in C. assert (TN := below_In _ _ _ (C d M) X).
    split; [|split; [exact (below_In _ _ _ B M)|exact TN]]. rewrite S. apply (below_In _ _ _ D). apply in_map, in_seq. lia. }
  destruct (lt_dec s N) as [HS|HS]; [|rewrite Z, R; tauto]. destruct (lt_dec d N) as [HD|HD]; [|rewrite Z, R; tauto]. destruct (lt_dec t N) as [HT|HT]; [|rewrite Z, R; tauto].
  rewrite forallb_forall in E. specialize (E s (proj2 (in_seq N 0 s) (conj (Nat.le_0_l s) HS))). rewrite forallb_forall in E.
  specialize (E d (proj2 (in_seq N 0 d) (conj (Nat.le_0_l d) HD))). rewrite forallb_forall in E.
  specialize (E t (proj2 (in_seq N 0 t) (conj (Nat.le_0_l t) HT))). now apply Nat.eqb_eq.
Qed.
Ltac f_wf_tac :=
  split; [repeat (constructor; [cbn; intuition discriminate|]); constructor|];
  intros n H; cbn in H; repeat (destruct H as [<-|H]; [cbn;
     split; [intros x X; cbn in X; repeat (destruct X as [<-|X]; [cbn; intuition lia|]); destruct X|];
     split; [intros x X; cbn in X; repeat (destruct X as [<-|X]; [reflexivity|]); destruct X|];
     first [exact I|eexists; reflexivity|do 2 eexists; split; reflexivity]|]); destruct H.
Ltac f_computes_tac := intros n H; cbn in H; repeat (destruct H as [<-|H]; [cbn; try reflexivity; exact I|]); destruct H.
From Coq Require Import ZArith.
Definition sg_m : meaning Z := mkMeaning (fun _ l => l) (fun f l => (if Nat.even f then hd 0 l else - hd 0 l)%Z) (fun _ x => (- x)%Z) (fun x => Z.max 0 x) (fun x => Z.min 6 (Z.max 0 x)).
Lemma bn_relu_lemma : exists (m : meaning Z) fold g v, f_wf g /\ f_consistent g /\ f_computes m g v /\ (forall f w dec l, m_pre m (fold f w dec) l = m_bn m w (m_pre m f l)) /\
  exists g' i o ti to, fuse_conv_fc_bn fold g = Some g' /\ fn g i = mkFN FIn [] [ti] /\ fn g o = mkFN FOut [to] [] /\ fn g' i = fn g i /\ fn g' o = fn g o /\ In i (fids g') /\ In o (fids g') /\
    forall v', f_computes m g' v' -> v' ti = v ti -> v' to <> v to.
Proof.
  exists sg_m, (fun f _ _ => S f), bnx_g, (fun t => match t with 0 => (-3)%Z | 1 => 3%Z | _ => (-3)%Z end).
  split; [f_wf_tac|]. split; [apply (f_consistent_check 4); reflexivity|]. split; [f_computes_tac|]. split.
  - intros f w dec l. cbn [sg_m m_pre m_bn]. rewrite Nat.even_succ, <- Nat.negb_even. destruct (Nat.even f); cbn [negb]; lia.
  - eexists. exists 0, 3, 0, 2. split; [reflexivity|]. split; [reflexivity|]. split; [reflexivity|]. split; [reflexivity|]. split; [reflexivity|]. split; [cbn; tauto|]. split; [cbn; tauto|].
    intros v' CO V0 V2. assert (X := CO 1 ltac:(cbn; tauto)). cbn in X. rewrite V0 in X. cbn in X. injection X as X. rewrite X in V2. discriminate.
Qed.
