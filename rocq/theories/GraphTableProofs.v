(** Index tables ([collect_tensor_buffers]). *)
From Coq Require Import List Arith Bool ZArith Lia.
From Verif Require Import GraphModel GraphProofs.
Import ListNotations.
Local Open Scope nat_scope.

(** Specification side: [z] is the position of [x] in [l]. *)
Definition at_pos {A} (l : list A) (z : Z) (x : A) : Prop :=
  exists k, z = Z.of_nat k /\ nth_error l k = Some x.
Definition real (tm : nat -> tensor) (n : nat) : Prop := t_index (tm n) <> (-1)%Z.
Definition is_const (tm : nat -> tensor) (n : nat) : Prop := t_var (tm n) = false /\ t_buf (tm n) <> None.
(** No buffer object belongs to a variable and to a constant. *)
Definition var_unshared (tm : nat -> tensor) (labels : list nat) : Prop :=
  forall a b, In a labels -> In b labels -> t_var (tm a) = true -> t_var (tm b) = false ->
    t_buf (tm a) <> None -> t_buf (tm a) <> t_buf (tm b).

Lemma upd_same {A} (f : nat -> A) k v : upd f k v k = v.
Proof. unfold upd. now rewrite Nat.eqb_refl. Qed.
Lemma upd_other {A} (f : nat -> A) k v x : x <> k -> upd f k v x = f x.
Proof. unfold upd. intro H. apply Nat.eqb_neq in H. now rewrite H. Qed.
Lemma at_pos_app {A} (l l' : list A) z x : at_pos l z x -> at_pos (l ++ l') z x.
Proof.
  intros (k & E & H). exists k. split; auto. rewrite nth_error_app1; auto. apply nth_error_Some. congruence.
Qed.
Lemma at_pos_last {A} (l : list A) x : at_pos (l ++ [x]) (Z.of_nat (List.length l)) x.
Proof. exists (List.length l). split; auto. rewrite nth_error_app2 by lia. now rewrite Nat.sub_diag. Qed.

Definition slots (tidx : nat -> Z) (dn names : list nat) (idx : list Z) : Prop :=
  idx = map (fun n => if memb n dn then tidx n else (-1)%Z) names.
Lemma set_all_map names label v (f : nat -> Z) :
  set_all names label v (map f names) = map (fun n => if n =? label then v else f n) names.
Proof.
  unfold set_all. induction names as [|n names IH]; cbn; auto. now rewrite IH.
Qed.

Record tinv (tm : nat -> tensor) (inputs outputs dn : list nat) (st : cstate) : Prop := {
  v_t : c_tensors st = filter (fun n => negb (t_index (tm n) =? -1)%Z) dn;
  v_pos : forall n, In n (c_tensors st) -> at_pos (c_tensors st) (c_tidx st n) n;
  v_keep : forall n, ~ In n (c_tensors st) -> c_tidx st n = t_index (tm n);
  v_b0 : nth_error (c_buffers st) 0 = Some None;
  v_const : forall n b, In n (c_tensors st) -> t_var (tm n) = false -> t_buf (tm n) = Some b ->
              at_pos (c_buffers st) (c_bidx st b) (Some b);
  v_var : forall n b, In n (c_tensors st) -> t_var (tm n) = true -> t_buf (tm n) = Some b -> c_bidx st b = 0%Z;
  v_in : slots (c_tidx st) dn inputs (c_in st);
  v_out : slots (c_tidx st) dn outputs (c_out st) }.

Lemma slots_step tidx tidx' dn names idx label : ~ In label dn ->
  (forall n, n <> label -> tidx' n = tidx n) ->
  slots tidx dn names idx ->
  slots tidx' (dn ++ [label]) names (if memb label names then set_all names label (tidx' label) idx else idx).
Proof.
  unfold slots. intros N E H. subst idx.
  assert (M : forall n, memb n (dn ++ [label]) = (memb n dn || (n =? label))%bool).
  { intro n. unfold memb. rewrite existsb_app. cbn. now rewrite orb_false_r. }
  destruct (memb label names) eqn:Em.
  - rewrite set_all_map. apply map_ext. intro n. rewrite M.
    destruct (n =? label) eqn:El; [apply Nat.eqb_eq in El; subst; now rewrite orb_true_r|].
    rewrite orb_false_r. apply Nat.eqb_neq in El. now rewrite E.
  - apply map_ext_in. intros n Hn. rewrite M.
    assert (n <> label) as El by (intros ->; apply memb_nIn in Em; contradiction).
    rewrite (proj2 (Nat.eqb_neq _ _) El), orb_false_r. now rewrite E.
Qed.

Lemma collect_step_ok tm inputs outputs dn st label st' labels :
  ~ In label dn -> incl dn labels -> In label labels -> var_unshared tm labels ->
  tinv tm inputs outputs dn st -> collect_step tm inputs outputs st label = Some st' ->
  tinv tm inputs outputs (dn ++ [label]) st'.
Proof.
  intros N Hd Hl Hs I E. unfold collect_step in E.
  destruct (t_index (tm label) =? -1)%Z eqn:Ei.
  - injection E as <-. destruct I as [I1 I2 I3 I4 I5 I6 I7 I8]. split; cbn [c_tidx c_bidx c_tensors c_buffers c_in c_out]; auto.
    + rewrite filter_app. cbn. rewrite Ei. cbn. now rewrite app_nil_r.
    + now apply (slots_step (c_tidx st)).
    + now apply (slots_step (c_tidx st)).
  - assert (Ht : c_tensors st ++ [label] = filter (fun n => negb (t_index (tm n) =? -1)%Z) (dn ++ [label])).
    { rewrite filter_app, <- (v_t _ _ _ _ _ I). cbn. now rewrite Ei. }
    assert (Hn : ~ In label (c_tensors st)).
    { rewrite (v_t _ _ _ _ _ I), filter_In. tauto. }
    assert (Hin : forall n, In n (c_tensors st) -> In n labels).
    { intro n. rewrite (v_t _ _ _ _ _ I), filter_In. intros (H & _). auto. }
    assert (Hp : forall n, In n (c_tensors st ++ [label]) ->
              at_pos (c_tensors st ++ [label]) (upd (c_tidx st) label (Z.of_nat (List.length (c_tensors st))) n) n).
    { intros n H. destruct (Nat.eq_dec n label) as [->|D].
      - rewrite upd_same. apply at_pos_last.
      - rewrite upd_other by auto. apply at_pos_app. apply (v_pos _ _ _ _ _ I).
        apply in_app_iff in H as [H|[H|[]]]; auto. congruence. }
    assert (Hk : forall n, ~ In n (c_tensors st ++ [label]) ->
              upd (c_tidx st) label (Z.of_nat (List.length (c_tensors st))) n = t_index (tm n)).
    { intros n H. rewrite in_app_iff in H. cbn in H. rewrite upd_other by (intros ->; tauto).
      apply (v_keep _ _ _ _ _ I). tauto. }
    assert (Ho : forall n, n <> label ->
              upd (c_tidx st) label (Z.of_nat (List.length (c_tensors st))) n = c_tidx st n)
      by (intros; now apply upd_other).
    destruct I as [I1 I2 I3 I4 I5 I6 I7 I8].
    destruct (t_buf (tm label)) as [b|] eqn:Eb; destruct (t_var (tm label)) eqn:Ev; try discriminate;
      injection E as <-; split; cbn [c_tidx c_bidx c_tensors c_buffers c_in c_out]; auto;
      try (apply (slots_step (c_tidx st)); auto; fail).
    + (* variable with buffer: constants *)
      intros n b' Hi Hv Hb. apply in_app_iff in Hi as [Hi|[<-|[]]]; [|congruence].
      rewrite upd_other; [now apply (I5 n)|]. intros ->.
      apply (Hs label n); auto; congruence.
    + intros n b' Hi Hv Hb. destruct (Nat.eq_dec b' b) as [->|D]; [now rewrite upd_same|].
      rewrite upd_other by auto. apply in_app_iff in Hi as [Hi|[<-|[]]]; [|congruence]. now apply (I6 n).
    + (* constant *)
      rewrite nth_error_app1; auto. apply nth_error_Some. congruence.
    + intros n b' Hi Hv Hb. destruct (Nat.eq_dec b' b) as [->|D].
      * rewrite upd_same. apply at_pos_last.
      * rewrite upd_other by auto. apply at_pos_app. apply in_app_iff in Hi as [Hi|[<-|[]]]; [|congruence].
        now apply (I5 n).
    + intros n b' Hi Hv Hb. apply in_app_iff in Hi as [Hi|[<-|[]]]; [|congruence].
      rewrite upd_other; [now apply (I6 n)|]. intros ->.
      apply (Hs n label); auto; congruence.
    + intros n b' Hi Hv Hb. apply in_app_iff in Hi as [Hi|[<-|[]]]; [|congruence]. now apply (I5 n).
    + intros n b' Hi Hv Hb. apply in_app_iff in Hi as [Hi|[<-|[]]]; [|congruence]. now apply (I6 n).
Qed.

Lemma collect_loop_ok tm inputs outputs labels : NoDup labels -> var_unshared tm labels ->
  forall todo dn st st', labels = dn ++ todo -> tinv tm inputs outputs dn st ->
  collect_loop tm inputs outputs todo st = Some st' -> tinv tm inputs outputs labels st'.
Proof.
  intros ND Hs. induction todo as [|l todo IH]; intros dn st st' E I H; cbn in H.
  - injection H as <-. now rewrite E, app_nil_r.
  - destruct (collect_step tm inputs outputs st l) as [s|] eqn:Es; [|discriminate].
    apply (IH (dn ++ [l]) s st'); auto.
    + now rewrite <- app_assoc.
    + apply (collect_step_ok tm inputs outputs dn st l s labels); auto.
      * rewrite E in ND. apply NoDup_remove_2 in ND. rewrite in_app_iff in ND. tauto.
      * rewrite E. intros x Hx. apply in_or_app. auto.
      * rewrite E. apply in_elt.
Qed.
Lemma collect_loop_total tm inputs outputs todo : 
  (forall n, In n todo -> t_var (tm n) = true -> t_buf (tm n) <> None) ->
  forall st, exists st', collect_loop tm inputs outputs todo st = Some st'.
Proof.
  induction todo as [|l todo IH]; intros H st; cbn; [eauto|].
  assert (exists s, collect_step tm inputs outputs st l = Some s) as (s & ->).
  { unfold collect_step. destruct (t_index (tm l) =? -1)%Z; [eauto|].
    specialize (H l (or_introl eq_refl)). destruct (t_buf (tm l)); destruct (t_var (tm l)); eauto.
    exfalso. now apply H. }
  apply IH. intros n Hn. apply H. now right.
Qed.

Lemma missing_map names (f : nat -> Z) : missing names (map f names) = filter (fun n => (f n <? 0)%Z) names.
Proof.
  unfold missing. induction names as [|n names IH]; cbn; auto. destruct (f n <? 0)%Z; cbn; now rewrite IH.
Qed.
Lemma set_first_map names n v (f : nat -> Z) : NoDup names ->
  set_first names n v (map f names) = map (upd f n v) names.
Proof.
  induction names as [|m names IH]; intros ND; cbn; auto. inversion ND as [|? ? Hm ND']; subst. unfold upd at 1.
  destruct (m =? n) eqn:E.
  - apply Nat.eqb_eq in E. subst. f_equal. apply map_ext_in. intros x Hx. symmetry. apply upd_other.
    intros ->. contradiction.
  - f_equal. auto.
Qed.

Record minv (tm : nat -> tensor) (inputs : list nat) (st0 st : cstate) : Prop := {
  m_t : exists ms, c_tensors st = c_tensors st0 ++ ms;
  m_pos : forall n, In n (c_tensors st) -> at_pos (c_tensors st) (c_tidx st n) n;
  m_old : forall n, ~ In n (c_tensors st) -> c_tidx st n = c_tidx st0 n;
  m_old' : forall n, In n (c_tensors st0) -> c_tidx st n = c_tidx st0 n;
  m_b : c_buffers st = c_buffers st0 /\ c_bidx st = c_bidx st0 /\ c_out st = c_out st0;
  m_in : forall (f : nat -> Z), c_in st0 = map f inputs ->
         c_in st = map (fun n => if memb n (c_tensors st) then c_tidx st n else f n) inputs }.

Lemma add_missing_ok tm inputs st0 : NoDup inputs ->
  (forall n, In n (c_tensors st0) -> at_pos (c_tensors st0) (c_tidx st0 n) n) ->
  (forall f, c_in st0 = map f inputs -> forall n, In n inputs -> In n (c_tensors st0) -> f n = c_tidx st0 n) ->
  forall ms st, NoDup ms -> (forall n, In n ms -> ~ In n (c_tensors st)) -> minv tm inputs st0 st ->
  minv tm inputs st0 (fold_left (add_missing inputs) ms st) /\
  c_tensors (fold_left (add_missing inputs) ms st) = c_tensors st ++ ms.
Proof.
  intros NI P0 F0. induction ms as [|n ms IH]; intros st ND Hd M; cbn [fold_left].
  - split; auto. now rewrite app_nil_r.
  - inversion ND as [|? ? Hn ND']; subst.
    assert (Hnn : ~ In n (c_tensors st)) by (apply Hd; now left).
    destruct (IH (add_missing inputs st n)) as (A & B); auto.
    + intros m Hm. cbn. rewrite in_app_iff. cbn. intros [H|[->|[]]]; [|contradiction]. revert H. apply Hd. now right.
    + destruct M as [(ms0 & M1) M2 M3 M3' M4 M5]. unfold add_missing. split; cbn [c_tidx c_bidx c_tensors c_buffers c_in c_out]; auto.
      * exists (ms0 ++ [n]). now rewrite M1, <- app_assoc.
      * intros m Hm. destruct (Nat.eq_dec m n) as [->|D].
        -- rewrite upd_same. apply at_pos_last.
        -- rewrite upd_other by auto. apply at_pos_app, M2. apply in_app_iff in Hm as [Hm|[Hm|[]]]; auto. congruence.
      * intros m Hm. rewrite in_app_iff in Hm. cbn in Hm. rewrite upd_other by (intros ->; tauto). apply M3. tauto.
      * intros m Hm. rewrite upd_other; auto. intros ->. apply Hnn. rewrite M1. apply in_or_app. auto.
      * intros f Hf. rewrite (M5 f Hf), set_first_map by auto. apply map_ext. intro m.
        destruct (Nat.eq_dec m n) as [->|D].
        -- rewrite upd_same, upd_same. assert (memb n (c_tensors st ++ [n]) = true) as ->; auto.
           apply memb_In, in_or_app. cbn. auto.
        -- rewrite !upd_other by auto.
           assert (memb m (c_tensors st ++ [n]) = memb m (c_tensors st)) as ->; auto.
           unfold memb. rewrite existsb_app. cbn. rewrite (proj2 (Nat.eqb_neq m n) D). now rewrite orb_false_r.
    + split; auto. rewrite B. cbn. now rewrite <- app_assoc.
Qed.

Lemma NoDup_app_disj {A} (l l' : list A) : NoDup l -> NoDup l' -> (forall x, In x l -> ~ In x l') -> NoDup (l ++ l').
Proof.
  induction l as [|a l IH]; cbn; auto. intros H1 H2 H3. inversion H1; subst. constructor.
  - rewrite in_app_iff. intros [|]; [contradiction|]. eapply H3; eauto.
  - apply IH; auto.
Qed.

Theorem collect_ok tm bidx labels inputs outputs st :
  NoDup labels -> NoDup inputs -> var_unshared tm labels ->
  collect_tensor_buffers tm bidx labels inputs outputs = Some st ->
  NoDup (c_tensors st) /\
  (forall n, In n (c_tensors st) <-> (In n labels /\ real tm n) \/ In n inputs) /\
  (forall n, In n (c_tensors st) -> at_pos (c_tensors st) (c_tidx st n) n) /\
  (forall n, In n labels -> ~ real tm n -> ~ In n inputs -> c_tidx st n = (-1)%Z) /\
  nth_error (c_buffers st) 0 = Some None /\
  (forall n b, In n labels -> real tm n -> t_var (tm n) = false -> t_buf (tm n) = Some b ->
     at_pos (c_buffers st) (written_buffer tm st n) (Some b)) /\
  (forall n, In n labels -> real tm n -> ~ is_const tm n -> written_buffer tm st n = 0%Z) /\
  Forall2 (fun n i => at_pos (c_tensors st) i n) inputs (c_in st) /\
  Forall2 (fun n i => at_pos (c_tensors st) i n) outputs (c_out st).
Proof.
  intros NL NI Hs E. unfold collect_tensor_buffers in E.
  match type of E with context [collect_loop _ _ _ _ ?s] => set (st0 := s) in E end.
  destruct (collect_loop tm inputs outputs labels st0) as [s|] eqn:El; [|discriminate].
  assert (T : tinv tm inputs outputs labels s).
  { apply (collect_loop_ok tm inputs outputs labels NL Hs labels [] st0 s); auto.
    split; cbn; auto; try (intros; contradiction).
    - unfold slots. apply map_ext. reflexivity.
    - unfold slots. apply map_ext. reflexivity. }
  clear El st0. destruct T as [T1 T2 T3 T4 T5 T6 T7 T8].
  destruct (missing outputs (c_out s)) as [|? ?] eqn:Em; [|discriminate]. injection E as <-.
  assert (Htr : forall n, In n (c_tensors s) <-> In n labels /\ real tm n).
  { intro n. rewrite T1, filter_In, negb_true_iff, Z.eqb_neq. reflexivity. }
  assert (Hnr : forall n, ~ In n (c_tensors s) -> (if memb n labels then c_tidx s n else (-1)%Z) = (-1)%Z).
  { intros n Hn. destruct (memb n labels) eqn:M; auto. apply memb_In in M. rewrite (T3 n Hn).
    destruct (Z.eq_dec (t_index (tm n)) (-1)); auto. exfalso. apply Hn, Htr. auto. }
  assert (Hyr : forall n, In n (c_tensors s) -> (if memb n labels then c_tidx s n else (-1)%Z) = c_tidx s n).
  { intros n Hn. apply Htr in Hn as (Hn & _). apply memb_In in Hn. now rewrite Hn. }
  assert (Hge : forall n, In n (c_tensors s) -> (0 <= c_tidx s n)%Z).
  { intros n Hn. destruct (T2 n Hn) as (k & -> & _). lia. }
  assert (Hms : missing inputs (c_in s) = filter (fun n => negb (memb n (c_tensors s))) inputs).
  { rewrite T7, missing_map. apply filter_ext. intro n. destruct (memb n (c_tensors s)) eqn:M.
    - apply memb_In in M. rewrite (Hyr n M). apply Z.ltb_ge. now apply Hge.
    - apply memb_nIn in M. rewrite (Hnr n M). reflexivity. }
  assert (M0 : minv tm inputs s s).
  { split; auto.
    - exists []. now rewrite app_nil_r.
    - intros f Hf. rewrite T7 in Hf |- *. apply map_ext_in. intros n Hn.
      assert (Hfn : (if memb n labels then c_tidx s n else (-1)%Z) = f n)
        by (apply (proj1 map_ext_in_iff Hf n Hn)).
      destruct (memb n (c_tensors s)) eqn:M; auto. apply memb_In in M. now apply Hyr. }
  destruct (add_missing_ok tm inputs s NI T2) with (ms := missing inputs (c_in s)) (st := s) as (M & Ct); auto.
  { intros f Hf n Hn Hi. rewrite T7 in Hf. rewrite <- (proj1 map_ext_in_iff Hf n Hn). now apply Hyr. }
  { rewrite Hms. now apply NoDup_filter. }
  { intros n Hn. rewrite Hms in Hn. apply filter_In in Hn as (_ & Hn). apply negb_true_iff, memb_nIn in Hn. auto. }
  set (r := fold_left (add_missing inputs) (missing inputs (c_in s)) s) in *. clearbody r.
  destruct M as [_ M2 M3 M3' (M4 & M5 & M6) M7].
  assert (Hr : forall n, In n (c_tensors r) <-> (In n labels /\ real tm n) \/ In n inputs).
  { intro n. rewrite Ct, Hms, in_app_iff, filter_In, negb_true_iff, Htr. split; [tauto|].
    intros [H|H]; auto. destruct (memb n (c_tensors s)) eqn:Mm; auto. left. now apply Htr, memb_In. }
  repeat split.
  - rewrite Ct. apply NoDup_app_disj.
    + rewrite T1. now apply NoDup_filter.
    + rewrite Hms. now apply NoDup_filter.
    + intros n H1 H2. rewrite Hms in H2. apply filter_In in H2 as (_ & H2). apply negb_true_iff, memb_nIn in H2. auto.
  - apply Hr.
  - apply Hr.
  - exact M2.
  - intros n H1 H2 H3. assert (~ In n (c_tensors r)) as H4 by (rewrite Hr; tauto).
    rewrite (M3 n H4), T3. + unfold real in H2. destruct (Z.eq_dec (t_index (tm n)) (-1)); tauto.
    + rewrite Htr. tauto.
  - now rewrite M4.
  - intros n b H1 H2 H3 H4. unfold written_buffer. rewrite H4, M4, M5. apply (T5 n); auto. now apply Htr.
  - intros n H1 H2 H3. unfold written_buffer. destruct (t_buf (tm n)) as [b|] eqn:Eb; auto.
    rewrite M5. apply (T6 n); auto. + now apply Htr.
    + destruct (t_var (tm n)) eqn:Ev; auto. exfalso. apply H3. split; congruence.
  - rewrite (M7 _ T7). assert (Hall : forall n, In n inputs -> In n (c_tensors r)) by (intros n Hn; apply Hr; auto).
    clear - Hall M2. induction inputs as [|n l IH]; cbn; constructor.
    + assert (In n (c_tensors r)) as Hn by (apply Hall; now left). rewrite (proj2 (memb_In _ _) Hn). auto.
    + apply IH. intros m Hm. apply Hall. now right.
  - rewrite M6, T8 in *. rewrite missing_map in Em.
    assert (Hall : forall n, In n outputs -> In n (c_tensors s)).
    { intros n Hn. destruct (in_dec Nat.eq_dec n (c_tensors s)) as [|Hx]; auto. exfalso.
      assert (In n (filter (fun n => ((if memb n labels then c_tidx s n else (-1)) <? 0)%Z) outputs)) as Hi
        by (apply filter_In; split; auto; now rewrite (Hnr n Hx)). rewrite Em in Hi. destruct Hi. }
    clear Em. assert (Hp : forall n, In n outputs -> at_pos (c_tensors r) (if memb n labels then c_tidx s n else (-1)%Z) n).
    { intros n Hn. pose proof (Hall n Hn) as Hi. rewrite (Hyr n Hi), <- (M3' n Hi). apply M2. rewrite Ct.
      apply in_or_app. auto. }
    clear - Hp. induction outputs as [|n l IH]; cbn; constructor.
    + apply Hp. now left.
    + apply IH. intros m Hm. apply Hp. now right.
Qed.

(** The assertion does not fire when every output is a tensor of the graph. *)
Theorem collect_total tm bidx labels inputs outputs :
  NoDup labels -> var_unshared tm labels ->
  (forall n, In n labels -> t_var (tm n) = true -> t_buf (tm n) <> None) ->
  (forall n, In n outputs -> In n labels /\ real tm n) ->
  exists st, collect_tensor_buffers tm bidx labels inputs outputs = Some st.
Proof.
  intros NL Hs Hv Ho. unfold collect_tensor_buffers.
  match goal with |- context [collect_loop _ _ _ _ ?s] => set (st0 := s) end.
  destruct (collect_loop_total tm inputs outputs labels Hv st0) as (s & Es). rewrite Es.
  assert (T : tinv tm inputs outputs labels s).
  { apply (collect_loop_ok tm inputs outputs labels NL Hs labels [] st0 s); auto.
    split; cbn; auto; try (intros; contradiction).
    - unfold slots. apply map_ext. reflexivity.
    - unfold slots. apply map_ext. reflexivity. }
  destruct T as [T1 T2 T3 T4 T5 T6 T7 T8]. rewrite T8, missing_map.
  destruct (filter _ outputs) as [|n t] eqn:Ef; [eauto|]. exfalso.
  assert (In n (n :: t)) as Hn by now left. rewrite <- Ef in Hn. apply filter_In in Hn as (Hn & Hz).
  destruct (Ho n Hn) as (H1 & H2). rewrite (proj2 (memb_In _ _) H1) in Hz.
  assert (In n (c_tensors s)) as Hi by (rewrite T1, filter_In, negb_true_iff, Z.eqb_neq; auto).
  destruct (T2 n Hi) as (k & Ek & _). rewrite Ek in Hz. apply Z.ltb_lt in Hz. lia.
Qed.
