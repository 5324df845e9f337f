(** Proofs about the removal of channels without variance. *)
From Coq Require Import List Arith Bool ZArith Lia.
From Verif Require Import PruneModel FuseModel MergeProofs GroupProofs PruneIdxModel PruneIdxProofs PruneBnModel PruneBnSpec.
Import ListNotations.
Local Open Scope nat_scope.

Lemma ocat_In {A B} (f : A -> option (list B)) l r : ocat f l = Some r ->
  forall y, In y r <-> exists x s, In x l /\ f x = Some s /\ In y s.
Proof.
  unfold ocat. intros H y. apply obind_Some in H. destruct H as (rs & E & H). injection H as <-.
  rewrite in_concat. split.
  - intros (s & I & Y). apply (omap_In _ _ _ E) in I. destruct I as (x & I & F). exists x, s. auto.
  - intros (x & s & I & F & Y). exists s. split; [|exact Y]. apply (omap_In _ _ _ E). exists x. auto.
Qed.
Lemma omap_all {A B} (f : A -> option B) l ys : omap f l = Some ys -> forall x, In x l -> exists y, f x = Some y.
Proof.
  revert ys. induction l as [|a l IH]; intros ys H x I; [contradiction|]. cbn [omap] in H.
  apply obind_Some in H. destruct H as (z & E & H). apply obind_Some in H. destruct H as (zs & E2 & H).
  destruct I as [<-|I]; [exists z; exact E|exact (IH _ E2 x I)].
Qed.
Lemma ocat_all {A B} (f : A -> option (list B)) l r : ocat f l = Some r -> forall x, In x l -> exists s, f x = Some s.
Proof. unfold ocat. intros H. apply obind_Some in H. destruct H as (rs & E & _). exact (omap_all _ _ _ E). Qed.

(** * [dep_centers] *)
Definition content (acc : list (nat * pset)) (c : nat) (k : Z) : Prop := exists js, In (c, js) acc /\ In k js.
Definition grows_by (P : nat -> Z -> Prop) (a b : list (nat * pset)) : Prop :=
  NoDup (map fst a) -> NoDup (map fst b) /\ forall c k, content b c k <-> content a c k \/ P c k.
Lemma ofold_content {B} (f : list (nat * pset) -> B -> option (list (nat * pset))) (P : B -> nat -> Z -> Prop) :
  (forall a x b, f a x = Some b -> grows_by (P x) a b) ->
  forall l a b, ofold f l a = Some b -> grows_by (fun c k => exists x, In x l /\ P x c k) a b.
Proof.
  intros F. induction l as [|x l IH]; intros a b H N; cbn [ofold] in H.
  - injection H as <-. split; [exact N|]. intros c k. split; [auto|]. intros [H|(x & [] & _)]. exact H.
  - apply obind_Some in H. destruct H as (a1 & E & H). destruct (F _ _ _ E N) as [N1 C1].
    destruct (IH _ _ H N1) as [N2 C2]. split; [exact N2|]. intros c k. rewrite C2, C1. cbn [In]. split.
    + intros [[H1|H1]|(y & I & H1)]; [auto|right; exists x; auto|right; exists y; auto].
    + intros [H1|(y & [<-|I] & H1)]; [auto|auto|right; exists y; auto].
Qed.
Lemma grows_same a : grows_by (fun _ _ => False) a a.
Proof. intros N. split; [exact N|]. intros c k. tauto. Qed.
Lemma grows_ext P Q a b : (forall c k, P c k <-> Q c k) -> grows_by P a b -> grows_by Q a b.
Proof.
  intros E G N. destruct (G N) as [N' C]. split; [exact N'|]. intros c k. rewrite C, E. reflexivity.
Qed.
Lemma NoDup_snoc {A} (l : list A) x : NoDup l -> ~ In x l -> NoDup (l ++ [x]).
Proof.
  induction 1 as [|y l Hy Hl IH]; intros N; simpl; [repeat constructor; auto|].
  constructor; [rewrite in_app_iff; simpl in *; intuition|]. apply IH. simpl in N. tauto.
Qed.
Lemma dset_NoDup {B} k (v : B) d : NoDup (map fst d) -> NoDup (map fst (dset k v d)).
Proof.
  intros N. rewrite dset_keys. destruct (existsb (Nat.eqb k) (map fst d)) eqn:E; [exact N|].
  apply NoDup_snoc; [exact N|]. intros I.
  assert (T : existsb (Nat.eqb k) (map fst d) = true) by (apply existsb_exists; exists k; split; [exact I|apply Nat.eqb_refl]).
  congruence.
Qed.
Lemma content_dget acc c k : NoDup (map fst acc) -> (content acc c k <-> In k (@dgetd pset [] c acc)).
Proof.
  intros N. unfold content, dgetd. split.
  - intros (js & I & K). pose proof (@dget_NoDup pset c js acc N I) as E. unfold pset in *. rewrite E. exact K.
  - destruct (@dget pset c acc) as [js|] eqn:E; [|intros []]. intros K. exists js. split; [apply dget_In; exact E|exact K].
Qed.

Definition deps_at (ls : list pleaf) (c : nat) (j : Z) (c' : nat) (k : Z) : Prop :=
  exists l, In l ls /\ exists r idxs i, dget c (pl_rows l) = Some r /\ c2l r j = Some idxs /\ In i idxs /\
    exists r' t, In (c', r') (pl_rows l) /\ c' <> c /\ l2c r' i = Some t /\ set_eqb t [(-1)%Z] = false /\ In k t.
Lemma dep_centers_content ls c j acc : dep_centers ls c j = Some acc ->
  NoDup (map fst acc) /\ forall c' k, content acc c' k <-> deps_at ls c j c' k.
Proof.
  intros H. unfold dep_centers in H.
  assert (G : grows_by (deps_at ls c j) [] acc).
  { refine (ofold_content _ (fun l c' k => exists r idxs i, dget c (pl_rows l) = Some r /\ c2l r j = Some idxs /\ In i idxs /\
      exists r' t, In (c', r') (pl_rows l) /\ c' <> c /\ l2c r' i = Some t /\ set_eqb t [(-1)%Z] = false /\ In k t) _ ls [] acc H).
    clear H acc. intros a l b H. destruct (dget c (pl_rows l)) as [r|] eqn:D.
    2:{ injection H as <-. eapply grows_ext; [|apply grows_same]. intros c' k. split; [tauto|].
        intros (r & idxs & i & E & _). discriminate. }
    destruct (c2l r j) as [idxs|] eqn:C.
    2:{ injection H as <-. eapply grows_ext; [|apply grows_same]. intros c' k. split; [tauto|].
        intros (r' & idxs & i & E & E2 & _). injection E as <-. congruence. }
    eapply grows_ext.
    2:{ refine (ofold_content _ (fun i c' k => exists e, In e (pl_rows l) /\ fst e <> c /\ fst e = c' /\
          exists t, l2c (snd e) i = Some t /\ set_eqb t [(-1)%Z] = false /\ In k t) _ _ _ _ H).
        clear H a b. intros a i b H.
        refine (ofold_content _ (fun e c' k => fst e <> c /\ fst e = c' /\
          exists t, l2c (snd e) i = Some t /\ set_eqb t [(-1)%Z] = false /\ In k t) _ _ _ _ H).
        clear H a b. intros a e b H. destruct (fst e =? c) eqn:E.
        - injection H as <-. apply Nat.eqb_eq in E. eapply grows_ext; [|apply grows_same]. intros c' k. tauto.
        - apply Nat.eqb_neq in E. apply obind_Some in H. destruct H as (t & T & H).
          destruct (set_eqb t [(-1)%Z]) eqn:S.
          + injection H as <-. eapply grows_ext; [|apply grows_same]. intros c' k. split; [tauto|].
            intros (_ & _ & t' & T' & S' & _). congruence.
          + injection H as <-. intros N. split; [apply dset_NoDup; exact N|]. intros c' k.
            rewrite (content_dget _ c' k (dset_NoDup _ _ _ N)), (content_dget a c' k N), dgetd_dset.
            destruct (Nat.eqb_spec c' (fst e)) as [->|Q].
            * rewrite union_In. split; [intros [K|K]; [auto|right; eauto 6]|].
              intros [K|(_ & _ & t' & T' & _ & K)]; [auto|]. rewrite T in T'. injection T' as <-. auto.
            * split; [auto|]. intros [K|(_ & Q' & _)]; [exact K|congruence]. }
    intros c' k. split.
    - intros (i & I & (e & Ie & Ne & Ee & t & T)). exists r, idxs, i. repeat (split; [assumption||reflexivity|]).
      destruct e as [c1 r1]. cbn [fst snd] in *. subst c1. exists r1, t. tauto.
    - intros (r' & idxs' & i & E & E2 & I & r1 & t & J & K). injection E as <-. rewrite C in E2. injection E2 as <-.
      exists i. split; [exact I|]. exists (c', r1). cbn [fst snd]. split; [exact J|]. split; [tauto|]. split; [reflexivity|].
      exists t. tauto. }
  destruct (G (NoDup_nil _)) as [N C]. split; [exact N|]. intros c' k. rewrite C. split; [|auto].
  intros [(js & [] & _)|K]. exact K.
Qed.

(** * [feeds] and [meets] *)
Lemma width_ge r (row : list pset) : In row r -> length row <= width r.
Proof.
  unfold width. intros I. pose proof (proj1 (list_max_le (map (@length pset) r) (list_max (map (@length pset) r))) (Nat.le_refl _)) as F.
  rewrite Forall_forall in F. apply F. apply in_map. exact I.
Qed.
Lemma nth_some_len (row : list pset) i (j : Z) : In j (nth i row []) -> i < length row.
Proof. intros I. destruct (Nat.lt_ge_cases i (length row)) as [H|H]; [exact H|]. rewrite nth_overflow in I by exact H. contradiction. Qed.
Lemma l2c_defined r i : (0 <= i < Z.of_nat (width r))%Z -> exists t, l2c r i = Some t.
Proof.
  intros [A B]. unfold l2c. replace ((0 <=? i)%Z && (i <? Z.of_nat (width r))%Z) with true; [eauto|].
  symmetry. apply andb_true_iff. split; [apply Z.leb_le; exact A|apply Z.ltb_lt; exact B].
Qed.
Lemma feeds_l2c l i c j : feeds l i c j <->
  j <> (-1)%Z /\ exists r t, In (c, r) (pl_rows l) /\ l2c r (Z.of_nat i) = Some t /\ In j t.
Proof.
  unfold feeds. split; intros [N H]; (split; [exact N|]).
  - destruct H as (r & row & I & R & L & J). pose proof (width_ge _ _ R) as W.
    destruct (l2c_defined r (Z.of_nat i)) as [t T]; [split; lia|]. exists r, t. split; [exact I|]. split; [exact T|].
    apply (proj2 (l2c_Some _ _ _ T)). exists row. rewrite Nat2Z.id. auto.
  - destruct H as (r & t & I & T & J). apply (proj2 (l2c_Some _ _ _ T)) in J. destruct J as (row & R & J).
    rewrite Nat2Z.id in J. exists r, row. repeat (split; [assumption|]). split; [apply (nth_some_len _ _ _ J)|exact J].
Qed.
Lemma c2l_nat r j t i : c2l r j = Some t -> In i t -> i = Z.of_nat (Z.to_nat i).
Proof. intros C I. pose proof (c2l_In r j i) as H. rewrite C in H. apply H in I. lia. Qed.
Lemma feeds_c2l l i c j : NoDup (map fst (pl_rows l)) -> (feeds l i c j <->
  exists r t, dget c (pl_rows l) = Some r /\ c2l r j = Some t /\ In (Z.of_nat i) t).
Proof.
  intros ND. unfold feeds. split.
  - intros (N & r & row & I & R & L & J). exists r. pose proof (width_ge _ _ R) as W.
    pose proof (c2l_In r j (Z.of_nat i)) as H.
    assert (K : In (Z.of_nat i) (match c2l r j with Some t => t | None => [] end)).
    { apply H. split; [exact N|]. split; [lia|]. exists row. rewrite Nat2Z.id. auto. }
    destruct (c2l r j) as [t|]; [|contradiction]. exists t. split; [apply dget_NoDup; assumption|]. auto.
  - intros (r & t & D & C & I). pose proof (c2l_In r j (Z.of_nat i)) as H. rewrite C in H. apply H in I.
    destruct I as (N & B & row & R & J). split; [exact N|]. rewrite Nat2Z.id in J.
    exists r, row. split; [apply dget_In; exact D|]. split; [exact R|]. split; [apply (nth_some_len _ _ _ J)|exact J].
Qed.
Lemma not_only_none (t : pset) j : In j t -> j <> (-1)%Z -> set_eqb t [(-1)%Z] = false.
Proof.
  intros I N. destruct (set_eqb t [(-1)%Z]) eqn:E; [|reflexivity]. rewrite set_eqb_iff in E. apply E in I.
  destruct I as [I|[]]. congruence.
Qed.
Lemma deps_meets ls c j c' k : well_named ls -> k <> (-1)%Z -> (deps_at ls c j c' k <-> meets ls c j c' k).
Proof.
  intros [_ W] K. unfold deps_at, meets. split.
  - intros (l & L & r & idxs & i & D & C & I & r' & t & I' & N & T & _ & J). split; [congruence|].
    pose proof (c2l_nat _ _ _ _ C I) as E. rewrite E in I, T. exists l, (Z.to_nat i). split; [exact L|]. split.
    + apply feeds_c2l; [apply W; exact L|]. eauto.
    + apply feeds_l2c. split; [exact K|]. eauto.
  - intros (N & l & i & L & F & F'). apply (feeds_c2l l i c j (W l L)) in F. destruct F as (r & idxs & D & C & I).
    apply feeds_l2c in F'. destruct F' as (_ & r' & t & I' & T & J). exists l. split; [exact L|].
    exists r, idxs, (Z.of_nat i). repeat (split; [assumption|]). exists r', t. split; [exact I'|]. split; [congruence|].
    split; [exact T|]. split; [exact (not_only_none _ _ J K)|exact J].
Qed.
Lemma meets_sym ls c j c' j' : meets ls c j c' j' -> meets ls c' j' c j.
Proof. intros (N & l & i & L & F & F'). split; [congruence|]. exists l, i. auto. Qed.
Lemma deps_none ls c c' k : ~ deps_at ls c (-1)%Z c' k.
Proof. intros (l & _ & r & idxs & i & _ & C & _). discriminate C. Qed.

(** * The writes *)
Lemma bn_index_In ls cc l e ws : well_named ls -> bn_index ls cc l e = Some ws ->
  forall c j b, j <> (-1)%Z -> (In (c, (j, b)) ws <-> b = snd e /\ bears ls l (fst e) c j).
Proof.
  intros W H c j b N. unfold bn_index in H. rewrite (ocat_In _ _ _ H). split.
  - intros ([c1 r] & s & I & F & Y). cbn [fst snd] in F. apply obind_Some in F. destruct F as (t & T & F).
    destruct (set_eqb t [(-1)%Z]) eqn:S; [injection F as <-; contradiction|].
    apply (ocat_In _ _ _ F) in Y. destruct Y as (j1 & s1 & J & G & Y).
    destruct (existsb _ _); [|discriminate]. apply obind_Some in G. destruct G as (deps & D & G). injection G as <-.
    destruct (dep_centers_content _ _ _ _ D) as [ND DC]. destruct Y as [Y|Y].
    + injection Y as -> -> <-. split; [reflexivity|]. left. apply feeds_l2c. split; [exact N|]. eauto.
    + apply in_flat_map in Y. destruct Y as ([c2 js] & I2 & Y). apply in_map_iff in Y. destruct Y as (k & Y & K).
      cbn [fst snd] in *. injection Y as -> -> <-. split; [reflexivity|].
      assert (Q : deps_at ls c1 j1 c j) by (apply DC; exists js; auto).
      assert (N1 : j1 <> (-1)%Z) by (intros ->; exact (deps_none _ _ _ _ Q)).
      apply (deps_meets _ _ _ _ _ W N) in Q. right. exists c1, j1. split; [|exact Q].
      apply feeds_l2c. split; [exact N1|]. eauto.
  - intros [-> B].
    assert (K : exists c1 j1, feeds l (fst e) c1 j1 /\ ((c1 = c /\ j1 = j) \/ meets ls c1 j1 c j)).
    { destruct B as [B|(c1 & j1 & B & M)]; [exists c, j; auto|exists c1, j1; auto]. }
    clear B. destruct K as (c1 & j1 & F & K). apply feeds_l2c in F. destruct F as (N1 & r & t & I & T & J).
    destruct (ocat_all _ _ _ H _ I) as [s E]. exists (c1, r), s. split; [exact I|]. split; [exact E|].
    cbn [fst snd] in E. apply obind_Some in E. destruct E as (t' & T' & E). rewrite T in T'. injection T' as <-.
    rewrite (not_only_none _ _ J N1) in E. apply (ocat_In _ _ _ E).
    destruct (ocat_all _ _ _ E _ J) as [s1 E1]. exists j1, s1. split; [exact J|]. split; [exact E1|].
    destruct (existsb _ _); [|discriminate]. apply obind_Some in E1. destruct E1 as (deps & D & G). injection G as <-.
    destruct K as [[-> ->]|M]; [left; reflexivity|right].
    destruct (dep_centers_content _ _ _ _ D) as [ND DC]. apply (deps_meets _ _ _ _ _ W N) in M. apply DC in M.
    destruct M as (js & I2 & K). apply in_flat_map. exists (c, js). split; [exact I2|]. apply in_map_iff. exists j. auto.
Qed.
Lemma combine_seq_In {A} (l : list A) : forall k i b, In (i, b) (combine (seq k (length l)) l) <-> k <= i /\ nth_error l (i - k) = Some b.
Proof.
  induction l as [|a l IH]; intros k i b; cbn [length seq combine].
  - split; [intros []|]. intros [_ H]. destruct (i - k); discriminate.
  - cbn [In]. rewrite IH. split.
    + intros [E|[L E]]; [injection E as -> ->; rewrite Nat.sub_diag; auto|].
      split; [lia|]. replace (i - k) with (S (i - S k)) by lia. exact E.
    + intros [L E]. destruct (Nat.eq_dec i k) as [->|Q]; [rewrite Nat.sub_diag in E; injection E as ->; auto|].
      right. split; [lia|]. replace (i - k) with (S (i - S k)) in E by lia. exact E.
Qed.
Lemma bn_writes_In ls cc bn ws : well_named ls -> bn_writes ls cc bn = Some ws ->
  forall n c j b, j <> (-1)%Z -> (In (n, (c, (j, b))) ws <->
    exists l i, n = pl_name l /\ flat_at ls bn l i b /\ bears ls l i c j).
Proof.
  intros W H n c j b N. unfold bn_writes in H. rewrite (ocat_In _ _ _ H). split.
  - intros (l & s & L & F & Y). destruct (pl_real l) eqn:R; [|injection F as <-; contradiction].
    destruct (bn (pl_name l)) as [flags|] eqn:B; [|injection F as <-; contradiction].
    apply obind_Some in F. destruct F as (w & E & F). injection F as <-. apply in_map_iff in Y.
    destruct Y as (y & Y & I). injection Y as <- ->. apply (ocat_In _ _ _ E) in I. destruct I as ([i b'] & s & I & F & Y).
    apply (bn_index_In _ _ _ _ _ W F) in Y; [|exact N]. cbn [fst snd] in Y. destruct Y as [-> Y].
    apply combine_seq_In in I. rewrite Nat.sub_0_r in I. exists l, i. split; [reflexivity|]. split; [|exact Y].
    split; [exact L|]. split; [exact R|]. exists flags. tauto.
  - intros (l & i & -> & (L & R & flags & B & E) & Y). destruct (ocat_all _ _ _ H _ L) as [s F]. exists l, s.
    split; [exact L|]. split; [exact F|]. cbn beta in F. rewrite R, B in F.
    apply obind_Some in F. destruct F as (w & E' & F). injection F as <-. apply in_map_iff. exists (c, (j, b)).
    split; [reflexivity|]. apply (ocat_In _ _ _ E').
    assert (I : In (i, b) (combine (seq 0 (length flags)) flags)) by (apply combine_seq_In; rewrite Nat.sub_0_r; split; [lia|exact E]).
    destruct (ocat_all _ _ _ E' _ I) as [s F]. exists (i, b), s. split; [exact I|]. split; [exact F|].
    apply (bn_index_In _ _ _ _ _ W F); [exact N|]. auto.
Qed.

(** * The joined states *)
Lemma bn_state_gen n c j (ws : list (nat * (nat * (Z * bool)))) : forall s0 : option bool,
  let s := fold_left (fun s w => if (fst w =? n) && (fst (snd w) =? c) && (fst (snd (snd w)) =? j)%Z
                        then Some (snd (snd (snd w))) else s) ws s0 in
  (exists b, s = Some b /\ In (n, (c, (j, b))) ws) \/ (s = s0 /\ forall b, ~ In (n, (c, (j, b))) ws).
Proof.
  induction ws as [|[n1 [c1 [j1 b1]]] ws IH]; intros s0; cbn [fold_left]; [right; split; [reflexivity|intros b []]|].
  cbn [fst snd]. destruct ((n1 =? n) && (c1 =? c) && (j1 =? j)%Z) eqn:E.
  - apply andb_true_iff in E. destruct E as [E E3]. apply andb_true_iff in E. destruct E as [E1 E2].
    apply Nat.eqb_eq in E1, E2. apply Z.eqb_eq in E3. subst n1 c1 j1.
    destruct (IH (Some b1)) as [(b & S & I)|[S I]]; left; [exists b; split; [exact S|right; exact I]|exists b1; split; [exact S|left; reflexivity]].
  - destruct (IH s0) as [(b & S & I)|[S I]]; [left; exists b; split; [exact S|right; exact I]|].
    right. split; [exact S|]. intros b [Q|Q]; [|exact (I b Q)]. injection Q as -> -> -> _.
    rewrite !Nat.eqb_refl, Z.eqb_refl in E. discriminate.
Qed.
Lemma bn_state_spec n c j ws :
  (exists b, bn_state ws n c j = Some b /\ In (n, (c, (j, b))) ws) \/ (bn_state ws n c j = None /\ forall b, ~ In (n, (c, (j, b))) ws).
Proof. exact (bn_state_gen n c j ws None). Qed.
Lemma bn_invalid_In ws c j : In j (bn_invalid ws c) <->
  (exists n b, In (n, (c, (j, b))) ws) /\ forall n, bn_state ws n c j <> Some false.
Proof.
  unfold bn_invalid. rewrite filter_In, nodup_In, in_map_iff, forallb_forall. split; intros [A B]; split.
  - destruct A as ([n [c1 [j1 b]]] & E & I). apply filter_In in I. cbn [fst snd] in *. destruct I as [I Q].
    apply Nat.eqb_eq in Q. subst. eauto.
  - intros n. destruct (bn_state_spec n c j ws) as [(b & E & I)|[E _]]; [|congruence].
    specialize (B n (in_map fst _ _ I)). cbn beta in B. rewrite E in B. congruence.
  - destruct A as (n & b & I). exists (n, (c, (j, b))). split; [reflexivity|]. apply filter_In. split; [exact I|apply Nat.eqb_refl].
  - intros n _. specialize (B n). destruct (bn_state ws n c j) as [[|]|]; congruence.
Qed.
Lemma bn_invalid_NoDup ws c : NoDup (bn_invalid ws c).
Proof. unfold bn_invalid. apply NoDup_filter, NoDup_nodup. Qed.

Lemma named_once ls l l' : well_named ls -> In l ls -> In l' ls -> pl_name l = pl_name l' -> l = l'.
Proof.
  intros [W _]. induction ls as [|a ls IH]; [intros []|]. cbn [map] in W. inversion W as [|? ? A B]; subst.
  intros [<-|I] [<-|I'] E; auto.
  - exfalso. apply A. rewrite E. apply in_map. exact I'.
  - exfalso. apply A. rewrite <- E. apply in_map. exact I.
Qed.
Lemma flat_fun ls bn l i b b' : flat_at ls bn l i b -> flat_at ls bn l i b' -> b = b'.
Proof. intros (_ & _ & f & B & E) (_ & _ & f' & B' & E'). congruence. Qed.
Lemma invalid_iff ls cc bn ws : well_named ls -> one_index ls -> bn_writes ls cc bn = Some ws ->
  forall c j, j <> (-1)%Z -> (In j (bn_invalid ws c) <-> borne ls bn c j /\ ~ lively ls bn c j).
Proof.
  intros W O H c j N. pose proof (bn_writes_In _ _ _ _ W H) as WI. rewrite bn_invalid_In. split; intros [A B]; split.
  - destruct A as (n & b & I). apply WI in I; [|exact N]. destruct I as (l & i & _ & F & Y). exists l, i, b. auto.
  - intros (l & i & F & Y). apply (B (pl_name l)).
    destruct (bn_state_spec (pl_name l) c j ws) as [(b & E & I)|[E I]].
    + rewrite E. f_equal. apply WI in I; [|exact N]. destruct I as (l' & i' & Q & F' & Y').
      assert (l = l') by (apply (named_once ls); [exact W|apply F|apply F'|exact Q]). subst l'.
      assert (i = i') by (apply (O l i i' c j); [apply F|exact Y|exact Y']). subst i'.
      exact (flat_fun _ _ _ _ _ _ F' F).
    + exfalso. apply (I false). apply WI; [exact N|]. eauto.
  - destruct A as (l & i & b & F & Y). exists (pl_name l), b. apply WI; [exact N|]. eauto.
  - intros n E. apply B. destruct (bn_state_spec n c j ws) as [(b & E' & I)|[E' _]]; [|congruence].
    rewrite E in E'. injection E' as <-. apply WI in I; [|exact N]. destruct I as (l & i & _ & F & Y). exists l, i. auto.
Qed.

(** * The result *)
Lemma bn_prune_Some ls cc bn m pc pl : bn_prune ls cc bn m = Some (pc, pl) ->
  exists ws, bn_writes ls cc bn = Some ws /\ bn_centers ws m = Some pc /\ bn_leaves ls pc = Some pl.
Proof.
  unfold bn_prune. intros H. apply obind_Some in H. destruct H as (ws & E & H). apply obind_Some in H.
  destruct H as (pc' & E2 & H). apply obind_Some in H. destruct H as (pl' & E3 & H). injection H as <- <-. exists ws. auto.
Qed.
Lemma firstn_In {A} (x : A) n l : In x (firstn n l) -> In x l.
Proof. revert n. induction l as [|a l IH]; intros [|n] H; cbn [firstn In] in *; [contradiction..|]. destruct H as [->|H]; [auto|right; eauto]. Qed.
Lemma bn_trim_sub m s t : bn_trim m s = Some t -> forall j, In j t -> In j s.
Proof.
  destruct m as [[|m]|]; cbn [bn_trim]; intros H; [discriminate| |injection H as <-; auto].
  injection H as <-. intros j I. destruct (_ =? 0); [contradiction|]. exact (firstn_In _ _ _ I).
Qed.
Lemma bn_centers_In ws m pc : bn_centers ws m = Some pc -> forall c s, In (c, s) pc <->
  (exists n j b, In (n, (c, (j, b))) ws) /\ bn_trim m (bn_invalid ws c) = Some s.
Proof.
  unfold bn_centers. intros H c s. rewrite (omap_In _ _ _ H). split.
  - intros (c1 & I & E). apply obind_Some in E. destruct E as (s1 & T & E). injection E as -> ->. split; [|exact T].
    apply nodup_In, in_map_iff in I. destruct I as ([n [c2 [j b]]] & E & I). cbn [fst snd] in E. subst. eauto.
  - intros [(n & j & b & I) T]. exists c. split; [|rewrite T; reflexivity].
    apply nodup_In, in_map_iff. exists (n, (c, (j, b))). auto.
Qed.
Lemma gone_invalid ws m pc c j : bn_centers ws m = Some pc -> gone_center pc c j -> In j (bn_invalid ws c).
Proof.
  intros H (s & I & J). apply (bn_centers_In _ _ _ H) in I. destruct I as [_ T]. exact (bn_trim_sub _ _ _ T _ J).
Qed.
Lemma gone_invalid_iff ws pc c j : bn_centers ws None = Some pc -> (gone_center pc c j <-> In j (bn_invalid ws c)).
Proof.
  intros H. split; [apply gone_invalid with (1 := H)|]. intros I. exists (bn_invalid ws c). split; [|exact I].
  apply (bn_centers_In _ _ _ H). split; [|reflexivity]. apply bn_invalid_In in I. destruct I as [(n & b & I) _]. eauto.
Qed.

Lemma centers_exact ls cc bn pc pl : well_named ls -> one_index ls -> bn_prune ls cc bn None = Some (pc, pl) ->
  forall c j, j <> (-1)%Z -> (gone_center pc c j <-> borne ls bn c j /\ ~ lively ls bn c j).
Proof.
  intros W O H c j N. destruct (bn_prune_Some _ _ _ _ _ _ H) as (ws & E & C & _).
  rewrite (gone_invalid_iff _ _ _ _ C). exact (invalid_iff _ _ _ _ W O E c j N).
Qed.
Lemma centers_safe ls cc bn m pc pl : well_named ls -> one_index ls -> bn_prune ls cc bn m = Some (pc, pl) ->
  forall c j, j <> (-1)%Z -> gone_center pc c j -> borne ls bn c j /\ ~ lively ls bn c j.
Proof.
  intros W O H c j N G. destruct (bn_prune_Some _ _ _ _ _ _ H) as (ws & E & C & _).
  apply (invalid_iff _ _ _ _ W O E c j N). exact (gone_invalid _ _ _ _ _ C G).
Qed.
Lemma leaves_exact ls cc bn m pc pl : well_named ls -> bn_prune ls cc bn m = Some (pc, pl) ->
  forall l i, In l ls -> pl_real l = true ->
    (gone_leaf pl (pl_name l) i <-> exists c j, gone_center pc c j /\ feeds l i c j).
Proof.
  intros W H l i L R. destruct (bn_prune_Some _ _ _ _ _ _ H) as (ws & _ & _ & P). unfold bn_leaves in P. split.
  - intros (t & I & T). apply (ocat_In _ _ _ P) in I. destruct I as ([c s] & x & I & F & Y). cbn [fst snd] in F.
    apply (ocat_In _ _ _ F) in Y. destruct Y as (l' & y & L' & G & Y).
    destruct (dget c (pl_rows l')) as [r|] eqn:D; [|injection G as <-; contradiction].
    destruct (pl_real l'); [|injection G as <-; contradiction]. apply obind_Some in G. destruct G as (ts & O & G).
    injection G as <-. apply in_map_iff in Y. destruct Y as (t' & Y & It). injection Y as En ->.
    assert (l = l') by (apply (named_once ls); [exact W|exact L|exact L'|congruence]). subst l'.
    apply (omap_In _ _ _ O) in It. destruct It as (j & J & C). exists c, j. split; [exists s; auto|].
    apply feeds_c2l; [apply W; exact L|]. eauto.
  - intros (c & j & (s & I & J) & F). apply (feeds_c2l _ _ _ _ (proj2 W l L)) in F. destruct F as (r & t & D & C & T).
    destruct (ocat_all _ _ _ P _ I) as [x F]. destruct (ocat_all _ _ _ F _ L) as [y G]. exists t. split; [|exact T].
    apply (ocat_In _ _ _ P). exists (c, s), x. split; [exact I|]. split; [exact F|].
    apply (ocat_In _ _ _ F). exists l, y. split; [exact L|]. split; [exact G|]. cbn [fst snd] in G. rewrite D, R in G.
    apply obind_Some in G. destruct G as (ts & O & G). injection G as <-. apply in_map_iff. exists t. split; [reflexivity|].
    apply (omap_In _ _ _ O). exists j. auto.
Qed.
Lemma bn_index_flat ls cc bn m pc pl : well_named ls -> one_index ls -> bn_prune ls cc bn m = Some (pc, pl) ->
  forall l i b, flat_at ls bn l i b -> gone_leaf pl (pl_name l) i -> b = true.
Proof.
  intros W O H l i b F G. apply (leaves_exact _ _ _ _ _ _ W H l i (proj1 F) (proj1 (proj2 F))) in G.
  destruct G as (c & j & G & Y). destruct b; [reflexivity|]. exfalso.
  destruct (centers_safe _ _ _ _ _ _ W O H c j (proj1 Y) G) as [_ N]. apply N. exists l, i. split; [exact F|]. left. exact Y.
Qed.
Lemma bears_meet ls l i c j c' j' : cliques ls -> meets ls c j c' j' -> bears ls l i c j -> bears ls l i c' j'.
Proof.
  intros Q M [F|(c1 & j1 & F & M1)]; [right; exists c, j; auto|].
  destruct (Q _ _ _ _ _ _ M1 M) as [[-> ->]|K]; [left; exact F|right; exists c1, j1; auto].
Qed.
Lemma centers_together ls cc bn pc pl : well_named ls -> one_index ls -> cliques ls ->
  bn_prune ls cc bn None = Some (pc, pl) ->
  forall l i c j c' j', In l ls -> feeds l i c j -> feeds l i c' j' -> c <> c' ->
    (gone_center pc c j <-> gone_center pc c' j').
Proof.
  intros W O Q H.
  assert (K : forall c j c' j', meets ls c j c' j' -> j <> (-1)%Z -> j' <> (-1)%Z -> gone_center pc c j -> gone_center pc c' j').
  { intros c j c' j' M N N' G. rewrite (centers_exact _ _ _ _ _ W O H c' j' N').
    rewrite (centers_exact _ _ _ _ _ W O H c j N) in G. destruct G as [(l & i & b & F & Y) G]. split.
    - exists l, i, b. split; [exact F|exact (bears_meet _ _ _ _ _ _ _ Q M Y)].
    - intros (l' & i' & F' & Y'). apply G. exists l', i'. split; [exact F'|].
      exact (bears_meet _ _ _ _ _ _ _ Q (meets_sym _ _ _ _ _ M) Y'). }
  intros l i c j c' j' L F F' N. assert (M : meets ls c j c' j') by (split; [exact N|exists l, i; auto]).
  pose proof (proj1 F). pose proof (proj1 F'). split; apply K; auto. apply meets_sym. exact M.
Qed.
Lemma NoDup_firstn {A} n (l : list A) : NoDup l -> NoDup (firstn n l).
Proof.
  intros N. revert n. induction N as [|a l Ha N IH]; intros [|n]; cbn [firstn]; try constructor; [|apply IH].
  intros I. apply Ha. exact (firstn_In _ _ _ I).
Qed.
Lemma bn_trim_multiple m x s : NoDup x -> bn_trim (Some m) x = Some s -> NoDup s /\ exists q, length s = q * m.
Proof.
  intros N T. destruct m as [|m]; [discriminate T|]. unfold bn_trim in T.
  assert (E : s = if length x mod S m =? 0 then [] else firstn (length x - length x mod S m) x)
    by exact (eq_sym (f_equal (fun o => match o with Some v => v | None => s end) T)).
  clear T. destruct (length x mod S m =? 0); subst s; [split; [constructor|exists 0; reflexivity]|]. split.
  - apply NoDup_firstn. exact N.
  - exists (length x / S m). rewrite firstn_length.
    pose proof (Nat.div_mod (length x) (S m) (Nat.neq_succ_0 m)).
    assert (E : length x - length x mod S m = length x / S m * S m) by lia. rewrite E. lia.
Qed.
Lemma trim_multiple ls cc bn m pc pl : bn_prune ls cc bn (Some m) = Some (pc, pl) ->
  forall c s, In (c, s) pc -> NoDup s /\ exists q, length s = q * m.
Proof.
  intros H c s I. destruct (bn_prune_Some _ _ _ _ _ _ H) as (ws & _ & C & _).
  apply (bn_centers_In _ _ _ C) in I. destruct I as [_ T]. exact (bn_trim_multiple _ _ _ (bn_invalid_NoDup ws c) T).
Qed.
Lemma calc_bn_prune sg bn m ls r : omap (prep_leaf (sg_mods sg)) (sg_leaves sg) = Some ls ->
  calc_bn sg bn m = Some r -> exists cc, bn_prune ls cc bn m = Some r.
Proof.
  unfold calc_bn. intros E H. rewrite E in H. apply obind_Some in H. destruct H as (cc & _ & H). exists cc. exact H.
Qed.

(** * Cases in which the conditions hold *)
Lemma aligned_one_index ls : (forall l i c j, In l ls -> feeds l i c j -> j = Z.of_nat i) -> one_index ls.
Proof.
  intros A. assert (B : forall l i c j, In l ls -> bears ls l i c j -> j = Z.of_nat i).
  { intros l i c j L [F|(c1 & j1 & F & _ & l' & i' & L' & F1 & F2)]; [eauto|].
    apply A in F; [|exact L]. apply A in F1; [|exact L']. apply A in F2; [|exact L']. lia. }
  intros l i i' c j L Y Y'. apply B in Y; [|exact L]. apply B in Y'; [|exact L]. lia.
Qed.
Lemma pair_cliques ls a b : (forall l i c j, In l ls -> feeds l i c j -> j = Z.of_nat i /\ (c = a \/ c = b)) -> cliques ls.
Proof.
  intros A c j c1 j1 c2 j2 (N & l & i & L & F1 & F) (N' & l' & i' & L' & F' & F2).
  apply A in F1, F, F', F2; try assumption. left. split; [intuition congruence|]. lia.
Qed.

(** * At the level of the subgraph *)
Section calc.
Variables (sg : subgraph) (ls : list pleaf) (bn : nat -> option (list bool)).
Hypothesis E : omap (prep_leaf (sg_mods sg)) (sg_leaves sg) = Some ls.
Lemma calc_exact0 pc pl : well_named ls -> one_index ls -> calc_bn sg bn None = Some (pc, pl) ->
  forall c j, j <> (-1)%Z -> (gone_center pc c j <-> borne ls bn c j /\ ~ lively ls bn c j).
Proof. intros W O H. destruct (calc_bn_prune _ _ _ _ _ E H) as [cc P]. exact (centers_exact _ _ _ _ _ W O P). Qed.
Lemma calc_safe0 m pc pl : well_named ls -> one_index ls -> calc_bn sg bn m = Some (pc, pl) ->
  forall c j, j <> (-1)%Z -> gone_center pc c j -> borne ls bn c j /\ ~ lively ls bn c j.
Proof. intros W O H. destruct (calc_bn_prune _ _ _ _ _ E H) as [cc P]. exact (centers_safe _ _ _ _ _ _ W O P). Qed.
Lemma calc_index_flat0 m pc pl : well_named ls -> one_index ls -> calc_bn sg bn m = Some (pc, pl) ->
  forall l i b, flat_at ls bn l i b -> gone_leaf pl (pl_name l) i -> b = true.
Proof. intros W O H. destruct (calc_bn_prune _ _ _ _ _ E H) as [cc P]. exact (bn_index_flat _ _ _ _ _ _ W O P). Qed.
Lemma calc_leaves0 m pc pl : well_named ls -> calc_bn sg bn m = Some (pc, pl) ->
  forall l i, In l ls -> pl_real l = true ->
    (gone_leaf pl (pl_name l) i <-> exists c j, gone_center pc c j /\ feeds l i c j).
Proof. intros W H. destruct (calc_bn_prune _ _ _ _ _ E H) as [cc P]. exact (leaves_exact _ _ _ _ _ _ W P). Qed.
Lemma calc_multiple0 m pc pl : calc_bn sg bn (Some m) = Some (pc, pl) ->
  forall c s, In (c, s) pc -> NoDup s /\ exists q, length s = q * m.
Proof. intros H. destruct (calc_bn_prune _ _ _ _ _ E H) as [cc P]. exact (trim_multiple _ _ _ _ _ _ P). Qed.
Lemma calc_together0 pc pl : well_named ls -> one_index ls -> cliques ls -> calc_bn sg bn None = Some (pc, pl) ->
  forall l i c j c' j', In l ls -> feeds l i c j -> feeds l i c' j' -> c <> c' ->
    (gone_center pc c j <-> gone_center pc c' j').
Proof. intros W O Q H. destruct (calc_bn_prune _ _ _ _ _ E H) as [cc P]. exact (centers_together _ _ _ _ _ W O Q P). Qed.
End calc.
Definition calc_exact sg ls bn pc pl E := @calc_exact0 sg ls bn E pc pl.
Definition calc_safe sg ls bn m pc pl E := @calc_safe0 sg ls bn E m pc pl.
Definition calc_index_flat sg ls bn m pc pl E := @calc_index_flat0 sg ls bn E m pc pl.
Definition calc_leaves sg ls bn m pc pl E := @calc_leaves0 sg ls bn E m pc pl.
Definition calc_multiple sg ls bn m pc pl E := @calc_multiple0 sg ls bn E m pc pl.
Definition calc_together sg ls bn pc pl E := @calc_together0 sg ls bn E pc pl.
