(** Proofs about [complementary_list]: when the kept indices come out ascending. *)
From Coq Require Import List Arith Bool Lia Permutation Sorted.
From Verif Require Import PruneModel MergeProofs.
Import ListNotations.
Local Open Scope nat_scope.

(** elements of a table *)
Lemma tbl_iter_In t x : In x (tbl_iter t) <-> exists i, i < length t /\ nth i t None = Some x.
Proof.
  unfold tbl_iter. rewrite in_concat. split.
  - intros (l & Hl & Hx). apply in_map_iff in Hl. destruct Hl as (o & <- & Ho).
    destruct o; [|destruct Hx]. destruct Hx as [<-|[]].
    destruct (In_nth t (Some n) None Ho) as (i & Hi & E). eauto.
  - intros (i & Hi & E). exists [x]. split; [|now left].
    apply in_map_iff. exists (Some x). split; auto. rewrite <- E. now apply nth_In.
Qed.
Lemma tbl_iter_cons o t : tbl_iter (o :: t) = match o with Some x => [x] | None => [] end ++ tbl_iter t.
Proof. reflexivity. Qed.
Lemma tbl_iter_app t u : tbl_iter (t ++ u) = tbl_iter t ++ tbl_iter u.
Proof. unfold tbl_iter. now rewrite map_app, concat_app. Qed.

Lemma tbl_iter_empty s : tbl_iter (repeat None s) = [].
Proof. induction s; auto. Qed.

Lemma lset_split {A} j (v d : A) t : j < length t ->
  exists l1 l2, t = l1 ++ nth j t d :: l2 /\ lset j v t = l1 ++ v :: l2.
Proof.
  revert j. induction t as [|x t IH]; simpl; intros j H; [lia|].
  destruct j; simpl; [exists [], t; auto|]. destruct (IH j) as (l1 & l2 & E1 & E2); [lia|].
  exists (x :: l1), l2. simpl. rewrite E2. split; auto. now rewrite E1 at 1.
Qed.
Lemma iter_lset_perm t j h :
  j < length t -> nth j t None = None -> Permutation (tbl_iter (lset j (Some h) t)) (h :: tbl_iter t).
Proof.
  intros Hj E. destruct (lset_split j (Some h) None t Hj) as (l1 & l2 & E1 & E2).
  rewrite E2, E1, E.
  rewrite !tbl_iter_app, !tbl_iter_cons. simpl. apply Permutation_sym, Permutation_middle.
Qed.

Lemma first_free_spec t k i j :
  first_free t k i = Some j -> i <= j <= i + k /\ nth j t None = None.
Proof.
  revert i. induction k as [|k IH]; simpl; intros i; destruct (nth i t None) eqn:E; intro H; try discriminate.
  - injection H as <-. split; [lia|auto].
  - apply IH in H. split; [lia|tauto].
  - injection H as <-. split; [lia|auto].
Qed.
Lemma set_slot_spec f t i p j :
  i < length t -> set_slot f t i p = Some j -> j < length t /\ nth j t None = None.
Proof.
  revert i p. induction f as [|f IH]; cbn [set_slot]; intros i p Hi H; [discriminate|].
  destruct (first_free t _ i) as [j'|] eqn:E.
  - injection H as ->. apply first_free_spec in E.
    destruct (S (i + 9) <=? length t) eqn:L; [apply Nat.leb_le in L|]; split; try tauto; lia.
  - eapply IH; [|exact H]. apply Nat.mod_upper_bound. lia.
Qed.
Lemma tbl_insert_spec t h t' :
  0 < length t -> tbl_insert t h = Some t' ->
  length t' = length t /\ Permutation (tbl_iter t') (h :: tbl_iter t).
Proof.
  unfold tbl_insert. intros L H.
  destruct (set_slot _ t _ h) as [j|] eqn:E; [|discriminate]. injection H as <-.
  apply set_slot_spec in E; [|apply Nat.mod_upper_bound; lia].
  rewrite lset_length. split; auto. apply iter_lset_perm; tauto.
Qed.

(** a table where every element sits in its own slot *)
Definition direct (t : list (option nat)) : Prop :=
  forall i x, nth i t None = Some x -> x = i.
Lemma direct_empty s : direct (repeat None s).
Proof. intros i x H. destruct (le_lt_dec s i); [rewrite nth_overflow in H by (rewrite repeat_length; auto); discriminate|].
  rewrite nth_repeat in H. discriminate. Qed.
Lemma direct_insert t h :
  direct t -> h < length t -> ~ In h (tbl_iter t) ->
  tbl_insert t h = Some (lset h (Some h) t) /\ direct (lset h (Some h) t).
Proof.
  intros D H N.
  assert (E : nth h t None = None).
  { destruct (nth h t None) as [x|] eqn:Q; auto. exfalso. apply N, tbl_iter_In. exists h. split; auto.
    pose proof (D _ _ Q). now subst. }
  split.
  - unfold tbl_insert. rewrite Nat.mod_small by auto. cbn [set_slot].
    replace (first_free t (if S (h + 9) <=? length t then 9 else 0) h) with (Some h); auto.
    destruct (S (h + 9) <=? length t); cbn [first_free]; now rewrite E.
  - intros i x. rewrite lset_nth by auto. destruct (Nat.eqb_spec i h) as [->|]; [congruence|apply D].
Qed.

(** iterating a direct table is ascending *)
Lemma direct_iter_gen t k :
  (forall i x, nth i t None = Some x -> x = k + i) ->
  StronglySorted lt (tbl_iter t) /\ Forall (fun x => k <= x < k + length t) (tbl_iter t).
Proof.
  revert k. induction t as [|o t IH]; intros k H.
  - split; constructor.
  - destruct (IH (S k)) as [S1 F1].
    { intros i x E. rewrite (H (S i) x) by auto. lia. }
    rewrite tbl_iter_cons. simpl length. destruct o as [x|]; simpl.
    + rewrite (H 0 x eq_refl), Nat.add_0_r. split.
      * constructor; auto. eapply Forall_impl; [|exact F1]. simpl. intros; lia.
      * constructor; [lia|]. eapply Forall_impl; [|exact F1]. simpl. intros; lia.
    + split; auto. eapply Forall_impl; [|exact F1]. simpl. intros; lia.
Qed.
Lemma direct_sorted t : direct t -> StronglySorted lt (tbl_iter t).
Proof. intro D. apply (direct_iter_gen t 0). exact D. Qed.

Lemma fill_gen l : forall t t',
  0 < length t ->
  fold_left (fun o h => match o with None => None | Some t => tbl_insert t h end) l (Some t) = Some t' ->
  length t' = length t /\ Permutation (tbl_iter t') (l ++ tbl_iter t).
Proof.
  induction l as [|h l IH]; simpl; intros t t' L H.
  - injection H as <-. auto.
  - destruct (tbl_insert t h) as [t1|] eqn:E.
    + destruct (tbl_insert_spec t h t1 L E) as [L1 P1].
      destruct (IH t1 t' ltac:(lia) H) as [L2 P2]. split; [lia|].
      eapply perm_trans; [exact P2|]. eapply perm_trans; [apply Permutation_app_head; exact P1|].
      apply Permutation_sym, Permutation_middle.
    + exfalso. clear -H. induction l; simpl in H; [discriminate|auto].
Qed.
Lemma fill_direct l : forall t,
  direct t -> NoDup (l ++ tbl_iter t) -> Forall (fun h => h < length t) l ->
  exists t', fold_left (fun o h => match o with None => None | Some t => tbl_insert t h end) l (Some t) = Some t' /\
             direct t' /\ length t' = length t /\ Permutation (tbl_iter t') (l ++ tbl_iter t).
Proof.
  induction l as [|h l IH]; simpl; intros t D N F.
  - exists t. auto.
  - inversion F as [|? ? Fh Fl]; subst. inversion N as [|? ? Nh Nl]; subst.
    destruct (direct_insert t h D Fh) as [E D'].
    { intro Q. apply Nh, in_app_iff. auto. }
    assert (L0 : 0 < length t) by lia.
    destruct (tbl_insert_spec t h _ L0 E) as [L1 P1]. rewrite E.
    destruct (IH (lset h (Some h) t)) as (t' & E' & D2 & L2 & P2); auto.
    + eapply Permutation_NoDup; [|exact N].
      eapply perm_trans; [|apply Permutation_app_head, Permutation_sym, P1].
      apply Permutation_middle.
    + now rewrite L1.
    + exists t'. split; auto. split; auto. split; [lia|].
      eapply perm_trans; [exact P2|]. eapply perm_trans; [apply Permutation_app_head; exact P1|].
      apply Permutation_sym, Permutation_middle.
Qed.

Lemma newsize_spec fuel : forall s m, 1 <= s -> m < s * 2 ^ fuel ->
  m < newsize fuel s m /\ s <= newsize fuel s m.
Proof.
  induction fuel as [|f IH]; cbn [newsize]; intros s m Hs Hm.
  - simpl in Hm. lia.
  - destruct (s <=? m) eqn:E; [apply Nat.leb_le in E|apply Nat.leb_gt in E; lia].
    destruct (IH (2 * s) m) as [A B]; [lia|simpl in Hm; nia|]. lia.
Qed.
Lemma newsize_ok m : m < newsize (S m) 8 m /\ 8 <= newsize (S m) 8 m.
Proof.
  apply newsize_spec; [lia|]. assert (S m < 2 ^ S m) by (apply Nat.pow_gt_lin_r; lia).
  revert H. generalize (2 ^ S m). intros; lia.
Qed.

(** The state of a set while elements of [0..n-1] are added. *)
Definition sinv (n : nat) (l : list nat) (t : list (option nat)) : Prop :=
  Permutation (tbl_iter t) l /\ 8 <= length t /\ length l * 5 < (length t - 1) * 3 /\
  (n <= length t -> direct t).

Lemma set_add_inv n l t h o :
  sinv n l t -> NoDup (h :: l) -> Forall (fun x => x < n) (h :: l) ->
  set_add (Some t) h = Some o -> sinv n (h :: l) o.
Proof.
  intros (P & L & F & D) N B H. unfold set_add in H.
  destruct (tbl_insert t h) as [t'|] eqn:E; [|discriminate].
  destruct (tbl_insert_spec t h t' ltac:(lia) E) as [L1 P1].
  assert (P2 : Permutation (tbl_iter t') (h :: l)) by (eapply perm_trans; [exact P1|now constructor]).
  assert (D1 : n <= length t' -> direct t').
  { intro Hn. destruct (direct_insert t h) as [E' D'].
    - apply D. lia.
    - inversion B; lia.
    - intro Q. inversion N; subst. apply H2. eapply Permutation_in; [exact P|exact Q].
    - rewrite E' in E. injection E as <-. auto. }
  rewrite (Permutation_length P2) in H.
  destruct (length (h :: l) * 5 <? (length t' - 1) * 3) eqn:Q.
  - injection H as <-. apply Nat.ltb_lt in Q. repeat split; auto; lia.
  - unfold tbl_resize, tbl_fill in H. set (m := length (h :: l) * 4) in *.
    destruct (newsize_ok m) as [M1 M2]. set (s := newsize (S m) 8 m) in *.
    pose proof H as H'. apply fill_gen in H'; [|rewrite repeat_length; lia].
    rewrite repeat_length, tbl_iter_empty, app_nil_r in H'. destruct H' as [L2 P3].
    assert (P4 : Permutation (tbl_iter o) (h :: l)) by (eapply perm_trans; eauto).
    repeat split; auto; try lia.
    + intro Hn. destruct (fill_direct (tbl_iter t') (repeat None s)) as (t2 & E2 & D2 & _).
      * apply direct_empty.
      * rewrite tbl_iter_empty, app_nil_r. eapply Permutation_NoDup; [apply Permutation_sym, P2|auto].
      * rewrite repeat_length. apply Forall_forall. intros x Hx.
        rewrite Forall_forall in B. assert (x < n) by (apply B; eapply Permutation_in; [exact P2|auto]). lia.
      * rewrite E2 in H. injection H as <-. auto.
Qed.

Lemma fold_add_none l : fold_left set_add l None = None.
Proof. induction l; simpl; auto. Qed.
Lemma fold_add_inv n l' : forall l t o,
  sinv n l t -> NoDup (l' ++ l) -> Forall (fun x => x < n) (l' ++ l) ->
  fold_left set_add l' (Some t) = Some o -> exists lf, Permutation lf (l' ++ l) /\ sinv n lf o.
Proof.
  induction l' as [|h l' IH]; cbn [fold_left app]; intros l t o I N B H.
  - injection H as <-. exists l. auto.
  - assert (PM : Permutation (h :: l' ++ l) (l' ++ h :: l)) by apply Permutation_middle.
    destruct (set_add (Some t) h) as [t1|] eqn:E; [|rewrite fold_add_none in H; discriminate].
    destruct (IH (h :: l) t1 o) as (lf & P & S); auto.
    + eapply set_add_inv; eauto.
      * inversion N; subst. constructor.
        -- intro K. apply H2, in_app_iff. auto.
        -- clear -H3. induction l'; simpl in *; auto. inversion H3; auto.
      * inversion B; subst. constructor; auto. apply Forall_app in H3. tauto.
    + eapply Permutation_NoDup; eauto.
    + eapply Permutation_Forall; eauto.
    + exists lf. split; auto. eapply perm_trans; [exact P|]. now apply Permutation_sym.
Qed.

Lemma sinv_empty n : sinv n [] (repeat None 8).
Proof.
  repeat split.
  - apply Permutation_refl.
  - rewrite repeat_length. lia.
  - rewrite repeat_length. simpl. lia.
  - intros _. apply direct_empty.
Qed.

Lemma sorted_perm_eq (l m : list nat) :
  StronglySorted lt l -> StronglySorted lt m -> Permutation l m -> l = m.
Proof.
  intros S1. revert m. induction S1 as [|x l S1 IH F]; intros m S2 P.
  - now apply Permutation_nil in P.
  - destruct m as [|y m]; [apply Permutation_sym, Permutation_nil in P; discriminate|].
    inversion S2 as [|? ? S2' F2]; subst. rewrite Forall_forall in F, F2.
    assert (x = y).
    { assert (Hx : In x (y :: m)) by (eapply Permutation_in; [exact P|now left]).
      assert (Hy : In y (x :: l)) by (eapply Permutation_in; [apply Permutation_sym, P|now left]).
      destruct Hx as [|Hx]; auto. destruct Hy as [|Hy]; auto.
      apply F in Hy. apply F2 in Hx. lia. }
    subst y. f_equal. apply IH; auto. eapply Permutation_cons_inv; eauto.
Qed.
Lemma seq_sorted n k : StronglySorted lt (seq k n).
Proof.
  revert k. induction n; simpl; constructor; auto. apply Forall_forall. intros x Hx.
  apply in_seq in Hx. lia.
Qed.
Lemma filter_sorted f l : StronglySorted lt l -> StronglySorted lt (filter f l).
Proof.
  induction 1 as [|x l S IH F]; simpl; [constructor|]. destruct (f x); auto. constructor; auto.
  apply Forall_forall. intros y Hy. apply filter_In in Hy. rewrite Forall_forall in F. apply F; tauto.
Qed.
Lemma sorted_NoDup l : StronglySorted lt l -> NoDup l.
Proof.
  induction 1 as [|x l S IH F]; constructor; auto. intro H. rewrite Forall_forall in F. apply F in H. lia.
Qed.

(** [set(range(n))] exists and iterates as [range(n)] *)
Lemma set_of_range_prefix n : forall k, k <= n ->
  exists t, fold_left set_add (seq 0 k) (Some (repeat None 8)) = Some t /\
            sinv n (rev (seq 0 k)) t /\ direct t /\ k <= length t.
Proof.
  induction k as [|k IH]; intro Hk.
  - exists (repeat None 8). split; [reflexivity|]. split; [apply sinv_empty|]. split; [apply direct_empty|lia].
  - destruct IH as (t & E & I & D & L); [lia|].
    rewrite seq_S, fold_left_app, E. cbn [fold_left set_add plus].
    assert (P : Permutation (tbl_iter t) (rev (seq 0 k))) by apply I.
    assert (Nk : ~ In k (tbl_iter t)).
    { intro Q. apply (Permutation_in _ P) in Q. apply in_rev, in_seq in Q. lia. }
    destruct I as (_ & L8 & F & _). rewrite rev_length, seq_length in F.
    assert (Hkl : k < length t) by lia.
    destruct (direct_insert t k D Hkl Nk) as [E1 D1].
    assert (L0 : 0 < length t) by lia.
    destruct (tbl_insert_spec t k _ L0 E1) as [L1 P1].
    rewrite E1. rewrite rev_app_distr. simpl rev. simpl app.
    assert (P2 : Permutation (tbl_iter (lset k (Some k) t)) (k :: rev (seq 0 k))) by (eapply perm_trans; [exact P1|now constructor]).
    rewrite (Permutation_length P2). simpl length. rewrite rev_length, seq_length.
    destruct (S k * 5 <? (length (lset k (Some k) t) - 1) * 3) eqn:Q.
    + apply Nat.ltb_lt in Q. eexists. split; [reflexivity|]. split; [|split; auto; lia].
      repeat split; auto; [lia|]. simpl length. now rewrite rev_length, seq_length.
    + unfold tbl_resize, tbl_fill. set (m := S k * 4). destruct (newsize_ok m) as [M1 M2].
      set (s := newsize (S m) 8 m) in *.
      destruct (fill_direct (tbl_iter (lset k (Some k) t)) (repeat None s)) as (t2 & E2 & D2 & L2 & P3).
      * apply direct_empty.
      * rewrite tbl_iter_empty, app_nil_r. eapply Permutation_NoDup; [apply Permutation_sym, P2|].
        constructor; [rewrite <- in_rev, in_seq; lia|]. apply NoDup_rev, seq_NoDup.
      * rewrite repeat_length. apply Forall_forall. intros x Hx.
        apply (Permutation_in _ P2) in Hx. unfold m in M1. destruct Hx as [<-|Hx]; [lia|].
        apply in_rev, in_seq in Hx. lia.
      * rewrite repeat_length in L2. rewrite tbl_iter_empty, app_nil_r in P3.
        exists t2. split; [exact E2|]. split; [|split; auto; unfold m in M1; lia].
        repeat split; auto; try lia.
        -- eapply perm_trans; eauto.
        -- simpl length. rewrite rev_length, seq_length. unfold m in M1. lia.
Qed.
Lemma set_of_range n : exists t, set_of (seq 0 n) = Some t /\ tbl_iter t = seq 0 n.
Proof.
  destruct (set_of_range_prefix n n (le_n _)) as (t & E & (P & _) & D & _).
  exists t. split; auto. apply sorted_perm_eq.
  - now apply direct_sorted.
  - apply seq_sorted.
  - eapply perm_trans; [exact P|]. apply Permutation_sym, Permutation_rev.
Qed.

Definition kept (n : nat) (b : list nat) : list nat := filter (fun x => negb (nmem x b)) (seq 0 n).

(** Whatever happens, the result has the right elements; and it is ascending
    when at least 60% are kept, or with at most eight channels. *)
Lemma kept_nodup n b : NoDup (kept n b).
Proof. apply NoDup_filter, seq_NoDup. Qed.
Lemma kept_bound n b : Forall (fun x => x < n) (kept n b).
Proof. apply Forall_forall. intros x H. apply filter_In in H. destruct H as [H _]. apply in_seq in H. lia. Qed.

Lemma perm_filter {A} (f : A -> bool) l m : Permutation l m -> Permutation (filter f l) (filter f m).
Proof.
  induction 1; simpl; auto.
  - destruct (f x); auto.
  - destruct (f x), (f y); auto. constructor.
  - eapply perm_trans; eauto.
Qed.

Lemma complementary_list_spec n b l :
  complementary_list n b = Some l ->
  Permutation l (kept n b) /\
  (n <= 8 \/ 3 * n <= 5 * length (kept n b) -> l = kept n b).
Proof.
  unfold complementary_list. destruct (set_of_range n) as (t & -> & ->).
  destruct (_ <? _).
  - set (s := if n * 5 <? 21 then 8 else newsize (S (2 * n)) 8 (2 * n)).
    assert (Hs : n <= s /\ 0 < s).
    { unfold s. destruct (n * 5 <? 21) eqn:Q; [apply Nat.ltb_lt in Q; lia|].
      pose proof (newsize_ok (2 * n)). lia. }
    unfold tbl_fill.
    destruct (fill_direct (seq 0 n) (repeat None s)) as (c & -> & D & L & P).
    + apply direct_empty.
    + rewrite tbl_iter_empty, app_nil_r. apply seq_NoDup.
    + rewrite repeat_length. apply Forall_forall. intros x Hx. apply in_seq in Hx. lia.
    + intro H. injection H as <-. rewrite tbl_iter_empty, app_nil_r in P.
      assert (E : tbl_iter c = seq 0 n).
      { apply sorted_perm_eq; auto. now apply direct_sorted. apply seq_sorted. }
      rewrite E. split; auto.
  - destruct (fold_left set_add _ _) as [c|] eqn:E; [|discriminate]. intro H. injection H as <-.
    fold (kept n b) in E.
    destruct (fold_add_inv n (kept n b) [] (repeat None 8) c (sinv_empty n)) as (lf & P & (P2 & L8 & F & D)); auto.
    + rewrite app_nil_r. apply kept_nodup.
    + rewrite app_nil_r. apply kept_bound.
    + rewrite app_nil_r in P. assert (P3 : Permutation (tbl_iter c) (kept n b)) by (eapply perm_trans; eauto).
      split; auto. intro Hn. apply sorted_perm_eq; auto.
      * apply direct_sorted, D. rewrite (Permutation_length P) in F. lia.
      * apply filter_sorted, seq_sorted.
Qed.
