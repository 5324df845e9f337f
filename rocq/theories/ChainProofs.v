(** Proofs about the chain-collapsing passes (transposes, gathers, reshapes, slices). *)
From Coq Require Import List Arith Lia Permutation Bool Sorted.
From Verif Require Import Tensor ChainModel.
Import ListNotations.

(* ------------------------------------------------------------------ *)
(** ** Sorting and equality helpers *)

Lemma list_eqb_spec l m : list_eqb l m = true <-> l = m.
Proof.
  revert m; induction l as [|x l IH]; intros [|y m]; simpl; split; intros H; try discriminate; auto.
  - apply andb_true_iff in H. destruct H as [H1 H2]. apply Nat.eqb_eq in H1. apply IH in H2. congruence.
  - inversion H; subst. rewrite Nat.eqb_refl. simpl. apply IH. reflexivity.
Qed.

Lemma insert_perm x l : Permutation (insert_sorted x l) (x :: l).
Proof.
  induction l as [|y l IH]; simpl; auto. destruct (x <=? y); auto.
  rewrite IH. apply perm_swap.
Qed.

Lemma np_sort_perm l : Permutation (np_sort l) l.
Proof. induction l as [|x l IH]; simpl; auto. rewrite insert_perm, IH. reflexivity. Qed.

Lemma insert_sorted_sorted x l : StronglySorted le l -> StronglySorted le (insert_sorted x l).
Proof.
  intros H; induction H as [|y l HS IH HF]; simpl.
  - constructor; constructor.
  - destruct (Nat.leb_spec x y).
    + constructor; [constructor; auto|]. constructor; auto.
      eapply Forall_impl; [|exact HF]. simpl; intros; lia.
    + constructor; auto. apply Forall_forall. intros z Hz.
      apply (Permutation_in _ (insert_perm x l)) in Hz. destruct Hz as [<-|Hz]; [lia|].
      rewrite Forall_forall in HF. auto.
Qed.

Lemma np_sort_sorted l : StronglySorted le (np_sort l).
Proof. induction l; simpl; [constructor|]. apply insert_sorted_sorted; auto. Qed.

Lemma sorted_perm_eq l m :
  StronglySorted le l -> StronglySorted le m -> Permutation l m -> l = m.
Proof.
  intros Hl; revert m; induction Hl as [|x l HS IH HF]; intros m Hm HP.
  - apply Permutation_nil in HP. congruence.
  - destruct m as [|y m]; [apply Permutation_sym, Permutation_nil in HP; discriminate|].
    inversion Hm; subst.
    assert (E : x = y).
    { assert (I1 : In x (y :: m)) by (apply (Permutation_in _ HP); left; auto).
      assert (I2 : In y (x :: l)) by (apply (Permutation_in _ (Permutation_sym HP)); left; auto).
      rewrite Forall_forall in *. destruct I1 as [<-|I1]; auto. destruct I2 as [<-|I2]; auto.
      specialize (HF _ I2). specialize (H2 _ I1). lia. }
    subst y. f_equal. apply IH; auto. apply (Permutation_cons_inv HP).
Qed.

Lemma seq_sorted a n : StronglySorted le (seq a n).
Proof.
  revert a; induction n; intros a; simpl; constructor; auto.
  apply Forall_forall. intros k Hk. apply in_seq in Hk. lia.
Qed.

Lemma sorted_is_perm n p : is_perm n p -> list_eqb p (np_sort p) = true -> p = seq 0 n.
Proof.
  intros HP HE. apply list_eqb_spec in HE. rewrite HE. apply sorted_perm_eq.
  - apply np_sort_sorted.
  - apply seq_sorted.
  - rewrite np_sort_perm. exact HP.
Qed.

(* ------------------------------------------------------------------ *)
(** ** Transposes *)

Definition fuse_from (c : list nat) (perms : list (list nat)) : list nat :=
  fold_left sel perms c.

Lemma fuse_transpose_perms_cons c perms :
  fuse_transpose_perms (c :: perms) = Some (fuse_from c perms).
Proof.
  unfold fuse_transpose_perms, fuse_from. simpl. revert c.
  induction perms as [|p perms IH]; intros c; simpl; auto.
Qed.

Lemma transpose_chain_from {A} perms : forall c (t : tensor A),
  is_perm (length (tshape t)) c -> Forall (is_perm (length (tshape t))) perms ->
  is_perm (length (tshape t)) (fuse_from c perms) /\
  teq (fold_left (fun u p => transpose p u) perms (transpose c t)) (transpose (fuse_from c perms) t).
Proof.
  induction perms as [|p perms IH]; intros c t Hc HF; simpl.
  - split; auto. apply teq_refl.
  - inversion HF; subst.
    destruct (IH (sel c p) t) as [H3 H4]; auto.
    { apply is_perm_sel; assumption. }
    split; auto.
    eapply teq_trans; [|exact H4].
    assert (Hlen : forall u : tensor A, length (tshape u) = length (tshape t) ->
              forall v, teq u v -> teq (fold_left (fun u p => transpose p u) perms u)
                                       (fold_left (fun u p => transpose p u) perms v)).
    { clear - H2. induction perms as [|q perms IHp]; intros u Hu v Huv; simpl; auto.
      inversion H2; subst. apply IHp; auto.
      - simpl. rewrite sel_length. apply is_perm_length; auto.
      - apply transpose_congr; auto. rewrite Hu; auto. }
    apply Hlen.
    + simpl. rewrite sel_length. apply is_perm_length; auto.
    + apply transpose_transpose; auto.
Qed.

Definition run_transposes {A} (perms : list (list nat)) (t : tensor A) : tensor A :=
  fold_left (fun u p => transpose p u) perms t.

Lemma transpose_chain_correct {A} (t : tensor A) perms :
  perms <> [] -> Forall (is_perm (length (tshape t))) perms ->
  exists r, fuse_simple_transpose perms = Some r /\
    teq (run_transposes perms t)
        (match r with Removed => t | Single p => transpose p t end).
Proof.
  intros HN HF. destruct perms as [|c perms]; [congruence|].
  inversion HF; subst. unfold fuse_simple_transpose. rewrite fuse_transpose_perms_cons.
  destruct (transpose_chain_from perms c t H1 H2) as [HP HT].
  eexists; split; [reflexivity|].
  unfold run_transposes; simpl.
  destruct (list_eqb _ _) eqn:E; auto.
  apply sorted_is_perm with (n := length (tshape t)) in E; auto.
  eapply teq_trans; [exact HT|]. rewrite E. apply transpose_id.
Qed.

(* ------------------------------------------------------------------ *)
(** ** Gathers *)

Definition run_gathers {A} (axis : nat) (ixs : list (list nat)) (t : tensor A) : tensor A :=
  fold_left (fun u ix => gather axis ix u) ixs t.

(** Every index vector addresses positions of the axis as it is at that point. *)
Fixpoint gathers_ok (d : nat) (ixs : list (list nat)) : Prop :=
  match ixs with
  | [] => True
  | ix :: r => Forall (fun k => k < d) ix /\ gathers_ok (length ix) r
  end.

Lemma gather_gather {A} axis ix jx (t : tensor A) :
  axis < length (tshape t) -> Forall (fun k => k < length ix) jx ->
  teq (gather axis jx (gather axis ix t)) (gather axis (sel ix jx) t).
Proof.
  intros Ha HF. split; simpl.
  - rewrite upd_upd, sel_length. reflexivity.
  - intros idx V. pose proof (valid_length _ _ V) as HL. rewrite !upd_length in HL.
    f_equal. rewrite upd_upd. f_equal. rewrite upd_nth_eq by lia.
    rewrite sel_nth; auto.
    pose proof (valid_nth _ _ axis V) as HV. rewrite !upd_length in HV.
    specialize (HV Ha). rewrite upd_nth_eq in HV; auto. rewrite upd_length; auto.
Qed.

Lemma gather_congr {A} axis ix (t u : tensor A) :
  axis < length (tshape t) -> Forall (fun k => k < nth axis (tshape t) 0) ix ->
  teq t u -> teq (gather axis ix t) (gather axis ix u).
Proof.
  intros Ha HF [HS HG]. split; simpl; [rewrite HS; auto|].
  intros idx V. apply HG. eapply valid_upd; eauto.
  rewrite Forall_forall in HF. apply HF. apply nth_In.
  pose proof (valid_nth _ _ axis V) as HV. rewrite upd_length in HV. specialize (HV Ha).
  rewrite upd_nth_eq in HV; auto.
Qed.

Lemma gathers_congr {A} axis ixs : forall (t u : tensor A),
  axis < length (tshape t) -> gathers_ok (nth axis (tshape t) 0) ixs ->
  teq t u -> teq (run_gathers axis ixs t) (run_gathers axis ixs u).
Proof.
  induction ixs as [|ix ixs IH]; intros t u Ha HO HE; simpl; auto.
  destruct HO as [H1 H2]. apply IH.
  - simpl. rewrite upd_length; auto.
  - simpl. rewrite upd_nth_eq; auto.
  - apply gather_congr; auto.
Qed.

Lemma gather_chain_from {A} axis ixs : forall c (t : tensor A),
  axis < length (tshape t) -> Forall (fun k => k < nth axis (tshape t) 0) c ->
  gathers_ok (length c) ixs ->
  teq (run_gathers axis ixs (gather axis c t)) (gather axis (fuse_from c ixs) t).
Proof.
  induction ixs as [|ix ixs IH]; intros c t Ha Hc HO; simpl.
  - apply teq_refl.
  - destruct HO as [H1 H2]. unfold run_gathers in *. simpl.
    eapply teq_trans; [|apply IH; auto].
    + apply gathers_congr.
      * simpl. rewrite !upd_length; auto.
      * simpl. rewrite upd_nth_eq; auto. rewrite upd_length; auto.
      * apply gather_gather; auto.
    + apply Forall_forall. intros k Hk. unfold sel in Hk. apply in_map_iff in Hk.
      destruct Hk as [j [<- Hj]]. rewrite Forall_forall in *. apply Hc. apply nth_In. auto.
    + rewrite sel_length. exact H2.
Qed.

Lemma gather_id {A} axis (t : tensor A) :
  axis < length (tshape t) -> teq (gather axis (seq 0 (nth axis (tshape t) 0)) t) t.
Proof.
  intros Ha. split; simpl.
  - rewrite seq_length. apply upd_same; auto.
  - intros idx V. rewrite seq_length, upd_same in V by auto.
    f_equal. rewrite seq_nth by (apply valid_nth; auto). simpl. apply upd_same.
    rewrite (valid_length _ _ V). auto.
Qed.

Lemma fuse_from_perm n ixs : forall c, is_perm n c -> Forall (is_perm n) ixs -> is_perm n (fuse_from c ixs).
Proof.
  induction ixs; intros c Hc HF; simpl; auto. inversion HF; subst. apply IHixs; auto.
  apply is_perm_sel; auto.
Qed.

(** Right whenever something is left of the chain, and right when every index
    vector is a permutation of the axis. *)
Lemma gather_chain_partial {A} axis ixs (t : tensor A) :
  ixs <> [] -> axis < length (tshape t) ->
  gathers_ok (nth axis (tshape t) 0) ixs ->
  exists r, fuse_simple_gather ixs = Some r /\
    ((r <> Removed \/ Forall (is_perm (nth axis (tshape t) 0)) ixs) ->
     teq (run_gathers axis ixs t)
         (match r with Removed => t | Single p => gather axis p t end)).
Proof.
  intros HN Ha HO. destruct ixs as [|c ixs]; [congruence|].
  destruct HO as [H1 H2]. unfold fuse_simple_gather. rewrite fuse_transpose_perms_cons.
  pose proof (gather_chain_from axis ixs c t Ha H1 H2) as HT.
  eexists; split; [reflexivity|].
  destruct (list_eqb _ _) eqn:E; auto.
  intros [H|HF]; [congruence|].
  inversion HF; subst.
  apply sorted_is_perm with (n := nth axis (tshape t) 0) in E; [|apply fuse_from_perm; auto].
  eapply teq_trans; [exact HT|]. rewrite E. apply gather_id; auto.
Qed.

(* ------------------------------------------------------------------ *)
(** ** Reshapes *)

Definition run_reshapes {A} (shapes : list (list nat)) (t : tensor A) : tensor A :=
  fold_left (fun u s => reshape s u) shapes t.

Lemma run_reshapes_last {A} shapes : forall (t : tensor A) s,
  Forall (fun s => prod s = prod (tshape t)) (shapes ++ [s]) ->
  teq (run_reshapes (shapes ++ [s]) t) (reshape s t).
Proof.
  induction shapes as [|s1 shapes IH]; intros t s HF; simpl.
  - apply teq_refl.
  - simpl in HF. inversion HF; subst.
    assert (HF' : Forall (fun s0 : list nat => prod s0 = prod (tshape (reshape s1 t))) (shapes ++ [s])).
    { simpl. eapply Forall_impl; [|exact H2]. simpl; intros. congruence. }
    eapply teq_trans; [apply IH; exact HF'|].
    apply reshape_reshape; auto.
    apply Forall_app in H2. destruct H2 as [_ H2]. inversion H2; auto.
Qed.

Lemma reshape_chain_correct {A} shapes (t : tensor A) :
  shapes <> [] -> Forall (fun s => prod s = prod (tshape t)) shapes ->
  exists r, fuse_simple_reshape (tshape t) shapes = Some r /\
    teq (run_reshapes shapes t)
        (match r with Removed => t | Single s => reshape s t end).
Proof.
  intros HN HF. destruct (exists_last HN) as [l [s ->]].
  unfold fuse_simple_reshape. rewrite rev_app_distr. simpl.
  eexists; split; [reflexivity|].
  pose proof (run_reshapes_last l t s HF) as HT.
  destruct (list_eqb _ _) eqn:E; auto. apply list_eqb_spec in E. subst s.
  eapply teq_trans; [exact HT|]. apply reshape_id.
Qed.

(* ------------------------------------------------------------------ *)
(** ** Slices *)

(** SLICE(start, size): the documented meaning, stated without strided slices. *)
Definition slice_op {A} (start size : list nat) (t : tensor A) : tensor A :=
  mkT size (fun idx => tget t (map2 Nat.add start idx)).

Definition run_node {A} (n : slice_node) (t : tensor A) : tensor A :=
  match n with
  | NSlice s z => slice_op s z t
  | NStrided s e st => strided_slice s e st t
  end.
Definition run_slices {A} (nodes : list slice_node) (t : tensor A) : tensor A :=
  fold_left (fun u n => run_node n u) nodes t.

(** An operator instance TFLite accepts on a tensor of shape [sh]. *)
Definition node_ok (sh : list nat) (n : slice_node) : Prop :=
  match n with
  | NSlice s z => length s = length sh /\ length z = length sh /\
      forall k, k < length sh -> nth k s 0 + nth k z 0 <= nth k sh 0
  | NStrided s e st => length s = length sh /\ length e = length sh /\ length st = length sh /\
      forall k, k < length sh ->
        nth k s 0 <= nth k e 0 /\ nth k e 0 <= nth k sh 0 /\ 1 <= nth k st 0
  end.
Fixpoint slices_ok {A} (t : tensor A) (nodes : list slice_node) : Prop :=
  match nodes with
  | [] => True
  | n :: r => node_ok (tshape t) n /\ slices_ok (run_node n t) r
  end.

Lemma map2_length {A B C} (f : A -> B -> C) l m :
  length l = length m -> length (map2 f l m) = length l.
Proof. revert m; induction l; intros [|b m] H; simpl in *; auto; try discriminate. Qed.

Lemma map2_nth (f : nat -> nat -> nat) l m k :
  length l = length m -> k < length l -> nth k (map2 f l m) 0 = f (nth k l 0) (nth k m 0).
Proof.
  revert m k; induction l; intros [|b m] k H Hk; simpl in *; try lia; try discriminate.
  destruct k; auto. apply IHl; lia.
Qed.

Lemma nth_const (c : nat) (l : list nat) k : k < length l -> nth k (map (fun _ => c) l) 0 = c.
Proof. revert k; induction l; intros k Hk; simpl in *; [lia|]. destruct k; auto. apply IHl; lia. Qed.

Lemma slice_shape_length sh s e st :
  length s = length sh -> length e = length sh -> length st = length sh ->
  length (slice_shape sh s e st) = length sh.
Proof.
  revert s e st; induction sh; intros [|? s] [|? e] [|? st] H1 H2 H3; simpl in *; auto; try discriminate.
Qed.

Lemma slice_shape_nth sh s e st k :
  length s = length sh -> length e = length sh -> length st = length sh -> k < length sh ->
  nth k (slice_shape sh s e st) 0 = slice_dim (nth k sh 0) (nth k s 0) (nth k e 0) (nth k st 0).
Proof.
  revert s e st k; induction sh; intros [|? s] [|? e] [|? st] k H1 H2 H3 Hk; simpl in *; try lia; try discriminate.
  destruct k; auto. apply IHsh; lia.
Qed.

Lemma slice_idx_length idx s st :
  length s = length idx -> length st = length idx -> length (slice_idx idx s st) = length idx.
Proof.
  revert s st; induction idx; intros [|? s] [|? st] H1 H2; simpl in *; auto; try discriminate.
Qed.

Lemma slice_idx_nth idx s st k :
  length s = length idx -> length st = length idx -> k < length idx ->
  nth k (slice_idx idx s st) 0 = nth k s 0 + nth k st 0 * nth k idx 0.
Proof.
  revert s st k; induction idx; intros [|? s] [|? st] k H1 H2 Hk; simpl in *; try lia; try discriminate.
  destruct k; auto. apply IHidx; lia.
Qed.

Lemma slice_dim_compose d a b c a2 b2 c2 :
  1 <= c -> 1 <= c2 ->
  slice_dim (slice_dim d a b c) a2 b2 c2 = slice_dim d (a + a2 * c) (Nat.min b (a + b2 * c)) (c * c2).
Proof.
  intros Hc Hc2. unfold slice_dim at 1 3.
  apply cdiv_ext; [lia|nia|]. intros i.
  assert (HS : forall x, x < slice_dim d a b c <-> c * x < Nat.min b d - a).
  { intros x. unfold slice_dim. apply cdiv_spec. lia. }
  specialize (HS (a2 + c2 * i)).
  remember (slice_dim d a b c) as n1. clear Heqn1.
  split; intros H.
  - assert (H1 : a2 + c2 * i < n1) by lia. apply HS in H1.
    assert (H2 : a2 + c2 * i < b2) by lia.
    nia.
  - assert (H1 : c * (a2 + c2 * i) < Nat.min b d - a) by nia.
    apply HS in H1.
    assert (H2 : c * (a2 + c2 * i) < c * b2) by nia.
    assert (H3 : a2 + c2 * i < b2) by nia. lia.
Qed.

(** The step on strided slices. *)
Lemma strided_compose {A} (t : tensor A) s e st s2 e2 st2 :
  let n := length (tshape t) in
  length s = n -> length e = n -> length st = n ->
  length s2 = n -> length e2 = n -> length st2 = n ->
  (forall k, k < n -> 1 <= nth k st 0) -> (forall k, k < n -> 1 <= nth k st2 0) ->
  teq (strided_slice s2 e2 st2 (strided_slice s e st t))
      (strided_slice (vadd s (vmul s2 st)) (vmin e (vadd s (vmul e2 st))) (vmul st st2) t).
Proof.
  intros n H1 H2 H3 H4 H5 H6 Hst Hst2.
  assert (L1 : length (vmul s2 st) = n) by (unfold vmul; rewrite map2_length; lia).
  assert (L2 : length (vmul e2 st) = n) by (unfold vmul; rewrite map2_length; lia).
  assert (L3 : length (vmul st st2) = n) by (unfold vmul; rewrite map2_length; lia).
  assert (L4 : length (vadd s (vmul s2 st)) = n) by (unfold vadd; rewrite map2_length; lia).
  assert (L5 : length (vadd s (vmul e2 st)) = n) by (unfold vadd; rewrite map2_length; lia).
  assert (L6 : length (vmin e (vadd s (vmul e2 st))) = n) by (unfold vmin; rewrite map2_length; lia).
  assert (ES : slice_shape (slice_shape (tshape t) s e st) s2 e2 st2 =
     slice_shape (tshape t) (vadd s (vmul s2 st)) (vmin e (vadd s (vmul e2 st))) (vmul st st2)).
  { assert (LS : length (slice_shape (tshape t) s e st) = n) by (apply slice_shape_length; auto).
    apply list_eq_nth.
    - rewrite !slice_shape_length; try rewrite LS; auto.
    - intros k Hk. rewrite slice_shape_length in Hk; try rewrite LS; auto. rewrite LS in Hk.
      rewrite slice_shape_nth; try rewrite LS; auto.
      rewrite !slice_shape_nth; auto.
      rewrite slice_dim_compose; auto.
      unfold vadd, vmul, vmin in *.
      repeat (rewrite map2_nth; [|lia|lia]). reflexivity. }
  split.
  - exact ES.
  - simpl. intros idx V. pose proof (valid_length _ _ V) as HL.
    rewrite slice_shape_length in HL; try (rewrite slice_shape_length; auto).
    rewrite slice_shape_length in HL; auto. fold n in HL.
    f_equal. apply list_eq_nth.
    + rewrite !slice_idx_length; try lia; rewrite slice_idx_length; lia.
    + intros k Hk.
      assert (LI : length (slice_idx idx s2 st2) = n) by (rewrite slice_idx_length; lia).
      rewrite slice_idx_length in Hk by lia. rewrite LI in Hk.
      rewrite !slice_idx_nth by lia.
      unfold vadd, vmul in *.
      repeat (rewrite map2_nth; [|lia|lia]). ring.
Qed.

Lemma slice_as_strided {A} (t : tensor A) s z :
  node_ok (tshape t) (NSlice s z) ->
  teq (slice_op s z t) (strided_slice s (vadd s z) (map (fun _ => 1) s) t).
Proof.
  intros [H1 [H2 H3]].
  assert (L1 : length (vadd s z) = length (tshape t)) by (unfold vadd; rewrite map2_length; lia).
  assert (L2 : length (map (fun _ : nat => 1) s) = length (tshape t)) by (rewrite map_length; auto).
  assert (N1 : forall k, k < length (tshape t) -> nth k (map (fun _ : nat => 1) s) 0 = 1).
  { intros k Hk. apply nth_const. lia. }
  split; simpl.
  - apply list_eq_nth.
    + rewrite slice_shape_length; auto.
    + intros k Hk. rewrite slice_shape_nth; auto; try lia. rewrite N1 by lia.
      unfold vadd. rewrite map2_nth by lia. unfold slice_dim.
      specialize (H3 k). rewrite Nat.min_l by lia. unfold cdiv.
      rewrite Nat.div_1_r. lia.
  - intros idx V. pose proof (valid_length _ _ V) as HL. f_equal. apply list_eq_nth.
    + rewrite map2_length, slice_idx_length; lia.
    + intros k Hk. rewrite map2_length in Hk by lia. rewrite map2_nth by lia.
      rewrite slice_idx_nth by lia. rewrite N1 by lia. lia.
Qed.

(** Loop invariant: the chain so far equals one strided slice of the first operand. *)
Definition sl_inv {A} (t0 cur : tensor A) (st : list nat * list nat * list nat) : Prop :=
  let '(s, e, c) := st in
  let n := length (tshape t0) in
  length s = n /\ length e = n /\ length c = n /\
  (forall k, k < n -> 1 <= nth k c 0 /\ nth k e 0 <= nth k (tshape t0) 0 /\
                      (nth k c 0 = 1 -> nth k s 0 <= nth k e 0)) /\
  teq cur (strided_slice s e c t0).

Definition node_end (n : slice_node) := match n with NSlice s z => vadd s z | NStrided _ e _ => e end.
Definition node_strides (n : slice_node) :=
  match n with NSlice s _ => map (fun _ => 1) s | NStrided _ _ c => c end.

Lemma node_facts {A} (t : tensor A) n :
  node_ok (tshape t) n ->
  length (node_start n) = length (tshape t) /\ length (node_end n) = length (tshape t) /\
  length (node_strides n) = length (tshape t) /\
  (forall k, k < length (tshape t) -> 1 <= nth k (node_strides n) 0 /\
     nth k (node_end n) 0 <= nth k (tshape t) 0 /\ nth k (node_start n) 0 <= nth k (node_end n) 0) /\
  teq (run_node n t) (strided_slice (node_start n) (node_end n) (node_strides n) t).
Proof.
  intros HO. destruct n as [s z|s e c].
  - pose proof (slice_as_strided t s z HO) as HT. destruct HO as [H1 [H2 H3]]. simpl.
    assert (L1 : length (vadd s z) = length (tshape t)) by (unfold vadd; rewrite map2_length; lia).
    repeat split; auto; try (rewrite map_length; auto); try apply HT.
    + rewrite nth_const by lia. lia.
    + unfold vadd. rewrite map2_nth by lia. auto.
    + unfold vadd. rewrite map2_nth by lia. lia.
  - destruct HO as [H1 [H2 [H3 H4]]]. simpl.
    repeat split; auto; try (apply H4; auto).
Qed.

Lemma strided_congr {A} (t u : tensor A) s e st :
  length s = length (tshape t) -> length e = length (tshape t) -> length st = length (tshape t) ->
  (forall k, k < length (tshape t) -> 1 <= nth k st 0) ->
  teq t u -> teq (strided_slice s e st t) (strided_slice s e st u).
Proof.
  intros H1 H2 H3 Hst [HS HG]. split; simpl; [rewrite HS; auto|].
  intros idx V. apply HG. pose proof (valid_length _ _ V) as HL.
  rewrite slice_shape_length in HL; auto.
  apply valid_intro.
  - rewrite slice_idx_length; lia.
  - intros k Hk. rewrite slice_idx_nth by lia.
    pose proof (valid_nth _ _ k V) as HV. rewrite slice_shape_length in HV; auto.
    specialize (HV Hk). rewrite slice_shape_nth in HV; auto.
    unfold slice_dim in HV. apply cdiv_spec in HV; [lia|]. specialize (Hst k Hk). lia.
Qed.

Lemma node_ok_shape {A} (t u : tensor A) n : tshape t = tshape u -> node_ok (tshape t) n -> node_ok (tshape u) n.
Proof. intros ->; auto. Qed.

Lemma run_node_congr {A} (t u : tensor A) n :
  node_ok (tshape t) n -> teq t u -> teq (run_node n t) (run_node n u).
Proof.
  intros HO HE. pose proof (node_facts t n HO) as [L1 [L2 [L3 [F HT]]]].
  pose proof (node_ok_shape t u n (proj1 HE) HO) as HO'.
  pose proof (node_facts u n HO') as [_ [_ [_ [_ HU]]]].
  eapply teq_trans; [exact HT|]. eapply teq_trans; [|apply teq_sym; exact HU].
  apply strided_congr; auto. intros k Hk. apply F; auto.
Qed.

Lemma fuse_step_inv {A} (t0 cur : tensor A) st n :
  sl_inv t0 cur st -> node_ok (tshape cur) n ->
  exists st', fuse_slices_step (Some st) n = Some st' /\ sl_inv t0 (run_node n cur) st'.
Proof.
  destruct st as [[s e] c]. intros [H1 [H2 [H3 [H4 HT]]]] HO.
  set (n0 := length (tshape t0)) in *.
  pose proof (node_facts cur n HO) as [L1 [L2 [L3 [F HN]]]].
  assert (HSh : tshape cur = slice_shape (tshape t0) s e c) by apply HT.
  assert (HLc : length (tshape cur) = n0) by (rewrite HSh; apply slice_shape_length; auto).
  rewrite HLc in *.
  assert (EN : fuse_slices_step (Some (s, e, c)) n =
     Some (vadd s (vmul (node_start n) c), vmin e (vadd s (vmul (node_end n) c)), vmul c (node_strides n))).
  { destruct n; reflexivity. }
  eexists; split; [exact EN|].
  assert (LM : forall a b, length a = n0 -> length b = n0 -> length (vmul a b) = n0)
    by (intros; unfold vmul; rewrite map2_length; lia).
  assert (LA : forall a b, length a = n0 -> length b = n0 -> length (vadd a b) = n0)
    by (intros; unfold vadd; rewrite map2_length; lia).
  assert (LI : forall a b, length a = n0 -> length b = n0 -> length (vmin a b) = n0)
    by (intros; unfold vmin; rewrite map2_length; lia).
  repeat split; auto.
  - unfold vmul. rewrite map2_nth by lia. specialize (H4 k H). specialize (F k H). nia.
  - unfold vmin, vadd, vmul. rewrite map2_nth; [|rewrite map2_length; [lia|rewrite map2_length; lia]|lia].
    specialize (H4 k H). lia.
  - unfold vmin, vadd, vmul.
    intros Hk1. rewrite map2_nth in Hk1 by lia.
    rewrite !map2_nth; try lia; try (rewrite !map2_length; lia);
      try (rewrite map2_length; [lia|rewrite map2_length; lia]).
    specialize (H4 k H) as [G1 [G2 G3]]. specialize (F k H) as [F1 [F2 F3]].
    assert (C1 : nth k c 0 = 1) by nia. specialize (G3 C1). rewrite C1.
    rewrite HSh in F2. rewrite slice_shape_nth in F2; auto.
    unfold slice_dim in F2. rewrite C1 in F2. unfold cdiv in F2. rewrite Nat.div_1_r in F2. lia.
  - apply (teq_trans _ (strided_slice (node_start n) (node_end n) (node_strides n) cur)); [exact HN|].
    apply (teq_trans _ (strided_slice (node_start n) (node_end n) (node_strides n) (strided_slice s e c t0))).
    + apply strided_congr; try lia; auto. intros k Hk. apply F. lia.
    + apply strided_compose; auto.
      * intros k Hk. apply H4; auto.
      * intros k Hk. apply F; auto.
  - apply (teq_trans _ (strided_slice (node_start n) (node_end n) (node_strides n) cur)); [exact HN|].
    apply (teq_trans _ (strided_slice (node_start n) (node_end n) (node_strides n) (strided_slice s e c t0))).
    + apply strided_congr; try lia; auto. intros k Hk. apply F. lia.
    + apply strided_compose; auto.
      * intros k Hk. apply H4; auto.
      * intros k Hk. apply F; auto.
Qed.

Lemma vadd_zeros_ones (l m : list nat) :
  length l = length m ->
  vadd (map (fun _ => 0) m) (vmul l (map (fun _ => 1) m)) = l.
Proof.
  revert m; induction l; intros [|b m] H; simpl in *; try discriminate; auto.
  unfold vadd, vmul in *. simpl. rewrite Nat.mul_1_r. f_equal. apply IHl. lia.
Qed.

Lemma fuse_first_inv {A} (t0 : tensor A) n :
  node_ok (tshape t0) n ->
  exists st', fuse_slices_step None n = Some st' /\ sl_inv t0 (run_node n t0) st'.
Proof.
  intros HO. pose proof (node_facts t0 n HO) as [L1 [L2 [L3 [F HN]]]].
  assert (EN : fuse_slices_step None n = Some (node_start n, node_end n, node_strides n)).
  { destruct n as [s z|s e c]; cbn [node_start node_end node_strides] in *;
      unfold fuse_slices_step; cbn [node_start].
    - rewrite vadd_zeros_ones; auto. lia.
    - rewrite vadd_zeros_ones; auto. lia. }
  eexists; split; [exact EN|]. repeat split; auto; try (intros; apply F; auto); try apply HN.
Qed.

Lemma fuse_slices_inv {A} (t0 : tensor A) nodes : forall cur st,
  sl_inv t0 cur st -> slices_ok cur nodes ->
  exists st', fold_left fuse_slices_step nodes (Some st) = Some st' /\ sl_inv t0 (run_slices nodes cur) st'.
Proof.
  induction nodes as [|n nodes IH]; intros cur st HI HO; simpl.
  - eauto.
  - destruct HO as [H1 H2].
    destruct (fuse_step_inv t0 cur st n HI H1) as [st' [E HI']].
    rewrite E. apply IH; auto.
Qed.

Lemma forallb_ones l : forallb (fun x => x =? 1) l = true -> forall k, k < length l -> nth k l 0 = 1.
Proof.
  induction l; intros H k Hk; simpl in *; [lia|].
  apply andb_true_iff in H. destruct H as [H1 H2]. apply Nat.eqb_eq in H1.
  destruct k; auto. apply IHl; auto. lia.
Qed.

Lemma slice_chain_correct {A} (t : tensor A) nodes :
  nodes <> [] -> slices_ok t nodes ->
  exists n, fuse_simple_slice nodes = Some n /\
            (forall s z, n = NSlice s z -> node_ok (tshape t) n) /\
            teq (run_slices nodes t) (run_node n t).
Proof.
  intros HN HO. destruct nodes as [|n nodes]; [congruence|].
  destruct HO as [H1 H2].
  destruct (fuse_first_inv t n H1) as [st [E HI]].
  destruct (fuse_slices_inv t nodes _ _ HI H2) as [[[s e] c] [E2 HI2]].
  unfold fuse_simple_slice, fuse_slices. simpl fold_left. rewrite E, E2.
  destruct HI2 as [L1 [L2 [L3 [F HT]]]].
  eexists; split; [reflexivity|].
  destruct (forallb _ c) eqn:EF.
  - pose proof (forallb_ones _ EF) as N1.
    assert (LV : length (vsub e s) = length (tshape t)) by (unfold vsub; rewrite map2_length; lia).
    assert (HO' : node_ok (tshape t) (NSlice s (vsub e s))).
    { repeat split; auto. intros k Hk. unfold vsub. rewrite map2_nth by lia.
      specialize (F k Hk) as [F1 [F2 F3]]. rewrite N1 in F3 by lia. lia. }
    split; [intros; subst; exact HO'|].
    eapply teq_trans; [exact HT|]. apply teq_sym.
    eapply teq_trans; [apply slice_as_strided; exact HO'|].
    assert (E1 : vadd s (vsub e s) = e).
    { apply list_eq_nth; [unfold vadd; rewrite map2_length; lia|].
      intros k Hk. unfold vadd in *. rewrite map2_length in Hk by lia.
      rewrite map2_nth by lia. unfold vsub. rewrite map2_nth by lia.
      specialize (F k) as [F1 [F2 F3]]; [lia|]. rewrite N1 in F3 by lia. lia. }
    assert (E3 : map (fun _ => 1) s = c).
    { apply list_eq_nth; [rewrite map_length; lia|].
      intros k Hk. rewrite map_length in Hk. rewrite N1 by lia.
      apply nth_const; lia. }
    rewrite E1, E3. apply teq_refl.
  - split; [intros; discriminate|]. exact HT.
Qed.
