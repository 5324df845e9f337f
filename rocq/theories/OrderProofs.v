(** The kept channels seen through concatenation and flattening; per-group slices; gate rows. *)
From Coq Require Import List Arith Bool ZArith Lia Permutation Sorted.
From Verif Require Import PruneModel MergeProofs SetOrderProofs SetTermProofs SmallestProofs.
Import ListNotations.
Local Open Scope nat_scope.

Lemma nmem_In x l : nmem x l = true <-> In x l.
Proof.
  unfold nmem. rewrite existsb_exists. split.
  - intros (y & H & E). apply Nat.eqb_eq in E. now subst.
  - intro H. exists x. split; auto. apply Nat.eqb_refl.
Qed.
Lemma nmem_ext x y l l' : (In x l <-> In y l') -> nmem x l = nmem y l'.
Proof.
  intro H. destruct (nmem x l) eqn:A, (nmem y l') eqn:B; auto; exfalso.
  - apply nmem_In, H, nmem_In in A. congruence.
  - apply nmem_In, H, nmem_In in B. congruence.
Qed.
Lemma kept_unfold n b : kept n b = filter (fun x => negb (nmem x b)) (seq 0 n).
Proof. reflexivity. Qed.

Lemma filter_map {A B} (f : B -> bool) (g : A -> B) l : filter f (map g l) = map g (filter (fun x => f (g x)) l).
Proof. induction l; simpl; auto. destruct (f (g a)); simpl; now rewrite IHl. Qed.

Lemma filter_false {A} (l : list A) : filter (fun _ => false) l = [].
Proof. now induction l. Qed.
Lemma filter_true {A} (l : list A) : filter (fun _ => true) l = l.
Proof. induction l; simpl; congruence. Qed.

(** concatenation *)
Lemma kept_concat n1 n2 r1 r2 : Forall (fun x => x < n1) r1 ->
  kept (n1 + n2) (r1 ++ map (fun x => n1 + x) r2) = kept n1 r1 ++ map (fun x => n1 + x) (kept n2 r2).
Proof.
  intro F. rewrite !kept_unfold, seq_app, filter_app. f_equal.
  - apply filter_ext_in. intros x Hx. apply in_seq in Hx. f_equal. apply nmem_ext.
    rewrite in_app_iff, in_map_iff. split; [|auto]. intros [H|(y & E & _)]; [auto|lia].
  - replace (seq (0 + n1) n2) with (map (fun x => n1 + x) (seq 0 n2)).
    + rewrite filter_map. f_equal. apply filter_ext. intro x. f_equal. apply nmem_ext.
      rewrite in_app_iff, in_map_iff. split.
      * intros [H|(y & E & H)]; [|now replace x with y by lia].
        rewrite Forall_forall in F. apply F in H. lia.
      * intro H. right. exists x. auto.
    + clear. generalize 0 as a. induction n2; intro a; simpl; auto. f_equal; [lia|].
      apply IHn2.
Qed.

(** flattening: channel [c] becomes the [s] features [c*s .. c*s+s-1] *)
Definition flat (s : nat) (l : list nat) : list nat := flat_map (fun c => seq (c * s) s) l.
Lemma flat_In s l x : In x (flat s l) <-> 0 < s /\ In (x / s) l.
Proof.
  unfold flat. rewrite in_flat_map. split.
  - intros (c & Hc & Hx). apply in_seq in Hx. split; [lia|].
    replace (x / s) with c; auto.
    apply Nat.div_unique with (x - c * s); lia.
  - intros (Hs & H). exists (x / s). split; auto. apply in_seq.
    pose proof (Nat.div_mod x s). pose proof (Nat.mod_upper_bound x s). lia.
Qed.
Lemma flat_seq s n : flat s (seq 0 n) = seq 0 (n * s).
Proof.
  induction n; auto. rewrite Nat.mul_succ_l, seq_S, seq_app. unfold flat in *.
  rewrite flat_map_app, IHn. simpl. now rewrite app_nil_r.
Qed.
Lemma kept_flat s n r : kept (n * s) (flat s r) = flat s (kept n r).
Proof.
  rewrite !kept_unfold, <- flat_seq. generalize (seq 0 n). intro l.
  induction l as [|c l IH]; simpl; auto. unfold flat in *. simpl. rewrite filter_app, IH.
  assert (E : forall x, In x (seq (c * s) s) -> nmem x (flat_map (fun c0 => seq (c0 * s) s) r) = nmem c r).
  { intros x Hx. apply nmem_ext. change (In x (flat s r) <-> In c r). rewrite flat_In. apply in_seq in Hx.
    replace (x / s) with c; [intuition lia|]. apply Nat.div_unique with (x - c * s); lia. }
  destruct (nmem c r); simpl.
  - rewrite (filter_ext_in _ (fun _ => false)); [now rewrite filter_false|].
    intros x Hx. now rewrite E.
  - f_equal. rewrite (filter_ext_in _ (fun _ => true)); [now rewrite filter_true|].
    intros x Hx. now rewrite E.
Qed.
Lemma flat_length s l : length (flat s l) = length l * s.
Proof. unfold flat. induction l; simpl; auto. rewrite app_length, seq_length, IHl. reflexivity. Qed.

(** the kept channels are stored in ascending order *)
Definition few_removed (n : nat) (r : list nat) : Prop :=
  n <= 8 \/ 3 * n <= 5 * length (filter (fun x => negb (existsb (Nat.eqb x) r)) (seq 0 n)).

Lemma order_concat n1 n2 r1 r2 :
  Forall (fun x => x < n1) r1 -> few_removed n1 r1 -> few_removed n2 r2 ->
  few_removed (n1 + n2) (r1 ++ map (fun x => n1 + x) r2) ->
  exists l1 l2,
    complementary_list n1 r1 = Some l1 /\ complementary_list n2 r2 = Some l2 /\
    complementary_list (n1 + n2) (r1 ++ map (fun x => n1 + x) r2) = Some (l1 ++ map (fun x => n1 + x) l2).
Proof.
  intros F H1 H2 H3.
  destruct (complementary_list_correct n1 r1) as (l1 & -> & _ & E1).
  destruct (complementary_list_correct n2 r2) as (l2 & -> & _ & E2).
  destruct (complementary_list_correct (n1 + n2) (r1 ++ map (fun x => n1 + x) r2)) as (l3 & -> & _ & E3).
  exists l1, l2. split; auto. split; auto. f_equal. rewrite E1, E2, E3; auto. now apply kept_concat.
Qed.
Lemma order_flat n s r :
  few_removed n r -> (8 < n \/ few_removed (n * s) (flat s r)) ->
  exists l, complementary_list n r = Some l /\ complementary_list (n * s) (flat s r) = Some (flat s l).
Proof.
  intros H1 H2.
  destruct (complementary_list_correct n r) as (l1 & -> & _ & E1).
  destruct (complementary_list_correct (n * s) (flat s r)) as (l2 & -> & _ & E2).
  exists l1. split; auto. f_equal. rewrite E1, E2; auto; [apply kept_flat|].
  destruct H2 as [H2|H2]; [|exact H2].
  destruct H1 as [H1|H1]; [lia|]. right. rewrite kept_flat, flat_length. unfold kept, nmem. nia.
Qed.
Lemma order_perm n r :
  exists l, complementary_list n r = Some l /\ NoDup l /\ forall x, In x l <-> x < n /\ ~ In x r.
Proof.
  destruct (complementary_list_correct n r) as (l & E & P & _). exists l. split; auto. split.
  - eapply Permutation_NoDup; [apply Permutation_sym, P|]. unfold kept. apply NoDup_filter, seq_NoDup.
  - intro x. split.
    + intro H. apply (Permutation_in _ P) in H. rewrite kept_unfold in H. apply filter_In in H.
      destruct H as [H1 H2]. apply in_seq in H1. split; [lia|]. intro Q. apply nmem_In in Q. now rewrite Q in H2.
    + intros [H1 H2]. apply (Permutation_in _ (Permutation_sym P)). rewrite kept_unfold. apply filter_In.
      split; [apply in_seq; lia|]. destruct (nmem x r) eqn:Q; auto. apply nmem_In in Q. tauto.
Qed.

(** *** slices per group *)
Fixpoint stacked (width g : nat) (per : list (list nat)) : list nat :=
  match per with
  | [] => []
  | l :: r => map (fun x => width * g + x) l ++ stacked width (S g) r
  end.
Lemma stacked_slice k width : forall per g i,
  Forall (fun l => length l = k) per -> i < length per ->
  firstn k (skipn (k * i) (stacked width g per)) = map (fun x => width * (g + i) + x) (nth i per []).
Proof.
  induction per as [|l per IH]; intros g i F Hi; simpl in Hi; [lia|].
  inversion F; subst. cbn [stacked]. destruct i as [|i].
  - rewrite Nat.mul_0_r, Nat.add_0_r. cbn [skipn nth].
    rewrite firstn_app, map_length, Nat.sub_diag, firstn_O, app_nil_r.
    apply firstn_all2. now rewrite map_length.
  - cbn [nth]. rewrite skipn_app, map_length.
    rewrite skipn_all2 by (rewrite map_length; nia).
    replace (length l * S i - length l) with (length l * i) by lia. simpl.
    rewrite IH by (auto; lia). apply map_ext. intro. f_equal. f_equal. lia.
Qed.
Lemma stacked_length width k : forall per g,
  Forall (fun l => length l = k) per -> length (stacked width g per) = length per * k.
Proof.
  induction per as [|l per IH]; intros g F; auto. inversion F; subst. simpl.
  now rewrite app_length, map_length, IH.
Qed.
Lemma group_slice_correct width k per i :
  Forall (fun l => length l = k) per -> i < length per ->
  group_remove_slice (stacked width 0 per) (length per) width i = map Z.of_nat (nth i per []).
Proof.
  intros F Hi. unfold group_remove_slice. rewrite (stacked_length _ k) by auto.
  replace (length per * k / length per) with k by (rewrite Nat.mul_comm, Nat.div_mul; lia).
  rewrite (stacked_slice k) by auto. rewrite map_map. apply map_ext. intro x. simpl. lia.
Qed.

Lemma stacked_concat width : forall per g,
  stacked width g per =
  concat (map (fun j => map (fun x => width * (g + j) + x) (nth j per [])) (seq 0 (length per))).
Proof.
  induction per as [|l per IH]; intro g; [reflexivity|]. cbn [stacked length seq map concat nth].
  rewrite Nat.add_0_r. f_equal. rewrite IH, <- seq_shift, map_map. f_equal. apply map_ext. intro j.
  cbn [nth]. apply map_ext. intro x. f_equal. f_equal. lia.
Qed.
Lemma group_slice_concat width k per i :
  Forall (fun l => length l = k) per -> i < length per ->
  group_remove_slice
    (concat (map (fun g => map (fun x => width * g + x) (nth g per [])) (seq 0 (length per))))
    (length per) width i = map Z.of_nat (nth i per []).
Proof.
  intros F Hi. rewrite <- (group_slice_correct width k per i F Hi). f_equal.
  rewrite stacked_concat. reflexivity.
Qed.

(** *** recurrent layers *)
Lemma tile_rows indices gs offset j :
  Forall (fun i => i < offset) indices ->
  (In j (tile_indices_with_gate_size indices gs offset) <-> j < gs * offset /\ In (j mod offset) indices).
Proof.
  intro F. rewrite Forall_forall in F. rewrite tile_correct. split.
  - intros (g & i & Hg & Hi & ->). specialize (F i Hi). split; [nia|].
    rewrite Nat.add_comm, Nat.mod_add, Nat.mod_small; auto; lia.
  - intros (H1 & H2). assert (offset <> 0) by nia. exists (j / offset), (j mod offset). split; [|split; auto].
    + apply Nat.div_lt_upper_bound; lia.
    + rewrite Nat.mul_comm. now apply Nat.div_mod.
Qed.
Lemma sorted_partition (idx : list nat) off : StronglySorted lt idx ->
  idx = filter (fun i => i <? off) idx ++ filter (fun i => negb (i <? off)) idx.
Proof.
  induction 1 as [|x l S IH F]; simpl; auto. destruct (x <? off) eqn:E; simpl; [now f_equal|].
  replace (filter (fun i => i <? off) l) with (@nil nat); simpl.
  - f_equal. clear IH S. induction l as [|y l IHl]; auto. simpl. inversion F; subst.
    destruct (y <? off) eqn:E2; simpl; [|f_equal; now apply IHl].
    apply Nat.ltb_ge in E. apply Nat.ltb_lt in E2. lia.
  - clear IH S. induction l as [|y l IHl]; auto. simpl. inversion F; subst.
    destruct (y <? off) eqn:E2; [|now apply IHl].
    apply Nat.ltb_ge in E. apply Nat.ltb_lt in E2. lia.
Qed.
Lemma split_directions idx off :
  StronglySorted lt idx ->
  length (filter (fun i => i <? off) idx) = length (filter (fun i => negb (i <? off)) idx) ->
  split_indices_with_directions idx off 2 =
    (filter (fun i => i <? off) idx,
     map Z.of_nat (map (fun i => i - off) (filter (fun i => negb (i <? off)) idx))).
Proof.
  intros S L. rewrite (sorted_partition idx off S) at 1.
  rewrite <- split_correct with (offset := off).
  - f_equal. f_equal. rewrite map_map. symmetry. rewrite <- (map_id (filter _ _)) at 2.
    apply map_ext_in. intros a Ha. apply filter_In in Ha. destruct Ha as [_ Ha].
    destruct (a <? off) eqn:E; [discriminate|]. apply Nat.ltb_ge in E. lia.
  - now rewrite map_length.
Qed.
