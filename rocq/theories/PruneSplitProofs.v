(** Proofs about the new sizes of a split ([SplitModifier.apply_mask]). *)
From Coq Require Import List Arith Bool ZArith Lia Permutation.
From Verif Require Import Tensor PruneModel PruneTrackSpec PruneTrackModel PruneTrackDetectProofs.
Import ListNotations.
Local Open Scope nat_scope.

Lemma keep_app r a b : keep r (a ++ b) = keep r a ++ keep r b.
Proof. apply filter_app. Qed.
Lemma remove1_keep x : forall l, NoDup l -> remove1 x l = filter (fun c => negb (c =? x)) l.
Proof.
  induction 1 as [|y l Hy Hl IH]; simpl; [reflexivity|].
  destruct (Nat.eqb_spec y x) as [->|N]; simpl; [|rewrite IH; reflexivity].
  clear IH Hl. induction l as [|z l IH]; simpl in *; [reflexivity|].
  destruct (Nat.eqb_spec z x) as [->|_]; simpl; [tauto|]. rewrite <- IH by tauto. reflexivity.
Qed.
Lemma fold_remove r : forall l, NoDup l -> fold_left (fun l i => remove1 i l) r l = keep r l.
Proof.
  induction r as [|x r IH]; intros l N; simpl.
  - unfold keep. induction l as [|y l IHl]; simpl; [reflexivity|]. inversion N; subst. f_equal. apply IHl. assumption.
  - rewrite remove1_keep by exact N. rewrite IH by (apply NoDup_filter; exact N). unfold keep.
    clear. induction l as [|y l IH]; simpl; [reflexivity|].
    destruct (y =? x); simpl; [exact IH|]. destruct (existsb (Nat.eqb y) r); simpl; rewrite IH; reflexivity.
Qed.
Lemma kept_in_keep r a n : kept_in r (a, a + n) = length (keep r (seq a n)).
Proof.
  unfold kept_in; cbn [fst snd]. replace (a + n - a) with n by lia. rewrite fold_remove by apply seq_NoDup. reflexivity.
Qed.

(** * [split_dict] *)
Lemma dput_idem {B} k (v : B) : forall d, dput k v (dput k v d) = dput k v d.
Proof.
  induction d as [|[k' v'] d IH]; simpl; [rewrite Nat.eqb_refl; reflexivity|].
  destruct (Nat.eqb_spec k k') as [->|N]; simpl.
  - rewrite Nat.eqb_refl. reflexivity.
  - destruct (Nat.eqb_spec k k'); [contradiction|]. rewrite IH. reflexivity.
Qed.
Lemma dput_new {B} k (v : B) : forall d, ~ In k (map fst d) -> dput k v d = d ++ [(k, v)].
Proof.
  induction d as [|[k' v'] d IH]; simpl; intros N; [reflexivity|].
  destruct (Nat.eqb_spec k k') as [->|_]; [tauto|]. rewrite IH by tauto. reflexivity.
Qed.
Lemma fold_put_idem {B} v k (r : B) : forall l d,
  fold_left (fun d v' => if v =? v' then dput k r d else d) l (dput k r d) = dput k r d.
Proof.
  induction l as [|x l IH]; intros d; simpl; [reflexivity|]. destruct (v =? x); [rewrite dput_idem|]; apply IH.
Qed.
Lemma node_put {B} v k (r : B) : forall l d,
  fold_left (fun d v' => if v =? v' then dput k r d else d) l d = if existsb (Nat.eqb v) l then dput k r d else d.
Proof.
  induction l as [|x l IH]; intros d; simpl; [reflexivity|]. destruct (v =? x); simpl; [apply fold_put_idem|apply IH].
Qed.
Lemma nodes_put {B} v (r : B) : forall next d,
  fold_left (fun d n => fold_left (fun d v' => if v =? v' then dput (fst n) r d else d) (snd n) d) next d =
  fold_left (fun d n => dput (fst n) r d) (filter (reader v) next) d.
Proof.
  induction next as [|n next IH]; intros d; simpl; [reflexivity|].
  rewrite IH, node_put. unfold reader at 2. destruct (existsb (Nat.eqb v) (snd n)); reflexivity.
Qed.
Lemma split_dict_one next : forall outs rs start d,
  Forall2 (fun o n => filter (reader (snd o)) next = [n]) outs rs ->
  NoDup (map fst d ++ map fst rs) ->
  map snd (split_dict start outs next d) =
  map snd d ++ map (fun e => (fst e, fst e + snd e))
    (combine (map (fun k => start + list_sum (firstn k (map fst outs))) (seq 0 (length outs))) (map fst outs)).
Proof.
  induction outs as [|[size v] outs IH]; intros rs start d F N; inversion F as [|o n outs' rs' F1 F2]; subst; simpl.
  - rewrite app_nil_r. reflexivity.
  - rewrite nodes_put. cbn [snd] in F1. rewrite F1. cbn [fold_left].
    assert (Nn : ~ In (fst n) (map fst d)).
    { intros H. apply NoDup_remove_2 in N. apply N. apply in_or_app. left. exact H. }
    rewrite dput_new by exact Nn. rewrite (IH rs').
    + rewrite map_app. cbn [map snd fst]. rewrite <- app_assoc. cbn [app]. f_equal. rewrite Nat.add_0_r. f_equal. f_equal. f_equal.
      rewrite <- seq_shift, map_map. apply map_ext. intros k. simpl. lia.
    + exact F2.
    + rewrite map_app. simpl. rewrite <- app_assoc. exact N.
Qed.
Lemma min_each_le : forall ch new, Forall2 (fun a b => b <= a) ch new -> min_each ch new = Some new.
Proof.
  induction 1 as [|a b ch new H F IH]; simpl; [reflexivity|]. rewrite IH. simpl. rewrite Nat.min_r by exact H. reflexivity.
Qed.
Fixpoint parts (start : nat) (sizes : list nat) : list (list nat) :=
  match sizes with [] => [] | n :: r => seq start n :: parts (start + n) r end.
Lemma cut_parts : forall sizes start, cut sizes (seq start (list_sum sizes)) = parts start sizes.
Proof.
  induction sizes as [|n r IH]; intros start; simpl; [reflexivity|].
  change (fold_right Nat.add 0 r) with (list_sum r). rewrite seq_app. f_equal.
  - rewrite firstn_app, seq_length, Nat.sub_diag. simpl. rewrite app_nil_r. apply firstn_all2. rewrite seq_length. lia.
  - rewrite skipn_app, seq_length, Nat.sub_diag. simpl. rewrite skipn_all2 by (rewrite seq_length; lia). simpl. apply IH.
Qed.
Lemma cut_keep r : forall sizes start,
  cut (map (fun p => length (keep r p)) (parts start sizes)) (keep r (seq start (list_sum sizes))) =
  map (keep r) (parts start sizes).
Proof.
  induction sizes as [|n s IH]; intros start; simpl; [reflexivity|].
  change (fold_right Nat.add 0 s) with (list_sum s). rewrite seq_app, keep_app. f_equal.
  - rewrite firstn_app, Nat.sub_diag. simpl. rewrite app_nil_r. apply firstn_all2. lia.
  - rewrite skipn_app, Nat.sub_diag. simpl. rewrite skipn_all2 by lia. simpl. apply IH.
Qed.
Lemma parts_ranges r : forall sizes start,
  map (kept_in r) (map (fun e => (fst e, fst e + snd e))
    (combine (map (fun k => start + list_sum (firstn k sizes)) (seq 0 (length sizes))) sizes)) =
  map (fun p => length (keep r p)) (parts start sizes).
Proof.
  induction sizes as [|n s IH]; intros start; simpl; [reflexivity|].
  rewrite Nat.add_0_r, kept_in_keep. f_equal. rewrite <- IH.
  assert (E : map (fun k => start + list_sum (firstn k (n :: s))) (seq 1 (length s)) =
              map (fun k => start + n + list_sum (firstn k s)) (seq 0 (length s))).
  { rewrite <- seq_shift, map_map. apply map_ext. intros k. simpl. change (fold_right Nat.add 0 (firstn k s)) with (list_sum (firstn k s)). lia. }
  simpl in E. rewrite E. reflexivity.
Qed.
Lemma keep_length_le r l : length (keep r l) <= length l.
Proof. unfold keep. induction l as [|x l IH]; simpl; [lia|]. destruct (negb _); simpl; lia. Qed.
Lemma parts_le r : forall sizes start, Forall2 (fun a b => b <= a) sizes (map (fun p => length (keep r p)) (parts start sizes)).
Proof.
  induction sizes as [|n s IH]; intros start; simpl; constructor; [|apply IH].
  pose proof (keep_length_le r (seq start n)) as H. rewrite seq_length in H. exact H.
Qed.

Lemma split_list_lemma outs next rs removed :
  Forall2 (fun o n => filter (reader (snd o)) next = [n]) outs rs -> NoDup (map fst rs) ->
  exists new, split_list (map fst outs) outs next removed = Some new /\
    cut new (keep removed (seq 0 (list_sum (map fst outs)))) =
    map (keep removed) (cut (map fst outs) (seq 0 (list_sum (map fst outs)))).
Proof.
  intros F N. exists (map (fun p => length (keep removed p)) (parts 0 (map fst outs))). split.
  - unfold split_list. rewrite <- (map_map snd (kept_in removed)).
    rewrite (split_dict_one next outs rs 0 [] F N). cbn [map app].
    pose proof (parts_ranges removed (map fst outs) 0) as P. rewrite map_length in P. rewrite P.
    apply min_each_le. apply parts_le.
  - rewrite cut_parts. apply cut_keep.
Qed.

(** * One size *)
Lemma keep_count removed n : NoDup removed -> (forall c, In c removed -> c < n) ->
  length (keep removed (seq 0 n)) + length removed = n.
Proof.
  intros N B.
  assert (P : Permutation removed (filter (fun c => existsb (Nat.eqb c) removed) (seq 0 n))).
  { apply NoDup_Permutation; [exact N|apply NoDup_filter; apply seq_NoDup|].
    intros c. rewrite filter_In, in_seq, existsb_exists. split.
    - intros H. split; [pose proof (B c H); lia|]. exists c. split; [exact H|apply Nat.eqb_refl].
    - intros [_ [x [Hx E]]]. apply Nat.eqb_eq in E. subst. exact Hx. }
  rewrite (Permutation_length P). unfold keep.
  assert (L : forall (p : nat -> bool) l, length (filter (fun c => negb (p c)) l) + length (filter p l) = length l).
  { intros p l. induction l as [|x l IH]; simpl; [reflexivity|]. destruct (p x); simpl; lia. }
  rewrite L, seq_length. reflexivity.
Qed.
Lemma parts_total r s q : forall n start, Forall (fun p => length (keep r p) + q = s) (parts start (repeat s n)) ->
  length (keep r (seq start (list_sum (repeat s n)))) + n * q = n * s /\
  map (fun p => length (keep r p)) (parts start (repeat s n)) = repeat (s - q) n.
Proof.
  induction n as [|n IH]; intros start F; simpl in *; [split; reflexivity|]. inversion F as [|p ps H1 H2]; subst p ps.
  destruct (IH _ H2) as [A B].
  change (fold_right Nat.add 0 (repeat s n)) with (list_sum (repeat s n)). rewrite seq_app, keep_app, app_length. split; [lia|].
  rewrite B. f_equal. lia.
Qed.
Lemma split_size_lemma s n q removed : NoDup removed -> (forall c, In c removed -> c < list_sum (repeat s (S n))) ->
  Forall (fun p => length (keep removed p) + q = s) (cut (repeat s (S n)) (seq 0 (list_sum (repeat s (S n))))) ->
  cut (repeat (split_size (repeat s (S n)) removed) (S n)) (keep removed (seq 0 (list_sum (repeat s (S n))))) =
  map (keep removed) (cut (repeat s (S n)) (seq 0 (list_sum (repeat s (S n))))).
Proof.
  intros N B F. rewrite cut_parts in F.
  destruct (parts_total removed s q (S n) 0 F) as [A E].
  pose proof (keep_count removed _ N B) as C.
  assert (T : list_sum (repeat s (S n)) = S n * s).
  { clear. induction (S n) as [|m IH]; [reflexivity|]. change (list_sum (repeat s (S m))) with (s + list_sum (repeat s m)). lia. }
  assert (L : length removed = q * S n) by (rewrite T in A, C; lia).
  assert (Z : split_size (repeat s (S n)) removed = s - q).
  { unfold split_size. rewrite repeat_length, L, Nat.div_mul by lia. reflexivity. }
  rewrite Z, <- E, cut_parts. apply cut_keep.
Qed.

(** * Where the sizes are wrong *)
Lemma unread_lemma : exists outs next removed new,
  NoDup (map snd outs) /\ split_list (map fst outs) outs next removed = None /\
  cut new (keep removed (seq 0 (list_sum (map fst outs)))) =
  map (keep removed) (cut (map fst outs) (seq 0 (list_sum (map fst outs)))).
Proof.
  exists [(4, 7); (4, 9)], [(30, [7])], [1], [3; 4].
  split; [repeat constructor; simpl; intuition discriminate|]. split; vm_compute; reflexivity.
Qed.
Lemma two_readers_lemma : exists outs next removed new,
  NoDup (map snd outs) /\ NoDup (map fst next) /\ Forall (fun o => existsb (reader (snd o)) next = true) outs /\
  split_list (map fst outs) outs next removed = Some new /\
  cut new (keep removed (seq 0 (list_sum (map fst outs)))) <>
  map (keep removed) (cut (map fst outs) (seq 0 (list_sum (map fst outs)))).
Proof.
  exists [(4, 7); (4, 9)], [(30, [7]); (31, [7]); (32, [9])], [0; 1], [2; 2].
  split; [repeat constructor; simpl; intuition discriminate|].
  split; [repeat constructor; simpl; intuition discriminate|].
  split; [repeat constructor|]. split; [vm_compute; reflexivity|]. vm_compute. discriminate.
Qed.
Lemma uneven_lemma : exists s n removed, NoDup removed /\
  (forall c, In c removed -> c < list_sum (repeat s n)) /\
  cut (repeat (split_size (repeat s n) removed) n) (keep removed (seq 0 (list_sum (repeat s n)))) <>
  map (keep removed) (cut (repeat s n) (seq 0 (list_sum (repeat s n)))).
Proof.
  exists 4, 2, [0; 1]. split; [repeat constructor; simpl; intuition discriminate|].
  split; [simpl; intuition lia|]. vm_compute. discriminate.
Qed.
