(* Properties of the channel numbers that the pruner sends through the graph. *)
From Coq Require Import List Arith Bool ZArith Lia.
From Verif Require Import Tensor PruneModel PruneIdxModel PruneTrackSpec PruneTrackModel PruneTrackPathSpec
  PruneTrackDetectProofs PruneTrackProofs PruneSplitProofs PruneTrackExample.
Import ListNotations.
Local Open Scope nat_scope.

(* ------------------------------------------------------------------ C123 *)

Theorem C123_reported_axis_varies : forall t d, In d (dim_changes t) -> varies t d.
Proof. exact reported_varies_lemma. Qed.
Print Assumptions C123_reported_axis_varies.

Theorem C123_growing_axis_reported : forall t d, d < length (tshape t) -> grows t d ->
  varies t d -> In d (dim_changes t).
Proof. exact monotone_reported_lemma. Qed.
Print Assumptions C123_growing_axis_reported.

Theorem C123_filled_axes_reported : forall s ds d, Forall (lt 0) s ->
  (In d (dim_changes (fill s ds)) <-> In d ds /\ 1 < nth d s 0).
Proof. exact filled_reported_lemma. Qed.
Print Assumptions C123_filled_axes_reported.

(* four channels viewed as two axes of two: both are reported, the others are not *)
Example C123_example :
  dim_changes (reshape [1; 2; 2; 3] (fill [1; 4; 3] [1])) = [1; 2] /\
  dim_changes (fill [2; 4; 1; 3] [1; 2; 3]) = [1; 3] /\
  varies (reshape [1; 2; 2; 3] (fill [1; 4; 3] [1])) 2 /\
  grows (fill [1; 4; 3] [1]) 1.
Proof.
  split; [vm_compute; reflexivity|]. split; [vm_compute; reflexivity|]. split.
  - apply C123_reported_axis_varies. vm_compute. auto.
  - intros i k V L K. rewrite !fill_lab. rewrite upd_nth_eq by (rewrite (valid_length _ _ V); simpl; lia). lia.
Qed.

(* two rows of the channels 0, 1, 2 viewed as three rows of two: the columns 0, 2, 1 and 1, 0, 2 have equal sums *)
Theorem C123_axis_with_equal_sums_refuted :
  exists t d, d < length (tshape t) /\ varies t d /\ ~ In d (dim_changes t).
Proof. exact missed_lemma. Qed.
Print Assumptions C123_axis_with_equal_sums_refuted.

(* ------------------------------------------------------------------ C124 *)

Theorem C124_no_channel_missed : forall ns s a st d, a < length s ->
  ptrack (map fst ns) (pstart s a) = Some (Some st) -> carried ns (pstart s a) -> In d (tk_dims st) ->
  exists row, dget d (update_i st) = Some row /\ says_all (tshape (tk_t st)) (along (map snd ns) (own a)) d row.
Proof. exact tracked_all_lemma. Qed.
Print Assumptions C124_no_channel_missed.

Theorem C124_no_channel_too_many : forall ns s a st d row, a < length s -> positive s ->
  ptrack (map fst ns) (pstart s a) = Some (Some st) -> carried ns (pstart s a) -> kept ns (pstart s a) (own a) ->
  In d (tk_dims st) -> dget d (update_i st) = Some row ->
  says_only (tshape (tk_t st)) (along (map snd ns) (own a)) d row.
Proof. exact tracked_only_lemma. Qed.
Print Assumptions C124_no_channel_too_many.

Theorem C124_removed_with_its_channels : forall ns s a st d row removed k, a < length s -> positive s ->
  ptrack (map fst ns) (pstart s a) = Some (Some st) -> carried ns (pstart s a) -> kept ns (pstart s a) (own a) ->
  In d (tk_dims st) -> dget d (update_i st) = Some row ->
  (In (Z.of_nat k) (get_pruned_idx [(0, map Z.of_nat removed)] [(0, [row])]) <->
   exists c, In c removed /\ reaches (tshape (tk_t st)) (along (map snd ns) (own a)) d k c).
Proof. exact tracked_pruned_lemma. Qed.
Print Assumptions C124_removed_with_its_channels.

(* an activation, an average over the last axis, a view and a concatenation *)
Example C124_example :
  1 < length ex_s /\ positive ex_s /\ ptrack (map fst ex_path) (pstart ex_s 1) = Some (Some ex_end) /\
  carried ex_path (pstart ex_s 1) /\ kept ex_path (pstart ex_s 1) (own 1) /\ In 1 (tk_dims ex_end) /\
  dget 1 (update_i ex_end) = Some [[0]; [0]; [1]; [1]; [-1]]%Z /\
  get_pruned_idx [(0, [1%Z])] [(0, [[[0]; [0]; [1]; [1]; [-1]]%Z])] = [2; 3]%Z.
Proof.
  split; [vm_compute; lia|]. split; [repeat constructor|]. split; [exact ex_runs|]. split; [exact ex_carried|].
  split; [exact ex_kept|]. split; [rewrite (proj2 ex_dims); left; reflexivity|]. split; [exact ex_row|].
  vm_compute. reflexivity.
Qed.

Theorem C124_sum_refuted : exists s, misses [(NIndex sum_23, spatial s)] s 1.
Proof. exact sum_lemma. Qed.
Print Assumptions C124_sum_refuted.

Theorem C124_front_padding_refuted : exists s out p, misses [(NPad out, padded s 1 p)] s 1.
Proof. exact padding_lemma. Qed.
Print Assumptions C124_front_padding_refuted.

Theorem C124_pool_then_concatenation_refuted : exists s u o,
  misses [(NPool u, over_last s); (NCat 1 [o] [], placed u 1 (nth 1 o 0))] s 1.
Proof. exact cat_lemma. Qed.
Print Assumptions C124_pool_then_concatenation_refuted.

Theorem C124_two_axes_refuted : exists s u v,
  prod u = prod s /\ misses [(NIndex (reshape u), viewed s u); (NLinear 3 v, over_last u)] s 1.
Proof. exact two_axes_lemma. Qed.
Print Assumptions C124_two_axes_refuted.

Theorem C124_more_axes_refuted : exists s out, misses [(NSame out, aligned s out)] s 1.
Proof. exact rank_lemma. Qed.
Print Assumptions C124_more_axes_refuted.

(* ------------------------------------------------------------------ C125 *)

Theorem C125_split_by_list : forall outs next rs removed,
  Forall2 (fun o n => filter (reader (snd o)) next = [n]) outs rs -> NoDup (map fst rs) ->
  exists new, split_list (map fst outs) outs next removed = Some new /\
    cut new (keep removed (seq 0 (list_sum (map fst outs)))) =
    map (keep removed) (cut (map fst outs) (seq 0 (list_sum (map fst outs)))).
Proof. exact split_list_lemma. Qed.
Print Assumptions C125_split_by_list.

(* parts of two and four channels with the values 7 and 9; the second is read by the first node in the list *)
Example C125_split_by_list_example :
  let outs := [(2, 7); (4, 9)] in let next := [(31, [5; 9]); (30, [7]); (33, [])] in
  Forall2 (fun o n => filter (reader (snd o)) next = [n]) outs [(30, [7]); (31, [5; 9])] /\
  NoDup (map fst [(30, [7]); (31, [5; 9])]) /\
  split_list (map fst outs) outs next [4; 1; 3] = Some [1; 2] /\
  cut [1; 2] (keep [4; 1; 3] (seq 0 6)) = [[0]; [2; 5]].
Proof.
  split; [repeat constructor|]. split; [repeat constructor; simpl; intuition discriminate|].
  split; vm_compute; reflexivity.
Qed.

Theorem C125_split_by_size : forall s n q removed, NoDup removed ->
  (forall c, In c removed -> c < list_sum (repeat s (S n))) ->
  Forall (fun p => length (keep removed p) + q = s) (cut (repeat s (S n)) (seq 0 (list_sum (repeat s (S n))))) ->
  cut (repeat (split_size (repeat s (S n)) removed) (S n)) (keep removed (seq 0 (list_sum (repeat s (S n))))) =
  map (keep removed) (cut (repeat s (S n)) (seq 0 (list_sum (repeat s (S n))))).
Proof. exact split_size_lemma. Qed.
Print Assumptions C125_split_by_size.

Example C125_split_by_size_example :
  NoDup [1; 5; 6] /\ (forall c, In c [1; 5; 6] -> c < list_sum (repeat 3 3)) /\
  Forall (fun p => length (keep [1; 5; 6] p) + 1 = 3) (cut (repeat 3 3) (seq 0 (list_sum (repeat 3 3)))) /\
  split_size (repeat 3 3) [1; 5; 6] = 2 /\
  cut [2; 2; 2] (keep [1; 5; 6] (seq 0 9)) = [[0; 2]; [3; 4]; [7; 8]].
Proof.
  split; [repeat constructor; simpl; intuition discriminate|].
  split; [simpl; intuition lia|]. split; [repeat constructor|]. split; vm_compute; reflexivity.
Qed.

(* a part that no node reads: the code raises, although nothing is removed from it *)
Theorem C125_unread_part_refuted : exists outs next removed new,
  NoDup (map snd outs) /\ split_list (map fst outs) outs next removed = None /\
  cut new (keep removed (seq 0 (list_sum (map fst outs)))) =
  map (keep removed) (cut (map fst outs) (seq 0 (list_sum (map fst outs)))).
Proof. exact unread_lemma. Qed.
Print Assumptions C125_unread_part_refuted.

(* a part that two nodes read: the sizes of the parts behind it are wrong *)
Theorem C125_two_readers_refuted : exists outs next removed new,
  NoDup (map snd outs) /\ NoDup (map fst next) /\ Forall (fun o => existsb (reader (snd o)) next = true) outs /\
  split_list (map fst outs) outs next removed = Some new /\
  cut new (keep removed (seq 0 (list_sum (map fst outs)))) <>
  map (keep removed) (cut (map fst outs) (seq 0 (list_sum (map fst outs)))).
Proof. exact two_readers_lemma. Qed.
Print Assumptions C125_two_readers_refuted.

(* one size and parts that lose different numbers of channels *)
Theorem C125_uneven_parts_refuted : exists s n removed, NoDup removed /\
  (forall c, In c removed -> c < list_sum (repeat s n)) /\
  cut (repeat (split_size (repeat s n) removed) n) (keep removed (seq 0 (list_sum (repeat s n)))) <>
  map (keep removed) (cut (repeat s n) (seq 0 (list_sum (repeat s n)))).
Proof. exact uneven_lemma. Qed.
Print Assumptions C125_uneven_parts_refuted.
