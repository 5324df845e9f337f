(** Property theorems: channel pruning (C32-C38, C40, C42). *)
From Coq Require Import List Arith Bool ZArith QArith Lia Relations Permutation Sorted.
From Verif Require Import PruneModel MergeProofs GroupProofs SetOrderProofs SetTermProofs
  SmallestProofs DivideProofs FloatProofs OrderProofs.
Import ListNotations.
Local Open Scope nat_scope.

(** ** C32 *)
(** The constraints that are merged: the sentinel [{-1}], if present, is dropped once. *)
Definition without_sentinel (cs base : list (list Z)) : Prop :=
  (base = cs /\ forall s, In s cs -> ~ (forall x, In x s <-> x = (-1)%Z)) \/
  (exists a s b, cs = a ++ s :: b /\ base = a ++ b /\ (forall x, In x s <-> x = (-1)%Z)).

Theorem C32_constraints_merged :
  forall cs : list (list Z), exists base, without_sentinel cs base /\
    let out := merge_constraint cs in
    (forall i j x, i < length out -> j < length out ->
       In x (nth i out []) -> In x (nth j out []) -> i = j) /\
    (forall s, In s out -> s <> []) /\
    (forall x, (exists s, In s out /\ In x s) <-> (exists s, In s base /\ In x s)) /\
    (forall x y, (exists s, In s out /\ In x s /\ In y s) <->
       (exists s, In s base /\ In x s) /\
       clos_refl_trans Z (fun a b => exists s, In s base /\ In a s /\ In b s) x y).
Proof. exact merge_constraint_full. Qed.
Print Assumptions C32_constraints_merged.

Example C32_example :
  merge_constraint [[0;1]; [2;3]; [5]; [-1]; []; [3;4]; [4;1]]%Z = [[2;3;4;0;1]; [5]]%Z.
Proof. reflexivity. Qed.

(** ** C33 *)
Theorem C33_groups_refined :
  forall g : list (list Z), exists out, merge_group g = Some out /\
    (forall i j x, i < length out -> j < length out ->
       In x (nth i out []) -> In x (nth j out []) -> i = j) /\
    (forall i j, i < length out -> j < length out ->
       (forall x, In x (nth i out []) <-> In x (nth j out [])) -> i = j) /\
    (forall x y, (exists t, In t out /\ In x t /\ In y t) <->
       (exists s, In s g /\ In x s) /\ (forall s, In s g -> (In x s <-> In y s))).
Proof. exact merge_group_correct. Qed.
Print Assumptions C33_groups_refined.

Example C33_example :
  merge_group [[0;1;2;3]; [2;3;4]; [3]; [7;8]]%Z = Some [[7;8]; [0;1]; [4]; [2]; [3]]%Z.
Proof. reflexivity. Qed.

(** ** C34 *)
Theorem C34_smallest_selected :
  forall (A : Type) (leb : A -> A -> bool),
    (forall x y, leb x y = true \/ leb y x = true) ->
    (forall x y z, leb x y = true -> leb y z = true -> leb x z = true) ->
    forall (lst : list A) (k offset : nat),
    let out := get_smallest_k leb lst k offset in
    length out = Nat.min k (length lst) /\ StronglySorted lt out /\
    (forall i, In i out -> offset <= i < offset + length lst) /\
    (forall i j vi vj, In (offset + i) out -> ~ In (offset + j) out ->
       nth_error lst i = Some vi -> nth_error lst j = Some vj ->
       leb vi vj = true /\ (leb vj vi = true -> i < j)).
Proof. exact @get_smallest_k_correct. Qed.
Print Assumptions C34_smallest_selected.

Example C34_example :
  (forall x y, Nat.leb x y = true \/ Nat.leb y x = true) /\
  (forall x y z, Nat.leb x y = true -> Nat.leb y z = true -> Nat.leb x z = true) /\
  get_smallest_k Nat.leb [5;1;4;1;1] 2 10 = [11;13] /\
  get_smallest_k Nat.leb [5;1] 7 0 = [0;1].
Proof.
  split; [|split; [|split; reflexivity]].
  - intros x y. rewrite !Nat.leb_le. lia.
  - intros x y z. rewrite !Nat.leb_le. lia.
Qed.

(** ** C35: false as it stands.  Two layers with 9 and 1 channels, of the first the
    channels 7 and 8 are kept; the consumer of their concatenation stores its
    inputs in the order 8, 9, 7. *)
Theorem C35_kept_order_refuted :
  exists n1 n2 r1 r2 l1 l2 l,
    Forall (fun x => x < n1) r1 /\ Forall (fun x => x < n2) r2 /\
    complementary_list n1 r1 = Some l1 /\ complementary_list n2 r2 = Some l2 /\
    complementary_list (n1 + n2) (r1 ++ map (fun x => n1 + x) r2) = Some l /\
    l <> l1 ++ map (fun x => n1 + x) l2.
Proof.
  exists 9, 1, [0;1;2;3;4;5;6], [], [8;7], [0], [8;9;7].
  split; [repeat constructor|]. repeat split; try constructor. discriminate.
Qed.
Print Assumptions C35_kept_order_refuted.

(** What holds: every kept channel appears exactly once, and the orders agree when
    at most 8 channels are involved or at least three fifths of them are kept. *)
Theorem C35_kept_set_partial :
  forall n r, exists l, complementary_list n r = Some l /\ NoDup l /\
    forall x, In x l <-> x < n /\ ~ In x r.
Proof. exact order_perm. Qed.
Print Assumptions C35_kept_set_partial.

Theorem C35_concat_order_partial :
  forall n1 n2 r1 r2,
    Forall (fun x => x < n1) r1 -> few_removed n1 r1 -> few_removed n2 r2 ->
    few_removed (n1 + n2) (r1 ++ map (fun x => n1 + x) r2) ->
    exists l1 l2,
      complementary_list n1 r1 = Some l1 /\ complementary_list n2 r2 = Some l2 /\
      complementary_list (n1 + n2) (r1 ++ map (fun x => n1 + x) r2)
        = Some (l1 ++ map (fun x => n1 + x) l2).
Proof. exact order_concat. Qed.
Print Assumptions C35_concat_order_partial.

Theorem C35_flatten_order_partial :
  forall n s r,
    few_removed n r ->
    (8 < n \/ few_removed (n * s) (flat_map (fun c => seq (c * s) s) r)) ->
    exists l, complementary_list n r = Some l /\
      complementary_list (n * s) (flat_map (fun c => seq (c * s) s) r)
        = Some (flat_map (fun c => seq (c * s) s) l).
Proof. exact order_flat. Qed.
Print Assumptions C35_flatten_order_partial.

Example C35_example :
  few_removed 12 [1;5;7] /\ few_removed 4 [0;1;3] /\
  few_removed (12 + 4) ([1;5;7] ++ map (fun x => 12 + x) [0;1;3]) /\
  complementary_list 16 [1;5;7;12;13;15] = Some [0;2;3;4;6;8;9;10;11;14].
Proof. repeat split; vm_compute; lia || auto. Qed.

(** ** C36: false as it stands.  Two groups of three channels at sparsity 1/2 lose two
    and one channel; the consumer then cuts group 0 by channel 0 alone and group 1 by
    the "channel" -2 (and the untouched channel 0). *)
Theorem C36_groups_balanced_refuted :
  exists sp groups n, prune_groups sp groups = n /\ (0 < sp)%Q /\ (sp < 1)%Q /\
    Forall (fun g => g = [1;1;1]) groups /\ nth 0 n 0 <> nth 1 n 0 /\
    group_remove_slice [0;1;3] (length groups) 3 0 = [0]%Z /\
    group_remove_slice [0;1;3] (length groups) 3 1 = [-2]%Z.
Proof.
  exists (1#2)%Q, [[1;1;1];[1;1;1]], [2;1].
  repeat split; try (repeat constructor; fail). discriminate.
Qed.
Print Assumptions C36_groups_balanced_refuted.

(** What holds: if in every group some prefix of the constraints, taken by
    importance, makes up exactly the target, every group loses the target. *)
Theorem C36_groups_balanced_partial :
  forall (sp : Q) (k : nat) (groups : list (list nat)),
    Forall (fun g => exists pre post, g = pre ++ post /\ Forall (fun c => 0 < c) g /\ g <> [] /\
       list_sum pre = k /\ (sp * inject_Z (Z.of_nat (list_sum g)) == inject_Z (Z.of_nat k))%Q) groups ->
    prune_groups sp groups = repeat k (length groups).
Proof. exact prune_groups_exact. Qed.
Print Assumptions C36_groups_balanced_partial.

(** ... and then the consumer's slices are the removed channels of each group. *)
Theorem C36_group_slices_partial :
  forall (width k : nat) (per : list (list nat)) (i : nat),
    Forall (fun l => length l = k) per -> i < length per ->
    group_remove_slice
      (concat (map (fun g => map (fun x => width * g + x) (nth g per [])) (seq 0 (length per))))
      (length per) width i = map Z.of_nat (nth i per []).
Proof. exact group_slice_concat. Qed.
Print Assumptions C36_group_slices_partial.

Example C36_example :
  Forall (fun g => exists pre post, g = pre ++ post /\ Forall (fun c => 0 < c) g /\ g <> [] /\
       list_sum pre = 2 /\ ((1#2) * inject_Z (Z.of_nat (list_sum g)) == inject_Z (Z.of_nat 2))%Q)
    [[1;1;1;1];[2;1;1]] /\
  prune_groups (1#2)%Q [[1;1;1;1];[2;1;1]] = [2;2] /\
  group_remove_slice [1;2;5;7] 2 4 1 = [1;3]%Z.
Proof.
  split; [|split; reflexivity].
  constructor; [exists [1;1], [1;1]|constructor; [exists [2], [1;1]|constructor]];
    repeat split; repeat constructor; discriminate.
Qed.

(** ** C37: false when the count is a multiple already: nothing is removed. *)
Theorem C37_multiple_refuted :
  exists (lst : list nat) m, 0 < m /\ length (drop_remainder lst m) <> m * (length lst / m).
Proof. exists [4;7;9;2], 2. split; [lia|]. discriminate. Qed.
Print Assumptions C37_multiple_refuted.

Theorem C37_multiple_partial :
  forall (A : Type) (lst : list A) (m : nat),
    0 < m -> length lst mod m <> 0 ->
    length (drop_remainder lst m) = m * (length lst / m) /\ exists r, lst = drop_remainder lst m ++ r.
Proof. exact @drop_remainder_correct. Qed.
Print Assumptions C37_multiple_partial.

Example C37_example : drop_remainder [4;7;9;2;5] 2 = [4;7;9;2].
Proof. reflexivity. Qed.

(** ** C38: false as it stands: [reshape] takes the number of removed channels, [view]
    suffers from truncation. *)
Theorem C38_reshape_size_refuted :
  exists n pruned, pruned < n /\ reshape_new_size n pruned n <> n - pruned.
Proof. exists 8, 2. split; [lia|]. vm_compute. discriminate. Qed.
Print Assumptions C38_reshape_size_refuted.

Theorem C38_view_size_refuted :
  exists n pruned, pruned < n /\ view_new_size n pruned n <> n - pruned.
Proof. exists 49, 1. split; [lia|]. vm_compute. discriminate. Qed.
Print Assumptions C38_view_size_refuted.

(** What holds: the size written by [view] is the number of kept channels or one more. *)
Theorem C38_view_size_partial :
  forall out pruned n t : nat,
    0 < n -> pruned <= n -> out * pruned = t * n ->
    (Z.of_nat out < 2 ^ 51)%Z -> (Z.of_nat n < 2 ^ 53)%Z ->
    view_new_size out pruned n = out - t \/ view_new_size out pruned n = S (out - t).
Proof. exact view_size_bound. Qed.
Print Assumptions C38_view_size_partial.

Example C38_example :
  32 * 6 = 12 * 16 /\ view_new_size 32 6 16 = 32 - 12 /\
  49 * 1 = 1 * 49 /\ view_new_size 49 1 49 = S (49 - 1).
Proof. vm_compute. auto. Qed.

(** ** C40 *)
Theorem C40_prune_groups_connected :
  forall ms : list modif,
    (forall m, In m ms -> incl (m_inputs m) (m_centers m)) ->
    let adjacent a b := exists m, In m ms /\ In a (m_inputs m) /\ In b (m_inputs m) in
    let connected := clos_refl_sym_trans nat adjacent in
    let center_of i c := exists m, nth_error ms i = Some m /\ In c (m_centers m) in
    exists out, divide_subgraph ms = Some out /\ NoDup (map fst out) /\
      (forall c, (exists i, center_of i c) ->
         exists k, In k (map fst out) /\ connected c k /\
           forall k', In k' (map fst out) -> connected c k' -> k' = k) /\
      (forall k s, In (k, s) out ->
         forall i, In i s <-> exists c, center_of i c /\ connected c k).
Proof. exact divide_subgraph_correct. Qed.
Print Assumptions C40_prune_groups_connected.

Example C40_example :
  let ms := [mkM [3] []; mkM [5] []; mkM [3;5] [3;5]; mkM [1] []; mkM [7] [7];
             mkM [1;5] [1;5]; mkM [1;3] [3;1]; mkM [7] []] in
  (forall m, In m ms -> incl (m_inputs m) (m_centers m)) /\
  divide_subgraph ms = Some [(1, [3;5;6;0;2;1]); (7, [4;7])].
Proof.
  split; [|reflexivity]. simpl. intros m H.
  repeat (destruct H as [<-|H]; [intro x; simpl; tauto|]). destruct H.
Qed.

(** ** C42: the gate part holds; the direction part is false when the directions lose
    different numbers of units (which happens, see C36). *)
Theorem C42_gate_rows_partial :
  forall (units : list nat) (gates hidden row : nat),
    Forall (fun i => i < hidden) units ->
    (In row (tile_indices_with_gate_size units gates hidden) <->
     row < gates * hidden /\ In (row mod hidden) units).
Proof. exact tile_rows. Qed.
Print Assumptions C42_gate_rows_partial.

Theorem C42_directions_refuted :
  exists idx hidden, StronglySorted lt idx /\ Forall (fun i => i < 2 * hidden) idx /\
    fst (split_indices_with_directions idx hidden 2) <> filter (fun i => i <? hidden) idx /\
    In (-2)%Z (snd (split_indices_with_directions idx hidden 2)).
Proof.
  exists [0;1;3], 3. split; [|split; [|split; [discriminate|simpl; auto]]]; repeat constructor.
Qed.
Print Assumptions C42_directions_refuted.

Theorem C42_directions_partial :
  forall (idx : list nat) (hidden : nat),
    StronglySorted lt idx ->
    length (filter (fun i => i <? hidden) idx) = length (filter (fun i => negb (i <? hidden)) idx) ->
    split_indices_with_directions idx hidden 2 =
      (filter (fun i => i <? hidden) idx,
       map Z.of_nat (map (fun i => i - hidden) (filter (fun i => negb (i <? hidden)) idx))).
Proof. exact split_directions. Qed.
Print Assumptions C42_directions_partial.

Example C42_example :
  tile_indices_with_gate_size [0;2] 4 3 = [0;2;3;5;6;8;9;11] /\
  StronglySorted lt [0;2;4;5] /\
  split_indices_with_directions [0;2;4;5] 3 2 = ([0;2], [1;2]%Z).
Proof. split; [reflexivity|split; [repeat constructor|reflexivity]]. Qed.
