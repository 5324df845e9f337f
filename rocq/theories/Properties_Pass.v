(** Property theorems: moving transposes across operators (C17) and removing operators that do
    nothing (C28). *)
From Coq Require Import List Arith Bool Reals Lia Lra Permutation ZArith.
From Verif Require Import Tensor ChainModel PassModel ConvSpec CatSpec LayoutSpec PassProofs PassAxesProofs NoopProofs.
Import ListNotations.
Local Open Scope nat_scope.

(** ** C17.  In every theorem the left-hand side is the rewritten graph: transposes in front of the
    operands, the node with its new arguments, a transpose behind it. *)
Theorem C17_gather :
  forall (A : Type) (perm : list nat) (ax : nat) (ix : list nat) (x : tensor A),
    is_perm (length (tshape x)) perm -> ax < length (tshape x) ->
    exists ax', pt_axis perm ax = Some ax' /\
      teq (transpose perm (gather ax' ix (transpose (pt_inv perm) x))) (gather ax ix x).
Proof. exact @pt_gather_ok. Qed.
Print Assumptions C17_gather.

Theorem C17_split :
  forall (A : Type) (perm : list nat) (ax start len : nat) (x : tensor A),
    is_perm (length (tshape x)) perm -> ax < length (tshape x) ->
    exists ax', pt_axis perm ax = Some ax' /\
      teq (transpose perm (chunk ax' start len (transpose (pt_inv perm) x))) (chunk ax start len x).
Proof. exact @pt_chunk_ok. Qed.
Print Assumptions C17_split.

Theorem C17_concatenation :
  forall (A : Type) (d : A) (perm : list nat) (ax : nat) (ts : list (tensor A)),
    ts <> [] -> Forall (fun t => length (tshape t) = length perm) ts ->
    is_perm (length perm) perm -> ax < length perm ->
    exists ax', pt_axis perm ax = Some ax' /\
      teq (transpose perm (concatenation d ax' (map (transpose (pt_inv perm)) ts))) (concatenation d ax ts).
Proof. exact @pt_concat_ok. Qed.
Print Assumptions C17_concatenation.

Theorem C17_pad :
  forall (A : Type) (v : A) (perm : list nat) (pads : list (nat * nat)) (x : tensor A),
    is_perm (length (tshape x)) perm -> length pads = length (tshape x) ->
    exists pads', pt_table perm pads = Some pads' /\
      teq (transpose perm (pad_op v pads' (transpose (pt_inv perm) x))) (pad_op v pads x).
Proof. exact @pt_pad_ok. Qed.
Print Assumptions C17_pad.

Theorem C17_mirror_pad :
  forall (A : Type) (perm : list nat) (pads : list (nat * nat)) (x : tensor A),
    is_perm (length (tshape x)) perm -> length pads = length (tshape x) ->
    exists pads', pt_table perm pads = Some pads' /\
      teq (transpose perm (mirror_pad pads' (transpose (pt_inv perm) x))) (mirror_pad pads x).
Proof. exact @pt_mirror_pad_ok. Qed.
Print Assumptions C17_mirror_pad.

Theorem C17_tile :
  forall (A : Type) (perm m : list nat) (x : tensor A),
    is_perm (length (tshape x)) perm -> length m = length (tshape x) ->
    exists m', pt_table perm m = Some m' /\
      teq (transpose perm (tile m' (transpose (pt_inv perm) x))) (tile m x).
Proof. exact @pt_tile_ok. Qed.
Print Assumptions C17_tile.

Theorem C17_slice :
  forall (A : Type) (perm b z : list nat) (x : tensor A),
    is_perm (length (tshape x)) perm -> length b = length (tshape x) -> length z = length (tshape x) ->
    exists b' z', pt_table perm b = Some b' /\ pt_table perm z = Some z' /\
      teq (transpose perm (slice_op b' z' (transpose (pt_inv perm) x))) (slice_op b z x).
Proof. exact @pt_slice_ok. Qed.
Print Assumptions C17_slice.

Theorem C17_strided_slice :
  forall (A : Type) (perm s e st : list nat) (x : tensor A),
    is_perm (length (tshape x)) perm ->
    length s = length (tshape x) -> length e = length (tshape x) -> length st = length (tshape x) ->
    exists s' e' st', pt_table perm s = Some s' /\ pt_table perm e = Some e' /\ pt_table perm st = Some st' /\
      teq (transpose perm (strided_slice s' e' st' (transpose (pt_inv perm) x))) (strided_slice s e st x).
Proof. exact @pt_strided_slice_ok. Qed.
Print Assumptions C17_strided_slice.

(** sums, means, products, minima and maxima over any axes: reductions that do not depend on the
    order of the elements *)
Theorem C17_reduce :
  forall (A B : Type) (red : list A -> B) (perm axes : list nat) (x : tensor A),
    (forall l m, Permutation l m -> red l = red m) ->
    is_perm (length (tshape x)) perm -> Forall (fun a => a < length (tshape x)) axes ->
    exists axes', pt_axes perm axes = Some axes' /\
      teq (transpose perm (reduce red axes' (transpose (pt_inv perm) x))) (reduce red axes x).
Proof. exact @pt_reduce_ok. Qed.
Print Assumptions C17_reduce.

Theorem C17_unpack :
  forall (A : Type) (perm : list nat) (ax j : nat) (x : tensor A),
    is_perm (length (tshape x)) perm -> ax < length (tshape x) ->
    exists ax', pt_axis perm ax = Some ax' /\
      teq (transpose (unpack_post perm ax) (unpack ax' j (transpose (pt_inv perm) x))) (unpack ax j x).
Proof. exact @pt_unpack_ok. Qed.
Print Assumptions C17_unpack.

(** Missing for the full claim: permutations that move the packing axis (they come from transposes
    behind the node); see [C17_pack_refuted]. *)
Theorem C17_pack_partial :
  forall (A : Type) (d : A) (perm : list nat) (ax : nat) (sh : list nat) (ts : list (tensor A)),
    ts <> [] -> Forall (fun t => tshape t = sh) ts ->
    is_perm (S (length sh)) perm -> ax <= length sh -> nth ax perm 0 = ax ->
    exists ax', pack_axis perm ax = Some ax' /\
      teq (transpose perm (pack d ax' (map (transpose (pack_pre perm ax)) ts))) (pack d ax ts).
Proof. exact @pt_pack_ok. Qed.
Print Assumptions C17_pack_partial.
(** the permutations taken from transposes in front of the node qualify *)
Theorem C17_pack_candidates :
  forall (m ax : nat) (p : list nat), is_perm m p -> ax <= m ->
    is_perm (S m) (insert_axis ax p) /\ nth ax (insert_axis ax p) 0 = ax /\ drop_axis ax (insert_axis ax p) = p.
Proof. exact insert_axis_ok. Qed.
Print Assumptions C17_pack_candidates.

Theorem C17_pack_refuted :
  exists (perm : list nat) (ax : nat) (ts : list (tensor nat)) (ax' : nat),
    is_perm 3 perm /\ Forall (fun t => tshape t = [2; 2]) ts /\ pack_axis perm ax = Some ax' /\
    ~ teq (transpose perm (pack 0 ax' (map (transpose (pack_pre perm ax)) ts))) (pack 0 ax ts).
Proof.
  exists [2; 0; 1], 0, [mkT [2; 2] (fun i => match i with [a; b] => 2 * a + b | _ => 0 end); mkT [2; 2] (fun _ => 9)], 2.
  split; [unfold is_perm; cbn; apply (Permutation_trans (perm_swap 0 2 [1])); constructor; apply perm_swap|].
  split; [repeat constructor|]. split; [reflexivity|]. intros [_ H]. specialize (H [0; 0; 1]).
  assert (valid [2; 2; 2] [0; 0; 1]) as V by (repeat constructor). specialize (H V). vm_compute in H. discriminate.
Qed.
Print Assumptions C17_pack_refuted.

(** an UNPACK node with an output nobody reads always raises *)
Theorem C17_unused_output_refuted :
  forall (n : nat) (perm oshape : list nat), is_perm (S n) perm -> length oshape = n -> unused_shape perm oshape = None.
Proof.
  intros n perm oshape Hp L. unfold unused_shape. pose proof (pt_inv_perm _ _ Hp) as Hq.
  assert (In n (pt_inv perm)) as Hin by (apply (is_perm_in _ _ _ Hq); lia). revert Hin. generalize (pt_inv perm). clear - L.
  induction l as [|k l IH]; [intros []|]. intros [->|Hin]; cbn [take_all].
  - rewrite (proj2 (nth_error_None oshape n)) by lia. reflexivity.
  - rewrite IH by auto. destruct (nth_error oshape k); reflexivity.
Qed.
Print Assumptions C17_unused_output_refuted.

(** Broadcasting operators, for permutations of the rank of the result.
    Missing for the full claim: a permutation of smaller rank, see [C17_binary_rank_refuted]. *)
Theorem C17_binary_partial :
  forall (A B C : Type) (f : A -> B -> C) (perm : list nat) (x : tensor A) (y : tensor B) (z : tensor C),
    binop f x y = Some z -> is_perm (length (tshape z)) perm ->
    exists x' y' z', pt_binary perm x y = Some (x', y') /\ binop f x' y' = Some z' /\ teq (transpose perm z') z.
Proof. exact @pt_binary_ok. Qed.
Print Assumptions C17_binary_partial.
(** the permutation of a transposed operand of lower rank makes [np.transpose] raise *)
Theorem C17_binary_rank_refuted :
  exists (perm : list nat) (x y : tensor nat), is_perm (length (tshape x)) perm /\
    binop Nat.add x y <> None /\ pt_binary perm x y = None.
Proof.
  exists [1; 0], (mkT [3; 4] (fun _ => 0)), (mkT [2; 3; 4] (fun _ => 0)).
  split; [apply perm_swap|]. split; [discriminate|]. reflexivity.
Qed.
Print Assumptions C17_binary_rank_refuted.

(** Missing for the full claim: permutations that move the first axis, and weights of rank 1 with
    more than one element; see [C17_prelu_refuted]. *)
Theorem C17_prelu_partial :
  forall (perm : list nat) (x w z : tensor R),
    prelu x w = Some z -> is_perm (length (tshape x)) perm ->
    length (tshape x) = S (length (tshape w)) -> length (tshape w) <> 1 -> nth 0 (pt_inv perm) 0 = 0 ->
    exists w' z', pt_prelu_weight perm w = Some w' /\ prelu (transpose (pt_inv perm) x) w' = Some z' /\ teq (transpose perm z') z.
Proof. exact pt_prelu_ok. Qed.
Print Assumptions C17_prelu_partial.
(** a weight per column, and the transpose of a matrix: the new node has no result at all *)
Theorem C17_prelu_refuted :
  exists (perm : list nat) (x w : tensor R), is_perm 2 perm /\ prelu x w <> None /\
    exists w', pt_prelu_weight perm w = Some w' /\ prelu (transpose (pt_inv perm) x) w' = None.
Proof.
  exists [1; 0], (mkT [4; 3] (fun _ => 0%R)), (mkT [3] (fun _ => 0%R)). split; [apply perm_swap|]. split; [discriminate|].
  eexists. split; reflexivity.
Qed.
Print Assumptions C17_prelu_refuted.

(** GATHER with an index matrix (an embedding): the table is made rank 3 and the axis remapped, and
    the result no longer even has the right shape *)
Theorem C17_embedding_refuted :
  exists (perm : list nat) (ix : tensor nat) (x : tensor nat) (ax' : nat) (x' : tensor nat),
    is_perm (length (tshape (gather_nd 0 ix x))) perm /\
    (forall i, valid (tshape ix) i -> tget ix i < nth 0 (tshape x) 0) /\
    pt_operand perm x = Some x' /\ pt_axis perm 0 = Some ax' /\
    tshape (transpose perm (gather_nd ax' ix x')) <> tshape (gather_nd 0 ix x).
Proof.
  exists [0; 2; 1], (mkT [2; 3] (fun _ => 1)), (mkT [7; 5] (fun i => nth 0 i 0)), 0. eexists.
  split; [unfold is_perm; cbn; apply perm_skip, perm_swap|]. split; [intros; cbn; lia|]. split; [reflexivity|]. split; [reflexivity|].
  vm_compute. discriminate.
Qed.
Print Assumptions C17_embedding_refuted.

Local Ltac perm3 := unfold is_perm; cbn; apply (Permutation_trans (perm_swap 0 2 [1])); constructor; apply perm_swap.
(** the permutation [2;0;1] is not its own inverse; axis 0 becomes axis 2 *)
Example C17_example :
  let x := mkT [2; 3; 4] (fun i => match i with [a; b; c] => 100 * a + 10 * b + c | _ => 0 end) in
  is_perm (length (tshape x)) [2; 0; 1] /\ pt_inv [2; 0; 1] = [1; 2; 0] /\ pt_axis [2; 0; 1] 0 = Some 2 /\
  pt_table [2; 0; 1] [(1, 0); (2, 0); (0, 3)] = Some [(2, 0); (0, 3); (1, 0)] /\
  pt_axes [2; 0; 1] [0; 2] = Some [2; 1] /\
  tget (transpose [2; 0; 1] (gather 2 [1; 1; 0] (transpose (pt_inv [2; 0; 1]) x))) [0; 2; 3] = 123 /\
  (forall l m : list nat, Permutation l m -> list_sum l = list_sum m).
Proof.
  cbv zeta. split; [perm3|]. do 5 (split; [reflexivity|]).
  intros l m Hlm. induction Hlm as [|a l m _ IH|a b l|l m k _ IH1 _ IH2]; [reflexivity|cbn in *; f_equal; exact IH| |exact (eq_trans IH1 IH2)].
  cbn. rewrite !Nat.add_assoc. f_equal. apply Nat.add_comm.
Qed.
Example C17_example_shapes :
  insert_axis 1 [1; 0] = [2; 1; 0] /\ unpack_post [2; 0; 1] 1 = [1; 0] /\
  binop Nat.add (mkT [2; 3; 4] (fun _ => 1)) (mkT [4] (fun i => nth 0 i 0)) <> None /\
  (exists z, prelu (mkT [2; 3; 4] (fun _ => (-1)%R)) (mkT [3; 1] (fun i => 2%R)) = Some z) /\
  is_perm 3 [0; 2; 1] /\ nth 0 (pt_inv [0; 2; 1]) 0 = 0.
Proof.
  split; [reflexivity|]. split; [reflexivity|]. split; [discriminate|]. split; [eexists; reflexivity|].
  split; [unfold is_perm; cbn; apply perm_skip, perm_swap|reflexivity].
Qed.

(** ** C28: every operator that passes the test computes the identity.  [nwf] are the conditions
    under which the operator is meaningful; in particular padding amounts are not negative and the
    gather indices are the ones in the graph.  Missing for the full claim: see the refutations. *)
Theorem C28_noop_partial :
  forall (A : Type) (d : A) (conv : nat -> nat -> A -> A) (nd : nnode) (x : tensor A),
    (forall a v, conv a a v = v) -> nwf nd x ->
    is_noop nd (tshape x) (tshape (nsem d conv nd x)) = true -> teq (nsem d conv nd x) x.
Proof. exact @noop_ok. Qed.
Print Assumptions C28_noop_partial.

(** cropping one element in front and adding one behind keeps the shape *)
Theorem C28_negative_pad_refuted :
  exists (pads : list (Z * Z)) (x : tensor nat),
    length pads = length (tshape x) /\ is_noop (NPad pads) (tshape x) (tshape (padz 0 pads x)) = true /\ ~ teq (padz 0 pads x) x.
Proof.
  exists [((-1)%Z, 1%Z)], (mkT [3] (fun i => nth 0 i 0)). split; [reflexivity|]. split; [reflexivity|].
  intros [_ H]. specialize (H [0]). assert (valid [3] [0]) as V by (constructor; [lia|constructor]). specialize (H V). vm_compute in H. discriminate.
Qed.
Print Assumptions C28_negative_pad_refuted.

(** the test reads the index values seen while tracing, also when the index is a graph input *)
Theorem C28_runtime_index_refuted :
  exists (traced actual : list nat) (x : tensor nat),
    length actual = length traced /\ Forall (fun i => i < nth 0 (tshape x) 0) actual /\
    is_noop (NGather 0 traced) (tshape x) (tshape (gather 0 traced x)) = true /\ ~ teq (gather 0 actual x) x.
Proof.
  exists [0; 1; 2], [2; 1; 0], (mkT [3] (fun i => nth 0 i 0)). split; [reflexivity|]. split; [repeat constructor|]. split; [reflexivity|].
  intros [_ H]. specialize (H [0]). assert (valid [3] [0]) as V by (constructor; [lia|constructor]). specialize (H V). vm_compute in H. discriminate.
Qed.
Print Assumptions C28_runtime_index_refuted.

Example C28_example :
  let x := mkT [2; 3] (fun i => nth 1 i 0) in
  (nwf (NStridedSlice [0; 0] [2; 9] [1; 1]) x /\ is_noop (NStridedSlice [0; 0] [2; 9] [1; 1]) (tshape x) (slice_shape (tshape x) [0; 0] [2; 9] [1; 1]) = true) /\
  (nwf (NTranspose [0; 1]) x /\ is_noop (NTranspose [0; 1]) (tshape x) [2; 3] = true) /\
  (nwf (NGather 1 [0; 1; 2]) x /\ is_noop (NGather 1 [0; 1; 2]) (tshape x) [2; 3] = true) /\
  is_noop (NGather 1 [0; 2; 1]) (tshape x) [2; 3] = false /\ is_noop (NTranspose [1; 0]) [3; 3] [3; 3] = false.
Proof.
  cbv zeta. split; [split; [|reflexivity]|split; [split; [|reflexivity]|split; [split; [|reflexivity]|split; reflexivity]]].
  - cbn. repeat split; auto.
  - apply Permutation_refl.
  - cbn. split; [lia|]. repeat constructor.
Qed.
