(** Where moving a reshape across another node raises or changes the result. *)
From Coq Require Import List Arith Bool Reals Lia Lra.
From Verif Require Import Tensor ChainModel ConvSpec CatSpec LayoutSpec PassModel FuseModel PassReshapeModel.
Import ListNotations.
Local Open Scope nat_scope.

Ltac offer a b := left; exists a, b; split; [left; reflexivity|reflexivity].

(** reshape [2,1,2] -> [2,2], then + a constant of shape [1,2,1] *)
Lemma binary_wrong : exists (x y z : tensor nat) P N x' y' z',
  offered KOther None [tshape x; tshape y] [tshape z] P N /\ binop Nat.add x y = Some z /\
  rp_binary false P N (tshape z) x y = Some (x', y') /\ binop Nat.add x' y' = Some z' /\ ~ teq (reshape (tshape z) z') z.
Proof.
  exists (mkT [2; 2] (fun _ => 0)), (mkT [1; 2; 1] (fun i => nth 1 i 0)). eexists. exists [2; 1; 2], [2; 2]. do 3 eexists.
  split; [offer [2; 1; 2] [2; 2]|]. split; [reflexivity|]. split; [reflexivity|]. split; [reflexivity|].
  intros [_ H]. specialize (H [0; 1; 0]). cbn in H. assert (valid [1; 2; 2] [0; 1; 0]) as V by (repeat constructor). specialize (H V). discriminate.
Qed.
(** reshape [3] -> [1,3], then + a constant of shape [4,3] *)
Lemma binary_raises : exists (x y z : tensor nat) P N,
  offered KOther None [tshape x; tshape y] [tshape z] P N /\ binop Nat.add x y = Some z /\ rp_binary false P N (tshape z) x y = None.
Proof.
  exists (mkT [1; 3] (fun _ => 0)), (mkT [4; 3] (fun _ => 0)). eexists. exists [3], [1; 3].
  split; [offer [3] [1; 3]|]. split; reflexivity.
Qed.
(** UNPACK of [5,1,7] along axis 0, every output squeezed to [7] *)
Lemma unpack_raises : exists (x : tensor nat) b P N, forall j, j < 5 ->
  cand_next KUnpack (Some 0) (tshape (unpack 0 j x)) b = Some (P, N) /\ rp_operand KUnpack P N x = None /\ rp_axis P = None.
Proof. exists (mkT [5; 1; 7] (fun _ => 0)), [7], [7], [0; 1; 7]. intros j _. repeat split. Qed.
(** PACK along axis 0 of tensors reshaped from [7] to [1,7] *)
Lemma pack_raises : exists (a : list nat) (t : tensor nat) P N,
  cand_prev KPack (Some 0) a (tshape t) = Some (P, N) /\ rp_axis P = None.
Proof. exists [7], (mkT [1; 7] (fun _ => 0)), [7], [0; 1; 7]. repeat split. Qed.
(** [C,H,W] -> [1,C,H,W], then PRELU with C = W = 2 *)
Lemma prelu_first : exists (x w z : tensor R) P N x' w' z',
  dims_prelu (tshape w) = Some 1 /\ offered KOther (Some 1) [tshape x] [tshape z] P N /\ prelu x w = Some z /\
  rp_operand KOther P N x = Some x' /\ rp_prelu_weight P N w = Some w' /\ prelu x' w' = Some z' /\ ~ teq (reshape (tshape z) z') z.
Proof.
  exists (mkT [1; 2; 3; 2] (fun _ => (-1)%R)), (mkT [2; 1; 1] (fun i => INR (nth 0 i 0))). eexists. exists [0; 3; 2], [1; 0; 3; 2]. do 3 eexists.
  split; [reflexivity|]. split; [left; exists [2; 3; 2], [1; 2; 3; 2]; split; [left; reflexivity|reflexivity]|].
  split; [reflexivity|]. split; [reflexivity|]. split; [reflexivity|]. split; [reflexivity|].
  intros [_ H]. specialize (H [0; 1; 0; 0]). assert (valid [1; 2; 3; 2] [0; 1; 0; 0]) as V by (repeat constructor). specialize (H V).
  cbn in H. destruct (Rle_dec 0 (-1)); lra.
Qed.
(** [N,C,1] -> [N,C], then PRELU with a weight vector *)
Lemma prelu_vector : exists (x w z : tensor R) P N x' w' z',
  dims_prelu (tshape w) = Some 1 /\ offered KOther (Some 1) [tshape x] [tshape z] P N /\ prelu x w = Some z /\
  rp_operand KOther P N x = Some x' /\ rp_prelu_weight P N w = Some w' /\ prelu x' w' = Some z' /\ rp_recorded KOther P (tshape z) <> Some (tshape z').
Proof.
  exists (mkT [2; 3] (fun _ => (-1)%R)), (mkT [3] (fun i => INR (nth 0 i 0))). eexists. exists [2; 0; 1], [2; 0]. do 3 eexists.
  split; [reflexivity|]. split; [left; exists [2; 3; 1], [2; 3]; split; [left; reflexivity|reflexivity]|].
  split; [reflexivity|]. split; [reflexivity|]. split; [reflexivity|]. split; [reflexivity|]. cbn. discriminate.
Qed.
(** an embedding, [N,L,E] -> [N,1,L,E] behind it *)
Lemma embedding_wrong : exists (table : tensor nat) (ix : tensor nat) P N ax' t',
  (forall i, valid (tshape ix) i -> tget ix i < nth 0 (tshape table) 0) /\
  offered KOther (Some 0) [tshape table] [tshape (gather_nd 0 ix table)] P N /\
  rp_axis P = Some ax' /\ rp_operand KOther P N table = Some t' /\
  rp_recorded KOther P (tshape (gather_nd 0 ix table)) <> Some (tshape (gather_nd ax' ix t')) /\
  (exists i, valid (tshape ix) i /\ nth ax' (tshape t') 0 <= tget ix i).
Proof.
  exists (mkT [6; 4] (fun _ => 0)), (mkT [2; 3] (fun i => nth 1 i 0)), [0; 1; 3; 4], [0; 3; 4], 0. eexists.
  split; [intros i V; cbn in *; pose proof (valid_nth _ _ 1 V ltac:(cbn; lia)) as H; cbn in H; lia|].
  split; [right; exists [2; 3; 4], [2; 1; 3; 4]; split; [left; reflexivity|reflexivity]|].
  split; [reflexivity|]. split; [reflexivity|]. split; [cbn; discriminate|]. exists [0; 1]. split; [repeat constructor|cbn; lia].
Qed.
(** PAD of two axes, a reshape [1,2,3] -> [2,3] in front of it *)
Lemma multi_axis_raises : exists (x : tensor nat) pads P N,
  dims_pad pads = None /\ offered KOther (dims_pad pads) [tshape x] [tshape (pad_op 0 pads x)] P N /\
  rp_recorded KOther P (tshape (pad_op 0 pads x)) = None /\ rp_row (0, 0) P N pads = None.
Proof.
  exists (mkT [2; 3] (fun _ => 0)), [(1, 1); (1, 1)], [1; 2; 3], [2; 3]. split; [reflexivity|]. split; [offer [1; 2; 3] [2; 3]|]. split; reflexivity.
Qed.
Lemma multi_reduce_raises : exists (x : tensor nat) axes P N,
  dims_reduce axes = None /\ offered KOther (dims_reduce axes) [tshape x] [tshape (reduce (@length nat) axes x)] P N /\
  rp_recorded KOther P (tshape (reduce (@length nat) axes x)) = None /\ rp_axis P = None.
Proof.
  exists (mkT [2; 3] (fun _ => 0)), [0; 1], [1; 2; 3], [2; 3]. split; [reflexivity|]. split; [offer [1; 2; 3] [2; 3]|]. split; reflexivity.
Qed.
