(** C95, C96: moving transposes across a RESHAPE, and reshapes across another node.  Marked axes
    (-1 in the code) are written 0 in the shapes. *)
From Coq Require Import List Arith Reals Lia.
From Verif Require Import Tensor ChainModel ConvSpec CatSpec LayoutSpec PassModel FuseModel PassReshapeModel PassReshapeProofs
  PassReshapeOpProofs PassReshapeOp2Proofs PassReshapeOp3Proofs PassReshapeOp4Proofs PassReshapeOp5Proofs PassReshapeRefProofs
  PassReshapeSelProofs.
Import ListNotations.
Local Open Scope nat_scope.

(* ------------------------------------------------------------------ *)
(** a transpose in front of a RESHAPE to [r] is moved behind it: what is put in front cancels it, and the node with its
    new shape between the two transposes computes the old result *)
Theorem C95_down : forall A (t : tensor A) r perm pre sh post,
  Forall (fun d => 0 < d) (tshape t) /\ Forall (fun d => 0 < d) r /\ prod (tshape t) = prod r ->
  rt_mode (tshape t) r = Some MDown -> is_perm (length (tshape t)) perm ->
  rt_plan (tshape t) r perm = Some (pre, sh, post) ->
  (forall x : tensor A, length (tshape x) = length (tshape t) -> teq (transpose pre (transpose perm x)) x) /\
  teq (transpose post (reshape sh (transpose pre t))) (reshape r t).
Proof. exact @rt_down. Qed.
Print Assumptions C95_down.
(** the same for a transpose behind the RESHAPE *)
Theorem C95_up : forall A (t : tensor A) r perm pre sh post,
  Forall (fun d => 0 < d) (tshape t) /\ Forall (fun d => 0 < d) r /\ prod (tshape t) = prod r ->
  rt_mode (tshape t) r = Some MUp -> is_perm (length r) perm ->
  rt_plan (tshape t) r perm = Some (pre, sh, post) ->
  (forall y : tensor A, length (tshape y) = length r -> teq (transpose perm (transpose post y)) y) /\
  teq (transpose post (reshape sh (transpose pre t))) (reshape r t).
Proof. exact @rt_up. Qed.
Print Assumptions C95_up.
(** without groups of several axes on both sides every candidate is carried out *)
Theorem C95_defined : forall l r perm gs m,
  Forall (fun d => 0 < d) l /\ Forall (fun d => 0 < d) r /\ prod l = prod r ->
  rt_groups l r = Some gs -> rt_mode l r = Some m ->
  is_perm (match m with MDown => length l | _ => length r end) perm ->
  Forall (fun p : list nat * list nat => both_many p = false) gs -> rt_plan l r perm <> None.
Proof. exact rt_defined. Qed.
Print Assumptions C95_defined.
Example C95_ex_down : rt_mode [2; 5; 12] [2; 5; 3; 4] = Some MDown /\ is_perm 3 [0; 2; 1] /\
  rt_plan [2; 5; 12] [2; 5; 3; 4] [0; 2; 1] = Some ([0; 2; 1], [2; 3; 4; 5], [0; 3; 1; 2]).
Proof. split; [reflexivity|]. split; [repeat constructor|reflexivity]. Qed.
Example C95_ex_up : rt_mode [2; 3; 4; 5] [2; 12; 5] = Some MUp /\
  rt_plan [2; 3; 4; 5] [2; 12; 5] [2; 0; 1] = Some ([3; 0; 1; 2], [5; 2; 12], [1; 2; 0]).
Proof. split; reflexivity. Qed.
(** a group of two axes on both sides, kept together by the permutation *)
Example C95_ex_chain : rt_mode [2; 6; 5] [3; 4; 5] = Some MDown /\
  rt_plan [2; 6; 5] [3; 4; 5] [1; 2; 0] = Some ([2; 0; 1], [5; 3; 4], [1; 2; 0]).
Proof. split; reflexivity. Qed.

(* ------------------------------------------------------------------ *)
(** a GATHER of chosen slices: the reshape is moved to the other side, the axis is renumbered, and the reshape put behind restores the old result *)
Theorem C96_gather : forall A ax ix (x : tensor A) P N,
  Forall (fun d => 0 < d) (tshape x) ->
  ax < length (tshape x) ->
  Forall (fun i => i < nth ax (tshape x) 0) ix ->
  offered KOther (Some ax) [tshape x] [tshape (gather ax ix x)] P N ->
  exists ax' (x' : tensor A), rp_axis P = Some ax' /\ rp_operand KOther P N x = Some x' /\
    rp_recorded KOther P (tshape (gather ax ix x)) = Some (tshape (gather ax' ix x')) /\
    teq (reshape (tshape (gather ax ix x)) (gather ax' ix x')) (gather ax ix x).
Proof. exact @gather_moved. Qed.
Print Assumptions C96_gather.
Example C96_gather_ex : forall f : list nat -> nat, offered KOther (Some 1) [[2; 3; 4]] [tshape (gather 1 [2; 0] (mkT [2; 3; 4] f))] [2; 1; 0; 4] [2; 0; 4] /\
  rp_axis [2; 1; 0; 4] = Some 2.
Proof. intros f. split; [|reflexivity]. left; exists [2; 1; 3; 4], [2; 3; 4]; split; [left; reflexivity|reflexivity]. Qed.
(** SPLIT and SPLIT_V: every output is restored *)
Theorem C96_split : forall A ax parts (x : tensor A) P N,
  Forall (fun d => 0 < d) (tshape x) ->
  ax < length (tshape x) ->
  Forall (fun p => fst p + snd p <= nth ax (tshape x) 0) parts ->
  offered KOther (Some ax) [tshape x] (map (fun p => tshape (chunk ax (fst p) (snd p) x)) parts) P N ->
  exists ax' (x' : tensor A), rp_axis P = Some ax' /\ rp_operand KOther P N x = Some x' /\
    Forall (fun p => rp_recorded KOther P (tshape (chunk ax (fst p) (snd p) x)) = Some (tshape (chunk ax' (fst p) (snd p) x')) /\
    teq (reshape (tshape (chunk ax (fst p) (snd p) x)) (chunk ax' (fst p) (snd p) x')) (chunk ax (fst p) (snd p) x)) parts.
Proof. exact @chunk_moved. Qed.
Print Assumptions C96_split.
Example C96_split_ex : forall f : list nat -> nat, offered KOther (Some 1) [[2; 6; 4]] (map (fun p => tshape (chunk 1 (fst p) (snd p) (mkT [2; 6; 4] f))) [(0, 2); (2, 4)]) [2; 0; 1; 4] [2; 0; 4] /\
  Forall (fun p => fst p + snd p <= 6) [(0, 2); (2, 4)].
Proof. intros f. split; [|repeat constructor]. right. exists [2; 2; 4], [2; 2; 1; 4]. split; [left; reflexivity|reflexivity]. Qed.
(** PAD and PADV2 of one axis *)
Theorem C96_pad : forall A (v : A) pads ax (x : tensor A) P N,
  Forall (fun d => 0 < d) (tshape x) ->
  length pads = length (tshape x) ->
  dims_pad pads = Some ax ->
  offered KOther (Some ax) [tshape x] [tshape (pad_op v pads x)] P N ->
  exists pads' (x' : tensor A), rp_row (0, 0) P N pads = Some pads' /\ rp_operand KOther P N x = Some x' /\
    rp_recorded KOther P (tshape (pad_op v pads x)) = Some (tshape (pad_op v pads' x')) /\
    teq (reshape (tshape (pad_op v pads x)) (pad_op v pads' x')) (pad_op v pads x).
Proof. exact @pad_moved. Qed.
Print Assumptions C96_pad.
Example C96_pad_ex : forall f : list nat -> nat, dims_pad [(0, 0); (1, 2); (0, 0)] = Some 1 /\
  offered KOther (Some 1) [[2; 3; 4]] [tshape (pad_op 0 [(0, 0); (1, 2); (0, 0)] (mkT [2; 3; 4] f))] [1; 2; 0; 4] [2; 0; 4] /\
  rp_row (0, 0) [1; 2; 0; 4] [2; 0; 4] [(0, 0); (1, 2); (0, 0)] = Some [(0, 0); (0, 0); (1, 2); (0, 0)].
Proof. intros f. split; [reflexivity|]. split; [|reflexivity]. left; exists [1; 2; 3; 4], [2; 3; 4]; split; [left; reflexivity|reflexivity]. Qed.
(** MIRROR_PAD of one axis *)
Theorem C96_mirror_pad : forall A pads ax (x : tensor A) P N,
  Forall (fun d => 0 < d) (tshape x) ->
  length pads = length (tshape x) ->
  dims_pad pads = Some ax ->
  fst (nth ax pads (0, 0)) < nth ax (tshape x) 0 ->
  snd (nth ax pads (0, 0)) < nth ax (tshape x) 0 ->
  offered KOther (Some ax) [tshape x] [tshape (mirror_pad pads x)] P N ->
  exists pads' (x' : tensor A), rp_row (0, 0) P N pads = Some pads' /\ rp_operand KOther P N x = Some x' /\
    rp_recorded KOther P (tshape (mirror_pad pads x)) = Some (tshape (mirror_pad pads' x')) /\
    teq (reshape (tshape (mirror_pad pads x)) (mirror_pad pads' x')) (mirror_pad pads x).
Proof. exact @mirror_moved. Qed.
Print Assumptions C96_mirror_pad.
Example C96_mirror_pad_ex : forall f : list nat -> nat, dims_pad [(0, 0); (1, 2); (0, 0)] = Some 1 /\
  offered KOther (Some 1) [[2; 3; 4]] [tshape (mirror_pad [(0, 0); (1, 2); (0, 0)] (mkT [2; 3; 4] f))] [1; 2; 0; 4] [2; 0; 4].
Proof. intros f. split; [reflexivity|]. left; exists [1; 2; 3; 4], [2; 3; 4]; split; [left; reflexivity|reflexivity]. Qed.
(** SLICE of one axis *)
Theorem C96_slice : forall A begin size ax (x : tensor A) P N,
  Forall (fun d => 0 < d) (tshape x) ->
  length begin = length (tshape x) ->
  length size = length (tshape x) ->
  (forall k, k < length (tshape x) -> nth k begin 0 + nth k size 0 <= nth k (tshape x) 0) ->
  dims_shape (tshape x) (tshape (slice_op begin size x)) = Some ax ->
  offered KOther (Some ax) [tshape x] [tshape (slice_op begin size x)] P N ->
  exists begin' size' (x' : tensor A), rp_row 0 P N begin = Some begin' /\ rp_extent P N size = Some size' /\ rp_operand KOther P N x = Some x' /\
    rp_recorded KOther P (tshape (slice_op begin size x)) = Some (tshape (slice_op begin' size' x')) /\
    teq (reshape (tshape (slice_op begin size x)) (slice_op begin' size' x')) (slice_op begin size x).
Proof. exact @slice_moved. Qed.
Print Assumptions C96_slice.
Example C96_slice_ex : forall f : list nat -> nat, dims_shape [2; 3; 4] (tshape (slice_op [0; 1; 0] [2; 2; 4] (mkT [2; 3; 4] f))) = Some 1 /\
  offered KOther (Some 1) [[2; 3; 4]] [tshape (slice_op [0; 1; 0] [2; 2; 4] (mkT [2; 3; 4] f))] [2; 0; 1; 4] [2; 0; 4] /\
  rp_row 0 [2; 0; 1; 4] [2; 0; 4] [0; 1; 0] = Some [0; 1; 0; 0] /\ rp_extent [2; 0; 1; 4] [2; 0; 4] [2; 2; 4] = Some [2; 2; 1; 4].
Proof. intros f. split; [reflexivity|]. split; [|split; reflexivity]. right; exists [2; 2; 4], [2; 2; 1; 4]; split; [left; reflexivity|reflexivity]. Qed.
(** STRIDED_SLICE of one axis *)
Theorem C96_strided_slice : forall A s e st ax (x : tensor A) P N,
  Forall (fun d => 0 < d) (tshape x) ->
  length s = length (tshape x) ->
  length e = length (tshape x) ->
  length st = length (tshape x) ->
  Forall (fun d => 0 < d) st ->
  dims_shape (tshape x) (tshape (strided_slice s e st x)) = Some ax ->
  offered KOther (Some ax) [tshape x] [tshape (strided_slice s e st x)] P N ->
  exists s' e' st' (x' : tensor A), rp_row 0 P N s = Some s' /\ rp_extent P N e = Some e' /\ rp_row 1 P N st = Some st' /\
    rp_operand KOther P N x = Some x' /\
    rp_recorded KOther P (tshape (strided_slice s e st x)) = Some (tshape (strided_slice s' e' st' x')) /\
    teq (reshape (tshape (strided_slice s e st x)) (strided_slice s' e' st' x')) (strided_slice s e st x).
Proof. exact @strided_moved. Qed.
Print Assumptions C96_strided_slice.
Example C96_strided_slice_ex : forall f : list nat -> nat, dims_shape [2; 7; 4] (tshape (strided_slice [0; 1; 0] [2; 7; 4] [1; 2; 1] (mkT [2; 7; 4] f))) = Some 1 /\
  offered KOther (Some 1) [[2; 7; 4]] [tshape (strided_slice [0; 1; 0] [2; 7; 4] [1; 2; 1] (mkT [2; 7; 4] f))] [2; 0; 1; 4] [2; 0; 4].
Proof. intros f. split; [reflexivity|]. left; exists [2; 7; 1; 4], [2; 7; 4]; split; [left; reflexivity|reflexivity]. Qed.
(** TILE along one axis *)
Theorem C96_tile : forall A m ax (x : tensor A) P N,
  Forall (fun d => 0 < d) (tshape x) ->
  length m = length (tshape x) ->
  dims_shape (tshape x) (tshape (tile m x)) = Some ax ->
  offered KOther (Some ax) [tshape x] [tshape (tile m x)] P N ->
  exists m' (x' : tensor A), rp_row 1 P N m = Some m' /\ rp_operand KOther P N x = Some x' /\
    rp_recorded KOther P (tshape (tile m x)) = Some (tshape (tile m' x')) /\
    teq (reshape (tshape (tile m x)) (tile m' x')) (tile m x).
Proof. exact @tile_moved. Qed.
Print Assumptions C96_tile.
Example C96_tile_ex : forall f : list nat -> nat, dims_shape [2; 3; 4] (tshape (tile [1; 5; 1] (mkT [2; 3; 4] f))) = Some 1 /\
  offered KOther (Some 1) [[2; 3; 4]] [tshape (tile [1; 5; 1] (mkT [2; 3; 4] f))] [1; 2; 0; 4] [2; 0; 4] /\
  rp_row 1 [1; 2; 0; 4] [2; 0; 4] [1; 5; 1] = Some [1; 1; 5; 1].
Proof. intros f. split; [reflexivity|]. split; [|reflexivity]. left; exists [1; 2; 3; 4], [2; 3; 4]; split; [left; reflexivity|reflexivity]. Qed.
(** CONCATENATION *)
Theorem C96_concatenation : forall A (dv : A) ax (ts : list (tensor A)) P N,
  ts <> [] ->
  cat_compat ax ts ->
  Forall (fun t => Forall (fun d => 0 < d) (tshape t)) ts ->
  offered KOther (Some ax) (map tshape ts) [tshape (concatenation dv ax ts)] P N ->
  exists ax' (ts' : list (tensor A)), rp_axis P = Some ax' /\ Forall2 (fun t t' => rp_operand KOther P N t = Some t') ts ts' /\
    rp_recorded KOther P (tshape (concatenation dv ax ts)) = Some (tshape (concatenation dv ax' ts')) /\
    teq (reshape (tshape (concatenation dv ax ts)) (concatenation dv ax' ts')) (concatenation dv ax ts).
Proof. exact @cat_moved. Qed.
Print Assumptions C96_concatenation.
Example C96_concatenation_ex : forall f g : list nat -> nat, cat_compat 1 [mkT [2; 3; 4] f; mkT [2; 5; 4] g] /\
  offered KOther (Some 1) [[2; 3; 4]; [2; 5; 4]] [[2; 8; 4]] [2; 0; 1; 4] [2; 0; 4].
Proof. intros f g. split; [exists [2; 3; 4]; split; [cbn; lia|repeat constructor]|]. left. exists [2; 5; 1; 4], [2; 5; 4]. split; [right; left; reflexivity|reflexivity]. Qed.
(** SUM, MEAN, REDUCE_MAX, ... with kept dimensions over one axis *)
Theorem C96_reduce : forall A B (red : list A -> B) axes ax (x : tensor A) P N,
  Forall (fun d => 0 < d) (tshape x) ->
  dims_reduce axes = Some ax ->
  ax < length (tshape x) ->
  offered KOther (Some ax) [tshape x] [tshape (reduce red axes x)] P N ->
  exists ax' (x' : tensor A), rp_axis P = Some ax' /\ rp_operand KOther P N x = Some x' /\
    rp_recorded KOther P (tshape (reduce red axes x)) = Some (tshape (reduce red [ax'] x')) /\
    teq (reshape (tshape (reduce red axes x)) (reduce red [ax'] x')) (reduce red axes x).
Proof. exact @reduce_moved. Qed.
Print Assumptions C96_reduce.
Example C96_reduce_ex : dims_reduce [1] = Some 1 /\ offered KOther (Some 1) [[2; 3; 4]] [[2; 1; 4]] [1; 2; 0; 4] [2; 0; 4] /\ rp_axis [1; 2; 0; 4] = Some 2.
Proof. split; [reflexivity|]. split; [|reflexivity]. left; exists [1; 2; 3; 4], [2; 3; 4]; split; [left; reflexivity|reflexivity]. Qed.
(** unary operators *)
Theorem C96_unary : forall A B (f : A -> B) (x : tensor A) P N,
  Forall (fun d => 0 < d) (tshape x) ->
  offered KOther None [tshape x] [tshape (tmap f x)] P N ->
  exists x' : tensor A, rp_operand KOther P N x = Some x' /\
    rp_recorded KOther P (tshape (tmap f x)) = Some (tshape (tmap f x')) /\
    teq (reshape (tshape (tmap f x)) (tmap f x')) (tmap f x).
Proof. exact @unary_moved. Qed.
Print Assumptions C96_unary.
Example C96_unary_ex : offered KOther None [[2; 3; 4]] [[2; 3; 4]] [2; 1; 3; 4] [2; 3; 4].
Proof. left; exists [2; 1; 3; 4], [2; 3; 4]; split; [left; reflexivity|reflexivity]. Qed.
(** binary operators with broadcasting, MINIMUM and MAXIMUM ([whole]).  Missing: reshapes in front of an operand that does
    not have the shape of the result (refuted below) *)
Theorem C96_binary_partial : forall A B C (f : A -> B -> C) (whole : bool) (x : tensor A) (y : tensor B) (z : tensor C) P,
  binop f x y = Some z ->
  Forall (fun d => 0 < d) (tshape z) ->
  P <> [] ->
  offered KOther None [tshape x; tshape y] [tshape z] P (tshape z) ->
  exists (x' : tensor A) (y' : tensor B) (z' : tensor C),
    rp_binary whole P (tshape z) (tshape z) x y = Some (x', y') /\ binop f x' y' = Some z' /\
    rp_recorded KOther P (tshape z) = Some (tshape z') /\
    teq (reshape (tshape z) z') z.
Proof. exact @binary_moved. Qed.
Print Assumptions C96_binary_partial.
Example C96_binary_ex : (exists z, binop Nat.add (mkT [2; 3; 4] (fun _ => 1)) (mkT [3; 1] (fun i => nth 0 i 0)) = Some z /\ tshape z = [2; 3; 4]) /\
  offered KOther None [[2; 3; 4]; [3; 1]] [[2; 3; 4]] [2; 1; 3; 4] [2; 3; 4].
Proof. split; [eexists; split; reflexivity|]. left; exists [2; 1; 3; 4], [2; 3; 4]; split; [left; reflexivity|reflexivity]. Qed.
(** [2,1,2] -> [2,2] in front of an addition of a [1,2,1] constant: the column becomes a row *)
Theorem C96_binary_refuted : exists (x y z : tensor nat) P N x' y' z',
  offered KOther None [tshape x; tshape y] [tshape z] P N /\ binop Nat.add x y = Some z /\
  rp_binary false P N (tshape z) x y = Some (x', y') /\ binop Nat.add x' y' = Some z' /\ ~ teq (reshape (tshape z) z') z.
Proof. exact binary_wrong. Qed.
Print Assumptions C96_binary_refuted.
(** [3] -> [1,3] in front of an addition of a [4,3] constant: the pass raises *)
Theorem C96_binary_raises_refuted : exists (x y z : tensor nat) P N,
  offered KOther None [tshape x; tshape y] [tshape z] P N /\ binop Nat.add x y = Some z /\ rp_binary false P N (tshape z) x y = None.
Proof. exact binary_raises. Qed.
Print Assumptions C96_binary_raises_refuted.
(** PRELU with one slope per entry of axis [ax].  Missing: [ax] moved to the front, a slope vector whose axis does not stay
    last (refuted below), and a weight with a single slope *)
Theorem C96_prelu_partial : forall (x w z : tensor R) ax P N,
  Forall (fun d => 0 < d) (tshape x) ->
  dims_prelu (tshape w) = Some ax ->
  length (tshape x) = S (length (tshape w)) ->
  nth ax (tshape x) 0 = nth (ax - 1) (tshape w) 0 ->
  prelu x w = Some z ->
  offered KOther (Some ax) [tshape x] [tshape z] P N ->
  (length (tshape w) <> 1 /\ nth 0 P 0 <> 0) \/ (length (tshape w) = 1 /\ last P 1 = 0) ->
  exists x' w' z' : tensor R, rp_operand KOther P N x = Some x' /\ rp_prelu_weight P N w = Some w' /\ prelu x' w' = Some z' /\
    rp_recorded KOther P (tshape z) = Some (tshape z') /\ teq (reshape (tshape z) z') z.
Proof. exact prelu_moved. Qed.
Print Assumptions C96_prelu_partial.
Example C96_prelu_ex : dims_prelu [3; 1; 1] = Some 1 /\ offered KOther (Some 1) [[2; 3; 4; 5]] [[2; 3; 4; 5]] [2; 1; 0; 4; 5] [2; 0; 4; 5] /\
  (exists z, prelu (mkT [2; 3; 4; 5] (fun _ => (-1)%R)) (mkT [3; 1; 1] (fun i => INR (nth 0 i 0))) = Some z) /\
  rp_prelu_weight [2; 1; 0; 4; 5] [2; 0; 4; 5] (mkT [3; 1; 1] (fun i => INR (nth 0 i 0))) <> None.
Proof. split; [reflexivity|]. split; [|split; [eexists; reflexivity|discriminate]]. left; exists [2; 1; 3; 4; 5], [2; 3; 4; 5]; split; [left; reflexivity|reflexivity]. Qed.
(** [2,3,2] -> [1,2,3,2] in front of a PRELU over the channels: the slopes are applied to the last axis *)
Theorem C96_prelu_refuted : exists (x w z : tensor R) P N x' w' z',
  dims_prelu (tshape w) = Some 1 /\ offered KOther (Some 1) [tshape x] [tshape z] P N /\ prelu x w = Some z /\
  rp_operand KOther P N x = Some x' /\ rp_prelu_weight P N w = Some w' /\ prelu x' w' = Some z' /\ ~ teq (reshape (tshape z) z') z.
Proof. exact prelu_first. Qed.
Print Assumptions C96_prelu_refuted.
(** [2,3,1] -> [2,3] in front of a PRELU with three slopes: the node produces another shape than recorded *)
Theorem C96_prelu_vector_refuted : exists (x w z : tensor R) P N x' w' z',
  dims_prelu (tshape w) = Some 1 /\ offered KOther (Some 1) [tshape x] [tshape z] P N /\ prelu x w = Some z /\
  rp_operand KOther P N x = Some x' /\ rp_prelu_weight P N w = Some w' /\ prelu x' w' = Some z' /\
  rp_recorded KOther P (tshape z) <> Some (tshape z').
Proof. exact prelu_vector. Qed.
Print Assumptions C96_prelu_vector_refuted.
(** UNPACK.  Missing: reshapes behind it that pair neither [ax] nor the axis before it (refuted below) *)
Theorem C96_unpack_partial : forall A ax (x : tensor A) P N,
  Forall (fun d => 0 < d) (tshape x) ->
  ax < length (tshape x) ->
  (exists a, cand_prev KUnpack (Some ax) a (tshape x) = Some (P, N)) \/
  (exists b m, is_simple_reshape (remove_at ax (tshape x)) b = Some m /\
     (In ax (map fst m) \/ (0 < ax /\ In (ax - 1) (map fst m))) /\
     cand_next KUnpack (Some ax) (remove_at ax (tshape x)) b = Some (P, N)) ->
  exists ax' (x' : tensor A), rp_axis P = Some ax' /\ rp_operand KUnpack P N x = Some x' /\
    forall j, j < nth ax (tshape x) 0 ->
      rp_recorded KUnpack P (tshape (unpack ax j x)) = Some (tshape (unpack ax' j x')) /\
      teq (reshape (tshape (unpack ax j x)) (unpack ax' j x')) (unpack ax j x).
Proof. exact @unpack_moved. Qed.
Print Assumptions C96_unpack_partial.
Example C96_unpack_ex : is_simple_reshape (remove_at 1 [2; 5; 3; 4]) [2; 1; 3; 4] = Some [(0, 0); (1, 2); (2, 3)] /\
  cand_next KUnpack (Some 1) (remove_at 1 [2; 5; 3; 4]) [2; 1; 3; 4] = Some ([2; 1; 0; 3; 4], [2; 0; 3; 4]).
Proof. split; reflexivity. Qed.
(** [5,1,7] unpacked along axis 0, every output squeezed to [7]: the pass raises *)
Theorem C96_unpack_refuted : exists (x : tensor nat) b P N, forall j, j < 5 ->
  cand_next KUnpack (Some 0) (tshape (unpack 0 j x)) b = Some (P, N) /\ rp_operand KUnpack P N x = None /\ rp_axis P = None.
Proof. exact unpack_raises. Qed.
Print Assumptions C96_unpack_refuted.
(** PACK.  Missing: reshapes in front of it that pair neither [ax] nor the axis before it (refuted below) *)
Theorem C96_pack_partial : forall A (dv : A) ax s (ts : list (tensor A)) P N,
  ts <> [] ->
  Forall (fun d => 0 < d) s ->
  ax <= length s ->
  Forall (fun t => tshape t = s) ts ->
  (exists a m, is_simple_reshape a s = Some m /\
     (In ax (map fst (flipped m)) \/ (0 < ax /\ In (ax - 1) (map fst (flipped m)))) /\
     cand_prev KPack (Some ax) a s = Some (P, N)) \/
  (exists b, cand_next KPack (Some ax) (tshape (pack dv ax ts)) b = Some (P, N)) ->
  exists ax' (ts' : list (tensor A)), rp_axis P = Some ax' /\ Forall2 (fun t t' => rp_operand KPack P N t = Some t') ts ts' /\
    rp_recorded KOther P (tshape (pack dv ax ts)) = Some (tshape (pack dv ax' ts')) /\
    teq (reshape (tshape (pack dv ax ts)) (pack dv ax' ts')) (pack dv ax ts).
Proof. exact @pack_moved. Qed.
Print Assumptions C96_pack_partial.
Example C96_pack_ex : is_simple_reshape [2; 1; 3; 4] [2; 3; 4] = Some [(0, 0); (2, 1); (3, 2)] /\
  cand_prev KPack (Some 1) [2; 1; 3; 4] [2; 3; 4] = Some ([2; 1; 0; 3; 4], [2; 0; 3; 4]).
Proof. split; reflexivity. Qed.
(** tensors of shape [7] reshaped to [1,7] and packed along axis 0: the pass raises *)
Theorem C96_pack_refuted : exists (a : list nat) (t : tensor nat) P N,
  cand_prev KPack (Some 0) a (tshape t) = Some (P, N) /\ rp_axis P = None.
Proof. exact pack_raises. Qed.
Print Assumptions C96_pack_refuted.
(** an embedding whose result is reshaped: the table is read along an axis of length one *)
Theorem C96_embedding_refuted : exists (table : tensor nat) (ix : tensor nat) P N ax' t',
  (forall i, valid (tshape ix) i -> tget ix i < nth 0 (tshape table) 0) /\
  offered KOther (Some 0) [tshape table] [tshape (gather_nd 0 ix table)] P N /\
  rp_axis P = Some ax' /\ rp_operand KOther P N table = Some t' /\
  rp_recorded KOther P (tshape (gather_nd 0 ix table)) <> Some (tshape (gather_nd ax' ix t')) /\
  (exists i, valid (tshape ix) i /\ nth ax' (tshape t') 0 <= tget ix i).
Proof. exact embedding_wrong. Qed.
Print Assumptions C96_embedding_refuted.
(** a PAD of two axes is offered the pair of whole shapes, and the pass raises *)
Theorem C96_pad_refuted : exists (x : tensor nat) pads P N,
  dims_pad pads = None /\ offered KOther (dims_pad pads) [tshape x] [tshape (pad_op 0 pads x)] P N /\
  rp_recorded KOther P (tshape (pad_op 0 pads x)) = None /\ rp_row (0, 0) P N pads = None.
Proof. exact multi_axis_raises. Qed.
Print Assumptions C96_pad_refuted.
(** the same for a reduction over two axes *)
Theorem C96_reduce_refuted : exists (x : tensor nat) axes P N,
  dims_reduce axes = None /\ offered KOther (dims_reduce axes) [tshape x] [tshape (reduce (@length nat) axes x)] P N /\
  rp_recorded KOther P (tshape (reduce (@length nat) axes x)) = None /\ rp_axis P = None.
Proof. exact multi_reduce_raises. Qed.
Print Assumptions C96_reduce_refuted.
(** the shapes are chosen among the candidates, and when the moved operands and the outputs have one (marked) shape, every
    reshape around the node is the chosen one *)
Theorem C96_selection : forall cands P N, rp_select cands = Some (P, N) ->
  (forall p q, In p cands -> In q cands -> snd p = snd q) -> forall p, In p cands -> p = (P, N).
Proof. exact select_agrees. Qed.
Print Assumptions C96_selection.
Example C96_selection_ex : rp_select [([2; 1; 0; 4], [2; 0; 4]); ([2; 1; 0; 4], [2; 0; 4])] = Some ([2; 1; 0; 4], [2; 0; 4]) /\
  rp_select [([2; 1; 0; 4], [2; 0; 4]); ([2; 0; 1; 4], [2; 0; 4])] = None.
Proof. split; reflexivity. Qed.
(** [3] -> [1,3] and [3] -> [3,1] in front of an addition, [3,3] -> [3,3,1] and [3,3] -> [1,3,3] behind it: the two shapes
    chosen belong to different reshapes and the pass raises *)
Theorem C96_selection_refuted : exists (x y z : tensor nat) cands P N,
  binop Nat.add x y = Some z /\ Forall (fun c => offered KOther None [tshape x; tshape y] [tshape z] (fst c) (snd c)) cands /\
  rp_select cands = Some (P, N) /\ ~ In (P, N) cands /\ rp_binary false P N (tshape z) x y = None.
Proof. exact select_mixed. Qed.
Print Assumptions C96_selection_refuted.
