(** The channels that are removed because batch normalizations see no variance (C126, C127). *)
From Coq Require Import List Arith Bool ZArith Lia.
From Verif Require Import PruneModel FuseModel PruneIdxModel PruneBnModel PruneBnSpec PruneBnProofs PruneBnExample.
Import ListNotations.
Local Open Scope nat_scope.

(** C126.  Full statement: a channel is removed exactly if batch normalizations bear on it and none of them sees variance.
    Missing: a batch normalization that bears on a channel with two indices (see the refutation). *)
Theorem C126_removed_exactly_partial : forall sg ls bn pc pl,
  omap (prep_leaf (sg_mods sg)) (sg_leaves sg) = Some ls -> well_named ls -> one_index ls ->
  calc_bn sg bn None = Some (pc, pl) ->
  forall c j, j <> (-1)%Z -> (gone_center pc c j <-> borne ls bn c j /\ ~ lively ls bn c j).
Proof. exact calc_exact. Qed.
Print Assumptions C126_removed_exactly_partial.

(* the sum of two convolutions with a batch normalization behind it and another one behind the first convolution *)
Example C126_removed_exactly_example :
  omap (prep_leaf (sg_mods bsum_sg)) (sg_leaves bsum_sg) = Some bsum_ls /\ well_named bsum_ls /\ one_index bsum_ls /\
  exists pl, calc_bn bsum_sg bsum_bn None = Some ([(0, [0%Z]); (1, [0%Z])], pl).
Proof.
  split; [exact bsum_prep|]. split; [exact bsum_named|]. split; [exact bsum_one|]. eexists. exact bsum_result.
Qed.

Theorem C126_no_lively_channel_partial : forall sg ls bn multiple pc pl,
  omap (prep_leaf (sg_mods sg)) (sg_leaves sg) = Some ls -> well_named ls -> one_index ls ->
  calc_bn sg bn multiple = Some (pc, pl) ->
  forall c j, j <> (-1)%Z -> gone_center pc c j -> borne ls bn c j /\ ~ lively ls bn c j.
Proof. exact calc_safe. Qed.
Print Assumptions C126_no_lively_channel_partial.

Theorem C126_batch_norm_index_partial : forall sg ls bn multiple pc pl,
  omap (prep_leaf (sg_mods sg)) (sg_leaves sg) = Some ls -> well_named ls -> one_index ls ->
  calc_bn sg bn multiple = Some (pc, pl) ->
  forall l i b, flat_at ls bn l i b -> gone_leaf pl (pl_name l) i -> b = true.
Proof. exact calc_index_flat. Qed.
Print Assumptions C126_batch_norm_index_partial.

(* three channels without variance and a multiple of two *)
Example C126_multiple_example :
  omap (prep_leaf (sg_mods bsum_sg)) (sg_leaves bsum_sg) = Some bsum_ls /\ well_named bsum_ls /\ one_index bsum_ls /\
  exists pc pl, calc_bn bsum_sg bthree_bn (Some 2) = Some (pc, pl) /\ gone_center pc 1 0%Z /\
    flat_at bsum_ls bthree_bn (mkPL 12 [(0, [bid 3])] true []) 1 true /\ gone_leaf pl 12 1.
Proof. exact bthree_case. Qed.

(* [cat([x, relu(x)])]: the state of the last index stays, and a channel with variance is removed *)
Theorem C126_two_indices_refuted : exists sg ls bn pc pl c j,
  omap (prep_leaf (sg_mods sg)) (sg_leaves sg) = Some ls /\ well_named ls /\ calc_bn sg bn None = Some (pc, pl) /\
  j <> (-1)%Z /\ gone_center pc c j /\ lively ls bn c j.
Proof. exact btwo_removes. Qed.
Print Assumptions C126_two_indices_refuted.

(** C127 *)
Theorem C127_leaf_indices : forall sg ls bn multiple pc pl,
  omap (prep_leaf (sg_mods sg)) (sg_leaves sg) = Some ls -> well_named ls -> calc_bn sg bn multiple = Some (pc, pl) ->
  forall l i, In l ls -> pl_real l = true ->
    (gone_leaf pl (pl_name l) i <-> exists c j, gone_center pc c j /\ feeds l i c j).
Proof. exact calc_leaves. Qed.
Print Assumptions C127_leaf_indices.

Theorem C127_multiple : forall sg ls bn m pc pl,
  omap (prep_leaf (sg_mods sg)) (sg_leaves sg) = Some ls -> calc_bn sg bn (Some m) = Some (pc, pl) ->
  forall c s, In (c, s) pc -> NoDup s /\ exists q, length s = q * m.
Proof. exact calc_multiple. Qed.
Print Assumptions C127_multiple.

Example C127_multiple_example : exists pc pl, calc_bn bsum_sg bthree_bn (Some 2) = Some (pc, pl) /\ exists s, In (0, s) pc /\ length s = 2.
Proof. exact bthree_two. Qed.

(** Full statement: channels that meet in an index of a leaf are removed together.  Missing: a multiple, and channels that
    meet a common channel but not each other. *)
Theorem C127_removed_together_partial : forall sg ls bn pc pl,
  omap (prep_leaf (sg_mods sg)) (sg_leaves sg) = Some ls -> well_named ls -> one_index ls -> cliques ls ->
  calc_bn sg bn None = Some (pc, pl) ->
  forall l i c j c' j', In l ls -> feeds l i c j -> feeds l i c' j' -> c <> c' ->
    (gone_center pc c j <-> gone_center pc c' j').
Proof. exact calc_together. Qed.
Print Assumptions C127_removed_together_partial.

Example C127_removed_together_example :
  omap (prep_leaf (sg_mods bsum_sg)) (sg_leaves bsum_sg) = Some bsum_ls /\ well_named bsum_ls /\ one_index bsum_ls /\
  cliques bsum_ls /\ (exists pl, calc_bn bsum_sg bsum_bn None = Some ([(0, [0%Z]); (1, [0%Z])], pl)) /\
  exists l, In l bsum_ls /\ feeds l 0 0 0%Z /\ feeds l 0 1 0%Z.
Proof. exact bsum_case. Qed.

(* [a + b] and [b + c] with the batch normalization behind [a]: [c] keeps the channel that [b] loses *)
Theorem C127_two_steps_refuted : exists sg ls bn pc pl l i c j c' j',
  omap (prep_leaf (sg_mods sg)) (sg_leaves sg) = Some ls /\ well_named ls /\ one_index ls /\ calc_bn sg bn None = Some (pc, pl) /\
  In l ls /\ feeds l i c j /\ feeds l i c' j' /\ c <> c' /\ gone_center pc c j /\ ~ gone_center pc c' j'.
Proof. exact bhop_apart. Qed.
Print Assumptions C127_two_steps_refuted.

(* the multiple is taken for each center on its own *)
Theorem C127_multiple_apart_refuted : exists sg ls bn pc pl l i c j c' j',
  omap (prep_leaf (sg_mods sg)) (sg_leaves sg) = Some ls /\ well_named ls /\ one_index ls /\ calc_bn sg bn (Some 2) = Some (pc, pl) /\
  In l ls /\ feeds l i c j /\ feeds l i c' j' /\ c <> c' /\ gone_center pc c j /\ ~ gone_center pc c' j'.
Proof. exact bmul_apart. Qed.
Print Assumptions C127_multiple_apart_refuted.

(* two channels could be removed, which is a multiple of two: none is ([lst[:-0]] is empty) *)
Theorem C127_whole_multiple_refuted : exists sg ls bn c j j',
  omap (prep_leaf (sg_mods sg)) (sg_leaves sg) = Some ls /\ well_named ls /\ one_index ls /\ j <> j' /\
  (exists pc pl, calc_bn sg bn None = Some (pc, pl) /\ gone_center pc c j /\ gone_center pc c j') /\
  exists pc, calc_bn sg bn (Some 2) = Some (pc, []) /\ forall c s, In (c, s) pc -> s = [].
Proof. exact bfull_none. Qed.
Print Assumptions C127_whole_multiple_refuted.

(* a leaf that a removed channel does not reach: the lookup of the channel raises *)
Theorem C127_unreached_leaf_refuted : exists sg bn ls,
  omap (prep_leaf (sg_mods sg)) (sg_leaves sg) = Some ls /\ well_named ls /\ one_index ls /\
  (forall l, In l ls -> pl_real l = true) /\ calc_bn sg bn None = None.
Proof. exact bpart_raises. Qed.
Print Assumptions C127_unreached_leaf_refuted.
