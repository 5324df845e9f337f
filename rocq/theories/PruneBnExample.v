(** Concrete subgraphs for the theorems about channels without variance. *)
From Coq Require Import List Arith Bool ZArith Lia.
From Verif Require Import PruneModel FuseModel MergeProofs GroupProofs PruneIdxModel PruneIdxProofs PruneBnModel PruneBnSpec PruneBnProofs.
Import ListNotations.
Local Open Scope nat_scope.

Definition bid (n : nat) : list pset := map (fun i => [Z.of_nat i]) (seq 0 n).
Definition bleaf (n : nat) (d : list (nat * rows)) : leafm := mkLeaf n [(1, d)] (map fst d) [].
(** two convolutions [0] and [1] are added; a batch normalization [10] and a convolution [11] read the sum, another batch
    normalization [12] reads the first convolution *)
Definition bsum_sg : subgraph :=
  mkSG [0; 1] [bleaf 10 [(0, [bid 3]); (1, [bid 3])]; bleaf 11 [(0, [bid 3]); (1, [bid 3])]; bleaf 12 [(0, [bid 3])]] [].
Definition bsum_bn (n : nat) : option (list bool) :=
  match n with 10 => Some [true; false; true] | 12 => Some [true; true; false] | _ => None end.
Definition bsum_ls : list pleaf :=
  [mkPL 10 [(0, [bid 3]); (1, [bid 3])] true []; mkPL 11 [(0, [bid 3]); (1, [bid 3])] true []; mkPL 12 [(0, [bid 3])] true []].
Lemma bsum_prep : omap (prep_leaf (sg_mods bsum_sg)) (sg_leaves bsum_sg) = Some bsum_ls.
Proof. reflexivity. Qed.
Lemma bsum_result : calc_bn bsum_sg bsum_bn None = Some ([(0, [0%Z]); (1, [0%Z])],
  [(10, [0%Z]); (11, [0%Z]); (12, [0%Z]); (10, [0%Z]); (11, [0%Z])]).
Proof. vm_compute. reflexivity. Qed.
Lemma bsum_named : well_named bsum_ls.
Proof.
  split; [cbn; repeat constructor; cbn; intuition lia|]. intros l [<-|[<-|[<-|[]]]]; cbn; repeat constructor; cbn; intuition lia.
Qed.
Lemma bid_feeds n i j : i < n -> In j (nth i (bid n) []) -> j = Z.of_nat i.
Proof.
  intros L. unfold bid. rewrite (nth_indep _ [] ((fun k => [Z.of_nat k]) 0)) by (rewrite map_length, seq_length; exact L).
  rewrite (map_nth (fun k => [Z.of_nat k])), seq_nth by exact L. intros [<-|[]]. reflexivity.
Qed.
Lemma bid_length n : length (bid n) = n.
Proof. unfold bid. rewrite map_length. apply seq_length. Qed.
Lemma rows_bid l n : (forall c r, In (c, r) (pl_rows l) -> (c = 0 \/ c = 1) /\ r = [bid n]) ->
  forall i c j, feeds l i c j -> j = Z.of_nat i /\ (c = 0 \/ c = 1).
Proof.
  intros H i c j (_ & r & row & I & R & L & J). destruct (H _ _ I) as [C ->]. destruct R as [<-|[]].
  change (i < length (bid n)) in L. rewrite bid_length in L. split; [exact (bid_feeds n i j L J)|exact C].
Qed.
Lemma bsum_feeds l i c j : In l bsum_ls -> feeds l i c j -> j = Z.of_nat i /\ (c = 0 \/ c = 1).
Proof.
  intros L. revert i c j. apply rows_bid with (n := 3).
  destruct L as [<-|[<-|[<-|[]]]]; intros c r I; cbn [pl_rows In] in I; repeat (destruct I as [I|I]); try contradiction;
    injection I as <- <-; auto.
Qed.
Lemma bsum_one : one_index bsum_ls.
Proof. apply aligned_one_index. intros l i c j L F. apply (bsum_feeds l i c j L F). Qed.
Lemma bsum_cliques : cliques bsum_ls.
Proof. apply (pair_cliques _ 0 1). exact bsum_feeds. Qed.

(** [cat([x, relu(x)])] in front of a batch normalization: [x] has variance where [relu(x)] has none *)
Definition btwo_sg : subgraph := mkSG [0] [bleaf 10 [(0, [bid 2 ++ bid 2])]] [].
Definition btwo_bn (n : nat) : option (list bool) := match n with 10 => Some [false; false; true; false] | _ => None end.
Definition btwo_ls : list pleaf := [mkPL 10 [(0, [bid 2 ++ bid 2])] true []].
(** [a + b] and [b + c]; a batch normalization behind [a] only *)
Definition bhop_sg : subgraph :=
  mkSG [0; 1; 2] [bleaf 10 [(0, [bid 2])]; bleaf 11 [(0, [bid 2]); (1, [bid 2])]; bleaf 12 [(1, [bid 2]); (2, [bid 2])]] [].
Definition bhop_bn (n : nat) : option (list bool) := match n with 10 => Some [true; false] | _ => None end.
Definition bhop_ls : list pleaf :=
  [mkPL 10 [(0, [bid 2])] true []; mkPL 11 [(0, [bid 2]); (1, [bid 2])] true []; mkPL 12 [(1, [bid 2]); (2, [bid 2])] true []].
(** the first two of the three channels of [a] meet [b] *)
Definition bmul_sg : subgraph := mkSG [0; 1] [bleaf 10 [(0, [bid 3])]; bleaf 11 [(0, [bid 2]); (1, [bid 2])]] [].
Definition bmul_bn (n : nat) : option (list bool) := match n with 10 => Some [true; true; true] | _ => None end.
Definition bmul_ls : list pleaf := [mkPL 10 [(0, [bid 3])] true []; mkPL 11 [(0, [bid 2]); (1, [bid 2])] true []].
(** a batch normalization behind [a], and another leaf that reads the first of two channels *)
Definition bpart_sg : subgraph := mkSG [0] [bleaf 10 [(0, [bid 2])]; bleaf 11 [(0, [bid 1])]] [].
Definition bpart_bn (n : nat) : option (list bool) := match n with 10 => Some [true; true] | _ => None end.

Lemma btwo_removes : exists sg ls bn pc pl c j,
  omap (prep_leaf (sg_mods sg)) (sg_leaves sg) = Some ls /\ well_named ls /\ calc_bn sg bn None = Some (pc, pl) /\
  j <> (-1)%Z /\ gone_center pc c j /\ lively ls bn c j.
Proof.
  exists btwo_sg, btwo_ls, btwo_bn, [(0, [0%Z])], [(10, [0%Z; 2%Z])], 0, 0%Z.
  split; [reflexivity|]. split.
  { split; [repeat constructor; intros []|]. intros l [<-|[]]. repeat constructor; intros []. }
  split; [vm_compute; reflexivity|]. split; [discriminate|]. split; [exists [0%Z]; split; left; reflexivity|].
  exists (mkPL 10 [(0, [bid 2 ++ bid 2])] true []), 0. split.
  - split; [left; reflexivity|]. split; [reflexivity|]. exists [false; false; true; false]. split; reflexivity.
  - left. split; [discriminate|]. exists [bid 2 ++ bid 2], (bid 2 ++ bid 2). repeat (split; [cbn; auto; lia|]). left. reflexivity.
Qed.
Lemma meet_apart sg ls bn m pc pl l i c j c' j' :
  omap (prep_leaf (sg_mods sg)) (sg_leaves sg) = Some ls -> well_named ls -> one_index ls -> calc_bn sg bn m = Some (pc, pl) ->
  In l ls -> feeds l i c j -> feeds l i c' j' -> c <> c' -> gone_center pc c j -> ~ gone_center pc c' j' ->
  exists sg ls bn pc pl l i c j c' j',
  omap (prep_leaf (sg_mods sg)) (sg_leaves sg) = Some ls /\ well_named ls /\ one_index ls /\ calc_bn sg bn m = Some (pc, pl) /\
  In l ls /\ feeds l i c j /\ feeds l i c' j' /\ c <> c' /\ gone_center pc c j /\ ~ gone_center pc c' j'.
Proof. intros. exists sg, ls, bn, pc, pl, l, i, c, j, c', j'. auto 12. Qed.
Lemma ident_feeds l : (forall c r, In (c, r) (pl_rows l) -> exists n, r = [bid n]) -> forall i c j, feeds l i c j -> j = Z.of_nat i.
Proof.
  intros H i c j (_ & r & row & I & R & L & J). destruct (H _ _ I) as [n ->]. destruct R as [<-|[]].
  change (i < length (bid n)) in L. rewrite bid_length in L. exact (bid_feeds n i j L J).
Qed.
Lemma bhop_apart : exists sg ls bn pc pl l i c j c' j',
  omap (prep_leaf (sg_mods sg)) (sg_leaves sg) = Some ls /\ well_named ls /\ one_index ls /\ calc_bn sg bn None = Some (pc, pl) /\
  In l ls /\ feeds l i c j /\ feeds l i c' j' /\ c <> c' /\ gone_center pc c j /\ ~ gone_center pc c' j'.
Proof.
  apply (meet_apart bhop_sg bhop_ls bhop_bn None [(0, [0%Z]); (1, [0%Z])] [(10, [0%Z]); (11, [0%Z]); (11, [0%Z]); (12, [0%Z])]
           (mkPL 12 [(1, [bid 2]); (2, [bid 2])] true []) 0 1 0%Z 2 0%Z).
  - reflexivity.
  - split; [cbn; repeat constructor; cbn; intuition lia|]. intros l [<-|[<-|[<-|[]]]]; cbn; repeat constructor; cbn; intuition lia.
  - apply aligned_one_index. intros l i c j L F. revert F. apply ident_feeds. clear i c j.
    destruct L as [<-|[<-|[<-|[]]]]; intros c r I; cbn [pl_rows In] in I; repeat (destruct I as [I|I]); try contradiction;
      injection I as <- <-; exists 2; reflexivity.
  - vm_compute. reflexivity.
  - right. right. left. reflexivity.
  - split; [discriminate|]. exists [bid 2], (bid 2). repeat (split; [cbn; auto; lia|]). left. reflexivity.
  - split; [discriminate|]. exists [bid 2], (bid 2). repeat (split; [cbn; auto; lia|]). left. reflexivity.
  - discriminate.
  - exists [0%Z]. split; [right; left; reflexivity|left; reflexivity].
  - intros (s & [I|[I|[]]] & _); discriminate I.
Qed.
Lemma bmul_apart : exists sg ls bn pc pl l i c j c' j',
  omap (prep_leaf (sg_mods sg)) (sg_leaves sg) = Some ls /\ well_named ls /\ one_index ls /\ calc_bn sg bn (Some 2) = Some (pc, pl) /\
  In l ls /\ feeds l i c j /\ feeds l i c' j' /\ c <> c' /\ gone_center pc c j /\ ~ gone_center pc c' j'.
Proof.
  apply (meet_apart bmul_sg bmul_ls bmul_bn (Some 2) [(1, []); (0, [0%Z; 1%Z])] [(10, [0%Z]); (10, [1%Z]); (11, [0%Z]); (11, [1%Z])]
           (mkPL 11 [(0, [bid 2]); (1, [bid 2])] true []) 0 0 0%Z 1 0%Z).
  - reflexivity.
  - split; [cbn; repeat constructor; cbn; intuition lia|]. intros l [<-|[<-|[]]]; cbn; repeat constructor; cbn; intuition lia.
  - apply aligned_one_index. intros l i c j L F. revert F. apply ident_feeds. clear i c j.
    destruct L as [<-|[<-|[]]]; intros c r I; cbn [pl_rows In] in I; repeat (destruct I as [I|I]); try contradiction;
      injection I as <- <-; eexists; reflexivity.
  - vm_compute. reflexivity.
  - right. left. reflexivity.
  - split; [discriminate|]. exists [bid 2], (bid 2). repeat (split; [cbn; auto; lia|]). left. reflexivity.
  - split; [discriminate|]. exists [bid 2], (bid 2). repeat (split; [cbn; auto; lia|]). left. reflexivity.
  - discriminate.
  - exists [0%Z; 1%Z]. split; [right; left; reflexivity|left; reflexivity].
  - intros (s & [I|[I|[]]] & J); [injection I as <-; contradiction|discriminate I].
Qed.
Definition bfull_bn (n : nat) : option (list bool) :=
  match n with 10 => Some [true; true; false] | 12 => Some [true; true; false] | _ => None end.
Lemma bfull_none : exists sg ls bn c j j', omap (prep_leaf (sg_mods sg)) (sg_leaves sg) = Some ls /\ well_named ls /\ one_index ls /\
  j <> j' /\ (exists pc pl, calc_bn sg bn None = Some (pc, pl) /\ gone_center pc c j /\ gone_center pc c j') /\
  exists pc, calc_bn sg bn (Some 2) = Some (pc, []) /\ forall c s, In (c, s) pc -> s = [].
Proof.
  exists bsum_sg, bsum_ls, bfull_bn, 0, 0%Z, 1%Z. split; [reflexivity|]. split; [exact bsum_named|]. split; [exact bsum_one|].
  split; [discriminate|]. split.
  - eexists. eexists. split; [vm_compute; reflexivity|]. split; (eexists; split; [cbn; eauto|cbn; auto]).
  - exists [(0, []); (1, [])]. split; [vm_compute; reflexivity|]. intros c s [I|[I|[]]]; injection I as <- <-; reflexivity.
Qed.
Lemma bpart_raises : exists sg bn ls, omap (prep_leaf (sg_mods sg)) (sg_leaves sg) = Some ls /\ well_named ls /\ one_index ls /\
  (forall l, In l ls -> pl_real l = true) /\ calc_bn sg bn None = None.
Proof.
  exists bpart_sg, bpart_bn, [mkPL 10 [(0, [bid 2])] true []; mkPL 11 [(0, [bid 1])] true []]. split; [reflexivity|]. split.
  { split; [cbn; repeat constructor; cbn; intuition lia|]. intros l [<-|[<-|[]]]; cbn; repeat constructor; cbn; intuition lia. }
  split.
  { apply aligned_one_index. intros l i c j L F. revert F. apply ident_feeds. clear i c j.
    destruct L as [<-|[<-|[]]]; intros c r I; cbn [pl_rows In] in I; repeat (destruct I as [I|I]); try contradiction;
      injection I as <- <-; eexists; reflexivity. }
  split; [intros l [<-|[<-|[]]]; reflexivity|vm_compute; reflexivity].
Qed.
Definition bthree_bn (n : nat) : option (list bool) :=
  match n with 10 => Some [true; true; true] | 12 => Some [true; true; true] | _ => None end.
Lemma bthree_case :
  omap (prep_leaf (sg_mods bsum_sg)) (sg_leaves bsum_sg) = Some bsum_ls /\ well_named bsum_ls /\ one_index bsum_ls /\
  exists pc pl, calc_bn bsum_sg bthree_bn (Some 2) = Some (pc, pl) /\ gone_center pc 1 0%Z /\
    flat_at bsum_ls bthree_bn (mkPL 12 [(0, [bid 3])] true []) 1 true /\ gone_leaf pl 12 1.
Proof.
  split; [exact bsum_prep|]. split; [exact bsum_named|]. split; [exact bsum_one|].
  eexists. eexists. split; [vm_compute; reflexivity|]. split; [eexists; split; [cbn; eauto|cbn; auto]|]. split.
  - split; [right; right; left; reflexivity|]. split; [reflexivity|]. exists [true; true; true]. split; reflexivity.
  - exists [1%Z]. split; [cbn; auto 20|left; reflexivity].
Qed.
Lemma bthree_two : exists pc pl, calc_bn bsum_sg bthree_bn (Some 2) = Some (pc, pl) /\ exists s, In (0, s) pc /\ length s = 2.
Proof. eexists. eexists. split; [vm_compute; reflexivity|]. eexists. split; [cbn; eauto|reflexivity]. Qed.
Lemma bsum_case :
  omap (prep_leaf (sg_mods bsum_sg)) (sg_leaves bsum_sg) = Some bsum_ls /\ well_named bsum_ls /\ one_index bsum_ls /\
  cliques bsum_ls /\ (exists pl, calc_bn bsum_sg bsum_bn None = Some ([(0, [0%Z]); (1, [0%Z])], pl)) /\
  exists l, In l bsum_ls /\ feeds l 0 0 0%Z /\ feeds l 0 1 0%Z.
Proof.
  split; [exact bsum_prep|]. split; [exact bsum_named|]. split; [exact bsum_one|]. split; [exact bsum_cliques|].
  split; [eexists; exact bsum_result|]. eexists. split; [left; reflexivity|].
  split; (split; [discriminate|]; exists [bid 3], (bid 3); repeat (split; [cbn; auto; lia|]); left; reflexivity).
Qed.
