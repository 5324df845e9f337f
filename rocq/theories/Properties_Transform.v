(** C149: the converter's own operators are replaced by TFLite operators. *)
From Coq Require Import List Arith Bool Lia.
From Verif Require Import OutTransModel OutTransSpec TransformModel TransformSpec TransformProofs.
Import ListNotations.

(** If what [transform] adds for an operator computes what the operator did, and every such operator comes after those it reads,
    the pass succeeds: no such operator that is read is left, all other nodes stay as they were except OUTPUT nodes of replaced
    operators, which are made again, once; every tensor is made by a node and has its old value, the graph has exactly the
    edges of the inputs of its nodes. *)
Theorem C149_transform :
  forall V (den : nat -> list V -> V) cv exp outs g v, t_wf outs g -> t_consistent g -> gens_ordered g -> exp_right den cv exp g -> t_computes den cv g v ->
  exists g' v', transform_graph exp outs g = Some g' /\
    t_wf outs g' /\ t_consistent g' /\ t_computes den cv g' v' /\ (forall x, x < tnext g -> v' x = v x) /\
    (forall n, In n (tids g) -> (In n (tids g') <-> ~ goes g n) /\ (In n (tids g') -> tn g' n = tn g n)) /\
    (forall n, In n (tids g') -> ~ replaced g' n) /\
    (forall x, tprod g x <> None -> tprod g' x <> None) /\
    (forall x, has_output g x -> has_output g' x) /\
    (forall d d', In d (tids g') -> In d' (tids g') -> ~ In d (tids g) -> tk (tn g' d) = KOut -> tk (tn g' d') = KOut -> tin (tn g' d) = tin (tn g' d') -> d = d').
Proof. exact @pass_ok. Qed.
Print Assumptions C149_transform.
Example C149_transform_example :
  t_wf xt_outs xt /\ t_consistent xt /\ gens_ordered xt /\ exp_right xt_den (fun c => c) xt_exp xt /\ t_computes xt_den (fun c => c) xt xt_v /\
  match transform_graph xt_exp xt_outs xt with
  | Some g' => tids g' = [0; 1; 4; 6; 7; 8; 9; 10; 11; 12] /\ map (tn g') [4; 9; 11] = [mkTN (KOp 9) [2; 3; 2] [4]; mkTN (KOp 2) [7; 8] [2]; mkTN (KOp 1) [2; 10] [3]] /\
      ted g' = [(4,6,4); (0,7,0); (1,7,1); (7,9,7); (8,9,8); (9,4,2); (9,4,2); (9,11,2); (10,11,10); (11,12,3); (11,4,3)]
  | None => False end.
Proof.
  destruct xt_ok as (A & B & C & D & E). split; [exact A|]. split; [exact B|]. split; [exact C|]. split; [exact D|]. split; [exact E|]. vm_compute. repeat split.
Qed.

(** Without the order: the result of the later operator becomes a constant for the earlier one. *)
Theorem C149_order_refuted :
  exists (den : nat -> list nat -> nat) cv exp outs g v g', t_wf outs g /\ t_consistent g /\ exp_right den cv exp g /\ t_computes den cv g v /\
  transform_graph exp outs g = Some g' /\ ~ t_consistent g' /\
  exists n c x d, In n (tids g') /\ tk (tn g' n) = KConst c /\ tout (tn g' n) = [x] /\ In (n, d, x) (ted g') /\ (forall m f, In m (tids g) -> tk (tn g m) <> KConst f).
Proof. exact order_lemma. Qed.
Print Assumptions C149_order_refuted.
Example C149_order_refuted_example :
  t_consistent xt /\ match transform_graph xt_exp [1] yt with Some g' => map (fun n => tk (tn g' n)) (tids g') = [KIn; KConst 4; KConst 0; KOp 1; KOut; KConst 4; KOp 1] | None => False end.
Proof. split; [exact (proj1 (proj2 xt_ok))|]. vm_compute. reflexivity. Qed.
