(** C132: requantize operators that are fused into the operators before them. *)
From Coq Require Import List Arith ZArith Bool Lia.
From Verif Require Import RequantModel RequantSpec RequantProofs RequantExample.
Import ListNotations.

(** If no reshape or transpose reads a requantized result, [fuse_requantize] keeps what every remaining operator computes,
    the quantization of everything it reads, and the tensors it reads are still made;
    a vertex whose result is not quantized keeps that result; the edges are those between remaining operators. *)
Theorem C132_requant_partial :
  forall fuel g g', r_wf g -> r_no_copies g -> fuse_requantize fuel g = Some g' ->
  (forall V den copy reint (v : nat -> V), r_computes den copy reint g v -> r_computes den copy reint g' v) /\
  (forall n, In n (rids g') -> rk (rn g' n) <> KQuant -> rk (rn g' n) <> KDeq -> map (rtq g') (rins (rn g' n)) = map (rtq g) (rins (rn g n))) /\
  (forall d t, In d (rids g') -> In t (rins (rn g' d)) -> exists s, In s (rids g') /\ rout (rn g' s) = t) /\
  (forall n, In n (rids g) -> rk (rn g' n) = rk (rn g n) /\ (rk (rn g n) <> KFuse -> rout (rn g' n) = rout (rn g n)) /\
             (In n (rids g') \/ rk (rn g n) = KQuant)) /\
  (forall n, In n (rids g) -> rtq g (rout (rn g n)) = None -> rout (rn g' n) = rout (rn g n) /\ rtq g' (rout (rn g' n)) = None) /\
  (forall s d, In (s, d) (redges g') -> In s (rids g') /\ In d (rids g')) /\
  (forall s d, In s (rids g') -> In d (rids g') -> In (rout (rn g' s)) (rins (rn g' d)) -> In (s, d) (redges g')).
Proof. exact requant_lemma. Qed.
Print Assumptions C132_requant_partial.
Example C132_requant_partial_example :
  r_wf rq_g /\ r_no_copies rq_g /\
  match fuse_requantize 20 rq_g with
  | Some g' => rids g' = [0; 1; 3; 4; 5; 6; 7; 9; 10; 11] /\ rins (rn g' 5) = [11] /\ rtq g' 11 = Some 2 /\ rout (rn g' 7) = 18 /\ rins (rn g' 6) = [13]
  | None => False end.
Proof. exact (conj rq_wf (conj rq_nc rq_run)). Qed.

(** a reshape that reads the result as well copies codes of the new quantization into a tensor of the old one *)
Theorem C132_reshape_refuted :
  (forall q x, zp_reint q q x = x) /\
  exists g g' v n, r_wf g /\ r_computes sum_den (fun _ x => x) zp_reint g v /\ fuse_requantize 20 g = Some g' /\
    rk (rn g n) = KOut /\ In n (rids g') /\
    forall v', r_computes sum_den (fun _ x => x) zp_reint g' v' -> v' (rout (rn g' n)) <> v (rout (rn g n)).
Proof. exact copy_lemma. Qed.
Print Assumptions C132_reshape_refuted.

(** a requantized result that is an output of the model, beside another reader, stops the conversion *)
Theorem C132_output_refuted : exists g, r_wf g /\ r_no_copies g /\ forall fuel, fuse_requantize fuel g = None.
Proof. exact output_lemma. Qed.
Print Assumptions C132_output_refuted.

(** the requantize operator behind an operator that nothing else reads is gone *)
Theorem C132_single_reader :
  forall fuel g g' p a, r_wf g -> fuse_requantize fuel g = Some g' -> In p (rids g) -> In a (rids g) ->
  rk (rn g p) = KFuse -> rtq g (rout (rn g p)) <> None -> rk (rn g a) = KQuant -> In (rout (rn g p)) (rins (rn g a)) ->
  (forall e, In e (redges g) -> fst e = p -> e = (p, a)) -> NoDup (redges g) -> ~ In a (rids g').
Proof. exact single_lemma. Qed.
Print Assumptions C132_single_reader.
Example C132_single_reader_example :
  r_wf rq_g /\ rk (rn rq_g 7) = KFuse /\ rk (rn rq_g 8) = KQuant /\ In (rout (rn rq_g 7)) (rins (rn rq_g 8)) /\
  filter (fun e => fst e =? 7) (redges rq_g) = [(7, 8)] /\ In 8 (rids rq_g) /\ match fuse_requantize 20 rq_g with Some g' => r_mem 8 (rids g') = false | None => False end.
Proof. split; [exact rq_wf|]. vm_compute. repeat split; auto 12. Qed.
