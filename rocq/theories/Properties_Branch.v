(** Reshapes and transposes copied for their readers. *)
From Coq Require Import List Arith Bool Lia.
From Verif Require Import OutTransModel OutTransSpec OutTransProofs BranchModel BranchSpec BranchProofs.
Import ListNotations.

(** Whatever the order of the nodes: every node keeps its values and every OUTPUT node its tensor, the edges fit the inputs, and
    if no copied operator reads one of its kind, no reshape (transpose) with several readers is read by one of its kind any more. *)
Theorem C139_branch_expand_partial :
  forall {V} (den : nat -> list V -> list V) cst ord g v,
  b_wf g -> b_consistent g -> an_order ord -> b_computes den g v -> cst = true \/ no_const g -> one_output g ->
  exists g' v', branch_expand cst ord g = Some g' /\ b_wf g' /\ b_consistent g' /\ b_computes den g' v' /\ b_keeps g v g' v' /\
    (no_chain g -> forall n, ~ branches g' n).
Proof. exact @branch_expand_ok. Qed.
Print Assumptions C139_branch_expand_partial.
(** a reshape read by an OUTPUT node, by a reshape and twice by an operator *)
Definition ex_bn (n : nat) : bnode :=
  match n with
  | 0 => mkBN BIn [] [0] | 1 => mkBN (BSame 1) [0] [1] | 2 => mkBN (BSame 2) [1] [2] | 3 => mkBN BOut [1] [] | 4 => mkBN (BOp 4) [1; 2; 1] [4]
  | 5 => mkBN BOut [4] [] | _ => mkBN BIn [] [] end.
Definition ex_bg : bg := mkBG ex_bn (seq 0 6) [(0,1,0);(1,2,1);(1,3,1);(1,4,1);(2,4,2);(1,4,1);(4,5,4)] (fun t => t) 6.
Example C139_branch_expand_example :
  b_wf ex_bg /\ b_consistent ex_bg /\ an_order (nodup Nat.eq_dec) /\
  b_computes (fun n l => [n + list_sum l]) ex_bg (fun t => match t with 0 => 7 | 1 => 8 | 2 => 10 | _ => 30 end) /\
  no_const ex_bg /\ one_output ex_bg /\ no_chain ex_bg /\ branches ex_bg 1 /\
  match branch_expand false (nodup Nat.eq_dec) ex_bg with
  | Some g' => map (fun n => (n, bn g' n)) (bids g') =
      [(0, mkBN BIn [] [0]); (1, mkBN (BSame 1) [0] [1]); (2, mkBN (BSame 2) [6] [2]); (3, mkBN BOut [1] []); (4, mkBN (BOp 4) [7; 2; 7] [4]);
       (5, mkBN BOut [4] []); (6, mkBN (BSame 1) [0] [6]); (7, mkBN (BSame 1) [0] [7])]
  | None => False end.
Proof.
  split; [b_wf_tac|]. split; [apply (b_consistent_check 6); reflexivity|]. split; [intros l; split; [apply NoDup_nodup|apply nodup_In]|].
  split; [intros n H; cbn in H; repeat (destruct H as [<-|H]; [cbn; try reflexivity; exact I|]); destruct H|].
  assert (Q : forall n, branches ex_bg n -> n = 1).
  { intros n (B & (f & K) & x & r & r' & X & R & R' & D & IR & IR' & f2 & K2). cbn in B.
    repeat (destruct B as [<-|B]; [try discriminate K; try reflexivity|]); try destruct B.
    all: cbn in X; destruct X as [<-|[]]; cbn in R; repeat (destruct R as [<-|R]; [try discriminate K2; cbn in IR; intuition discriminate|]); destruct R. }
  split; [intros n t B T; apply Q in B; subst n; cbn in T; destruct T as [<-|[]]; discriminate|]. split; [|split; [|split; [|reflexivity]]].
  - intros n t r r' B T R R' KR KR' I I'. apply Q in B. subst n. cbn in T. destruct T as [<-|[]]. cbn in R, R'.
    repeat (destruct R as [<-|R]; [try discriminate KR; try (cbn in I; intuition discriminate)|]); try (destruct R);
    repeat (destruct R' as [<-|R']; [try discriminate KR'; try (cbn in I'; intuition discriminate)|]); try (destruct R'); reflexivity.
  - intros n t f B T. apply Q in B. subst n. cbn in T. destruct T as [<-|[]]. discriminate.
  - split; [cbn; tauto|]. split; [exists 1; reflexivity|]. exists 1, 2, 4. cbn. intuition (try discriminate). exists 2. reflexivity.
Qed.

(** a copied reshape that reads a reshape: the copies make that one branch *)
Theorem C139_chain_refuted :
  exists g, b_wf g /\ b_consistent g /\ one_output g /\ no_const g /\
  forall cst ord, an_order ord -> exists g' n, branch_expand cst ord g = Some g' /\ branches g' n.
Proof. exact chain_lemma. Qed.
Print Assumptions C139_chain_refuted.

(** a tensor that is an output of the graph twice: an exception *)
Theorem C139_two_outputs_refuted :
  exists g, b_wf g /\ b_consistent g /\ no_const g /\ no_chain g /\ forall cst ord, an_order ord -> branch_expand cst ord g = None.
Proof. exact two_outputs_lemma. Qed.
Print Assumptions C139_two_outputs_refuted.

(** a reshape of a constant: an exception *)
Theorem C139_constant_refuted :
  exists g, b_wf g /\ b_consistent g /\ one_output g /\ no_chain g /\ forall ord, an_order ord -> branch_expand false ord g = None.
Proof. exact constant_lemma. Qed.
Print Assumptions C139_constant_refuted.
