(** Transposed graph outputs. *)
From Coq Require Import List Arith Bool Lia.
From Verif Require Import OutTransModel OutTransSpec OutTransProofs.
Import ListNotations.

(** Outputs of operators other than DEQUANTIZE: every operator keeps its values, the chosen outputs are transposed under
    their name and have exactly one OUTPUT node, the other outputs keep theirs, and the edges fit the inputs again. *)
Theorem C138_output_transpose_partial :
  forall {V} (den : nat -> list V -> list V) tr g flags v,
  o_wf g -> o_consistent g -> one_choice g flags -> o_computes den tr g v ->
  (forall t, In t (flagged g flags) -> okd (on g (oprod g t)) <> OIn /\ okd (on g (oprod g t)) <> OConst /\ okd (on g (oprod g t)) <> ODeq) ->
  exists g' v', output_transpose g flags = Some g' /\ o_wf g' /\ o_consistent g' /\ oouts g' = oouts g /\ o_computes den tr g' v' /\
    o_keeps tr (flagged g flags) g v g' v' /\
    (forall t, In t (flagged g flags) -> exists n, forall m, out_at g' t m <-> m = n) /\
    (forall t m, ~ In t (flagged g flags) -> (out_at g' t m <-> out_at g t m)).
Proof. exact @output_transpose_ok. Qed.
Print Assumptions C138_output_transpose_partial.
(** the output 1 is read by another operator as well, twice *)
Definition ex_on (n : nat) : onode :=
  match n with
  | 0 => mkON OIn [] [0] | 1 => mkON OOp [0] [1] | 2 => mkON OOp [1; 0; 1] [2] | 3 => mkON OOut [1] [] | 4 => mkON OOut [2] [] | _ => mkON OIn [] [] end.
Definition ex_g : og := mkOG ex_on (seq 0 5) [(0,1,0);(1,2,1);(0,2,0);(1,2,1);(1,3,1);(2,4,2)] (fun t => t) 5 [1;2].
Example C138_output_transpose_example :
  o_wf ex_g /\ o_consistent ex_g /\ one_choice ex_g [true; false] /\ flagged ex_g [true; false] = [1] /\ okd (on ex_g (oprod ex_g 1)) = OOp /\
  o_computes (fun n l => [n + list_sum l]) (fun _ x => x + 10) ex_g (fun t => match t with 0 => 7 | 1 => 8 | _ => 25 end) /\
  match output_transpose ex_g [true; false] with
  | Some g' => map (fun n => (n, on g' n)) (oids g') =
      [(0, mkON OIn [] [0]); (1, mkON OOp [0] [5]); (2, mkON OOp [5; 0; 5] [2]); (4, mkON OOut [2] []); (5, mkON (OTr true) [5] [1]); (6, mkON OOut [1] [])]
  | None => False end.
Proof.
  split; [o_wf_tac|]. split; [apply (consistent_check 5); reflexivity|]. split; [|split; [reflexivity|split; [reflexivity|split; [|reflexivity]]]].
  - intros t b b'. cbn. intros [X|[X|[]]] [Y|[Y|[]]]; congruence.
  - intros n H. cbn in H. repeat (destruct H as [<-|H]; [cbn; try reflexivity; exact I|]). destruct H.
Qed.

(** two outputs of DEQUANTIZE operators, one of them read by an operator: an OUTPUT node loses its edge *)
Theorem C138_dequantized_outputs_refuted :
  exists g flags g', o_wf g /\ o_consistent g /\ one_choice g flags /\
  (forall t, In t (oouts g) -> okd (on g (oprod g t)) <> OIn /\ okd (on g (oprod g t)) <> OConst) /\
  output_transpose g flags = Some g' /\
  exists t n, In t (flagged g flags) /\ out_at g' t n /\ forall s, ~ In (s, n, t) (oed g').
Proof. exact stale_lemma. Qed.
Print Assumptions C138_dequantized_outputs_refuted.

(** an output that is an input of the graph: an exception *)
Theorem C138_passed_through_refuted :
  exists g flags, o_wf g /\ o_consistent g /\ one_choice g flags /\ output_transpose g flags = None.
Proof. exact through_lemma. Qed.
Print Assumptions C138_passed_through_refuted.
