(** Transposed inputs. *)
From Coq Require Import ZArith List Arith Bool Lia.
From Verif Require Import OutTransModel OutTransSpec OutTransProofs BranchModel BranchSpec BranchProofs HalfModel InTransModel InTransSpec InTransProofs.
Import ListNotations.

(** The pass succeeds and the graph it leaves is well formed; fed with the transposed inputs it computes, at every tensor but these
    inputs and the outputs of the QUANTIZE operators that alone read them, what the graph computed before; all the readers read the
    new TRANSPOSE, and the outputs are the same tensors. *)
Theorem C145_input_transpose_partial :
  forall {V} (den : nat -> list V -> list V) isq trp (tr itr : V -> V) perm ns g v,
  b_wf g -> b_consistent g -> quantize_ok isq g -> flagged_ok g ns -> no_moved_output isq g ns -> isq trp = false ->
  (forall y, den trp [y; perm] = [itr y]) -> (forall y, itr (tr y) = y) ->
  (forall f y, isq f = true -> den f [tr y] = map tr (den f [y])) -> b_computes den g v ->
  exists g' v', input_transpose isq trp ns g = Some g' /\ b_wf g' /\ b_consistent g' /\ b_computes den g' v' /\
    it_values isq tr g ns v v' /\ it_nodes isq trp perm g ns v g' v'.
Proof. exact @pass_ok. Qed.
Print Assumptions C145_input_transpose_partial.
(** three flagged inputs: 0 is read only by a QUANTIZE (3), 1 by a QUANTIZE (4) and twice by an operator (5), 2 by one operator; 9 is
    not flagged.  Transposing negates, QUANTIZE doubles. *)
Definition ex_in (n : nat) : bnode :=
  match n with
  | 0 => mkBN BIn [] [0] | 1 => mkBN BIn [] [1] | 2 => mkBN BIn [] [2] | 3 => mkBN (BOp 1) [0] [3] | 4 => mkBN (BOp 1) [1] [4]
  | 5 => mkBN (BOp 2) [1; 3; 1; 2] [5] | 6 => mkBN (BOp 2) [5; 4; 9] [6] | 7 => mkBN BOut [6] [] | 9 => mkBN BIn [] [9] | _ => mkBN BIn [] [] end.
Definition ex_ig : bg := mkBG ex_in [0; 1; 2; 3; 4; 5; 6; 7; 9] [(0,3,0);(1,4,1);(1,5,1);(3,5,3);(1,5,1);(2,5,2);(5,6,5);(4,6,4);(9,6,9);(6,7,6)] (fun t => t) 10.
Definition ex_iq (f : nat) : bool := f =? 1.
Definition ex_ns : list (nat * bool) := [(0, true); (9, false); (1, true); (2, true)].
Definition ex_iden (f : nat) (l : list Z) : list Z :=
  match f with 1 => [2 * nth 0 l 0]%Z | 2 => [fold_right Z.add 0%Z l] | _ => [- nth 0 l 0]%Z end.
Definition ex_iv (x : nat) : Z := match x with 0 => 3%Z | 1 => 5%Z | 2 => 7%Z | 3 => 6%Z | 4 => 10%Z | 5 => 23%Z | 6 => 44%Z | 9 => 11%Z | _ => 0%Z end.
Example C145_example :
  b_wf ex_ig /\ b_consistent ex_ig /\ quantize_ok ex_iq ex_ig /\ flagged_ok ex_ig ex_ns /\ no_moved_output ex_iq ex_ig ex_ns /\
  (forall y, ex_iden 3 [y; 0%Z] = [- y]%Z) /\ (forall f y, ex_iq f = true -> ex_iden f [- y]%Z = map Z.opp (ex_iden f [y])) /\ b_computes ex_iden ex_ig ex_iv /\
  moved ex_iq ex_ig ex_ns 3 /\ ~ moved ex_iq ex_ig ex_ns 4 /\
  match input_transpose ex_iq 3 ex_ns ex_ig with
  | Some g' => map (fun n => (n, bn g' n)) (bids g') =
      [(0, mkBN BIn [] [0]); (1, mkBN BIn [] [1]); (2, mkBN BIn [] [2]); (3, mkBN (BOp 1) [0] [3]); (4, mkBN (BOp 1) [13] [4]);
       (5, mkBN (BOp 2) [13; 11; 13; 15] [5]); (6, mkBN (BOp 2) [5; 4; 9] [6]); (7, mkBN BOut [6] []); (9, mkBN BIn [] [9]);
       (10, mkBN BConst [] [10]); (11, mkBN (BOp 3) [3; 10] [11]); (12, mkBN BConst [] [12]); (13, mkBN (BOp 3) [1; 12] [13]);
       (14, mkBN BConst [] [14]); (15, mkBN (BOp 3) [2; 14] [15])] /\
      bed g' = [(0,3,0);(5,6,5);(4,6,4);(9,6,9);(6,7,6);(3,11,3);(10,11,10);(11,5,11);(1,13,1);(12,13,12);(13,4,13);(13,5,13);(13,5,13);(2,15,2);(14,15,14);(15,5,15)]
  | None => False end.
Proof.
  assert (FR : forall r t, In r (bids ex_ig) -> In t (bin (bn ex_ig r)) -> In (r, t) [(3,0);(4,1);(5,1);(5,3);(5,2);(6,5);(6,4);(6,9);(7,6)]).
  { intros r t R T. cbn in R. repeat (destruct R as [<-|R]; [cbn in T; repeat (destruct T as [<-|T]; [cbn; tauto|]); destruct T|]). destruct R. }
  assert (MV : forall x, moved ex_iq ex_ig ex_ns x -> In x [0; 1; 2; 3]).
  { intros x (t & T & C). cbn in T. assert (T' : t = 0 \/ t = 1 \/ t = 2) by (repeat (destruct T as [T|T]; [inversion T; auto|]); destruct T).
    destruct C as [->|(r & (R & (f & K & F) & I & O) & B)]; [cbn; intuition|]. assert (X := FR r t R I). destruct T' as [->|[->| ->]]; cbn in X; repeat (destruct X as [X|X]; [inversion X; subst r; clear X|]); try destruct X.
    - cbn in B. injection B as <-. cbn; auto.
    - assert (Z := O 5 ltac:(cbn; tauto) ltac:(cbn; tauto)). discriminate.
    - cbn in K. injection K as <-. discriminate.
    - cbn in K. injection K as <-. discriminate. }
  split; [b_wf_tac|]. split; [apply (b_consistent_check 10); reflexivity|].
  split; [intros r f R K F; cbn in R; repeat (destruct R as [<-|R]; [try discriminate K; injection K as <-; try discriminate F; do 2 eexists; split; reflexivity|]); destruct R|].
  split; [split; [repeat constructor; cbn; intuition discriminate|]; intros t T; cbn in T; repeat (destruct T as [T|T]; [inversion T; subst t; cbn; repeat split; auto with arith; lia|]); destruct T|].
  split; [|split; [reflexivity|split; [|split; [|split; [|split; [|vm_compute; split; reflexivity]]]]]].
  - intros x r M R K I. apply MV in M. assert (X := FR r x R I). cbn in M, X. repeat (destruct X as [X|X]; [inversion X; subst r x; try discriminate K; intuition discriminate|]). destruct X.
  - intros [|[|f]] y F; try discriminate F. cbn [ex_iden nth map]. f_equal. lia.
  - intros n R. cbn in R. repeat (destruct R as [<-|R]; [first [reflexivity|exact I]|]). destruct R.
  - exists 0. split; [cbn; auto|]. right. exists 3. split; [|reflexivity]. split; [cbn; auto|]. split; [exists 1; split; reflexivity|]. split; [cbn; auto|]. intros r R I. assert (X := FR r 0 R I). cbn in X.
    repeat (destruct X as [X|X]; [inversion X; reflexivity|]). destruct X.
  - intros M. apply MV in M. cbn in M. intuition discriminate.
Qed.

(** an input that is an output of the graph as well: an assertion fails *)
Theorem C145_output_refuted :
  exists g ns, b_wf g /\ b_consistent g /\ flagged_ok g ns /\ forall isq trp, quantize_ok isq g /\ input_transpose isq trp ns g = None.
Proof. exact io_lemma. Qed.
Print Assumptions C145_output_refuted.
