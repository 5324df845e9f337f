(** Constants in half precision. *)
From Coq Require Import List Arith Bool Lia.
From Verif Require Import OutTransModel OutTransSpec OutTransProofs BranchModel BranchSpec BranchProofs HalfModel HalfSpec HalfProofs.
Import ListNotations.

(** Whatever the order of the readers: the graph computes, at every tensor it had, what it computes with the float32 constants rounded
    to float16 and back; the new constants hold the rounded data, one for every float32 constant, and no operator reads a float32
    constant any more. *)
Theorem C143_half_partial :
  forall {V} (den : nat -> list V -> list V) dq deq half (w : nat -> V) is32 ord g v,
  an_order ord -> b_wf g -> b_consistent g -> consts_ok g -> no_const_output is32 g ->
  (forall x, den dq [x] = [deq x]) -> (forall n t, const32 is32 g n t -> v t = deq (half (w t))) -> b_computes den g v ->
  exists g' hs v', half_quantize dq is32 ord g = Some (g', hs) /\ b_wf g' /\ b_consistent g' /\ b_computes den g' v' /\ b_keeps g v g' v' /\
    new_halves dq is32 g g' hs /\ (forall c t, In (c, t) hs -> v' c = half (w t)) /\
    (forall n t r, const32 is32 g n t -> In r (bids g') -> ~ In t (bin (bn g' r))).
Proof. exact @half_ok. Qed.
Print Assumptions C143_half_partial.
(** a weight read twice by one operator and once by another, and an integer constant; half precision: even numbers *)
Definition ex_hn (n : nat) : bnode :=
  match n with
  | 0 => mkBN BIn [] [0] | 1 => mkBN BConst [] [1] | 2 => mkBN BConst [] [2] | 3 => mkBN (BOp 1) [0; 1; 1] [3] | 4 => mkBN (BOp 2) [1; 3; 2] [4]
  | 5 => mkBN BOut [4] [] | _ => mkBN BIn [] [] end.
Definition ex_hg : bg := mkBG ex_hn (seq 0 6) [(0,3,0);(1,3,1);(1,3,1);(1,4,1);(3,4,3);(2,4,2);(4,5,4)] (fun t => t) 6.
Definition ex_is32 (t : nat) : bool := negb (t =? 2).
Definition ex_hden (f : nat) (l : list nat) : list nat := if f =? 9 then [2 * nth 0 l 0] else [f + list_sum l].
Example C143_half_example :
  b_wf ex_hg /\ b_consistent ex_hg /\ consts_ok ex_hg /\ no_const_output ex_is32 ex_hg /\
  (forall x, ex_hden 9 [x] = [2 * x]) /\
  (forall n t, const32 ex_is32 ex_hg n t -> match t with 0 => 7 | 1 => 10 | 2 => 5 | 3 => 28 | _ => 45 end = 2 * Nat.div2 11) /\
  b_computes ex_hden ex_hg (fun t => match t with 0 => 7 | 1 => 10 | 2 => 5 | 3 => 28 | _ => 45 end) /\
  match half_quantize 9 ex_is32 (nodup Nat.eq_dec) ex_hg with
  | Some (g', hs) => map (fun n => (n, bn g' n)) (bids g') =
      [(0, mkBN BIn [] [0]); (1, mkBN BConst [] [1]); (2, mkBN BConst [] [2]); (3, mkBN (BOp 1) [0; 7; 7] [3]); (4, mkBN (BOp 2) [7; 3; 2] [4]);
       (5, mkBN BOut [4] []); (6, mkBN BConst [] [6]); (7, mkBN (BOp 9) [6] [7])] /\ hs = [(6, 1)]
  | None => False end.
Proof.
  split; [b_wf_tac|]. split; [apply (b_consistent_check 6); reflexivity|].
  split; [intros n H K; cbn in H; repeat (destruct H as [<-|H]; [try discriminate K; eexists; reflexivity|]); destruct H|].
  assert (Q : forall n t, const32 ex_is32 ex_hg n t -> t = 1).
  { intros n t (H & K & S). cbn in H. repeat (destruct H as [<-|H]; [try discriminate K; injection K as <-; try discriminate S; reflexivity|]); destruct H. }
  split; [|split; [reflexivity|split; [intros n t K; apply Q in K; subst t; reflexivity|split; [|vm_compute; split; reflexivity]]]].
  - intros n t r K R I. apply Q in K. subst t. cbn in R. repeat (destruct R as [<-|R]; [try discriminate; cbn in I; intuition discriminate|]); destruct R.
  - intros n H. cbn in H. repeat (destruct H as [<-|H]; [cbn; try reflexivity; exact I|]); destruct H.
Qed.

(** a float32 constant that is an output of the graph: an exception *)
Theorem C143_output_refuted :
  exists g is32, b_wf g /\ b_consistent g /\ consts_ok g /\ forall dq ord, an_order ord -> half_quantize dq is32 ord g = None.
Proof. exact half_output_lemma. Qed.
Print Assumptions C143_output_refuted.
