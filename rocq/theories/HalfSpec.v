(** What a graph with float16 constants has to be. *)
From Coq Require Import List Arith Bool.
From Verif Require Import OutTransModel OutTransSpec BranchModel BranchSpec.
Import ListNotations.

(** the constant [n] holds the tensor [t] of type float32 *)
Definition const32 (is32 : nat -> bool) (g : bg) (n t : nat) : Prop := In n (bids g) /\ bn g n = mkBN BConst [] [t] /\ is32 t = true.
(** constants have no inputs and one tensor *)
Definition consts_ok (g : bg) : Prop := forall n, In n (bids g) -> bk (bn g n) = BConst -> exists t, bn g n = mkBN BConst [] [t].
(** no float32 constant is an output of the graph *)
Definition no_const_output (is32 : nat -> bool) (g : bg) : Prop :=
  forall n t r, const32 is32 g n t -> In r (bids g) -> In t (bin (bn g r)) -> bk (bn g r) <> BOut.
(** what is new in [g']: float16 constants, one for every float32 constant, and their dequantizations *)
Definition new_halves (dq : nat) (is32 : nat -> bool) (g g' : bg) (hs : list (nat * nat)) : Prop :=
  (forall n, In n (bids g') -> In n (bids g) \/ (exists t, In (n, t) hs /\ bn g' n = mkBN BConst [] [n]) \/
     (exists c t, In (c, t) hs /\ bn g' n = mkBN (BOp dq) [c] [n])) /\
  (forall c t, In (c, t) hs -> exists n, const32 is32 g n t) /\
  (forall n t, const32 is32 g n t -> exists c, In (c, t) hs).
