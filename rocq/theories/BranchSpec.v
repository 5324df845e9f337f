(** What a graph has to be and to compute when reshapes and transposes are copied. *)
From Coq Require Import List Arith Bool.
From Verif Require Import OutTransModel OutTransSpec BranchModel.
Import ListNotations.

(** there is an edge for every input and no other *)
Definition b_consistent (g : bg) : Prop :=
  forall s d t, ecount s d t (bed g) = if (s =? bprod g t) && o_mem d (bids g) then count_occ Nat.eq_dec (bin (bn g d)) t else 0.
Definition b_wf (g : bg) : Prop :=
  NoDup (bids g) /\
  forall n, In n (bids g) -> n < bnext g /\
    (forall t, In t (bin (bn g n)) -> t < bnext g /\ In (bprod g t) (bids g) /\ In t (bout (bn g (bprod g t)))) /\
    (forall t, In t (bout (bn g n)) -> t < bnext g /\ bprod g t = n) /\
    (forall f, bk (bn g n) = BSame f -> exists u t, bin (bn g n) = [u] /\ bout (bn g n) = [t]).
Definition b_computes {V} (den : nat -> list V -> list V) (g : bg) (v : nat -> V) : Prop :=
  forall n, In n (bids g) -> match bk (bn g n) with
    | BOp f | BSame f => map v (bout (bn g n)) = den f (map v (bin (bn g n)))
    | _ => True end.
(** every node of [g] stays with the same values, OUTPUT nodes with the same tensors, every tensor keeps its value *)
Definition b_keeps {V} (g : bg) (v : nat -> V) (g' : bg) (v' : nat -> V) : Prop :=
  (forall n, In n (bids g) -> In n (bids g') /\ bk (bn g' n) = bk (bn g n) /\ bout (bn g' n) = bout (bn g n) /\
     map v' (bin (bn g' n)) = map v (bin (bn g n)) /\ (bk (bn g n) = BOut -> bin (bn g' n) = bin (bn g n))) /\
  (forall t, t < bnext g -> v' t = v t).
(** an order of the elements of a list, each once *)
Definition an_order (ord : list nat -> list nat) : Prop := forall l, NoDup (ord l) /\ forall x, In x (ord l) <-> In x l.
(** [n] is a reshape (transpose) with several readers, one of them a reshape (transpose) *)
Definition branches (g : bg) (n : nat) : Prop :=
  In n (bids g) /\ (exists f, bk (bn g n) = BSame f) /\
  exists t r r', In t (bout (bn g n)) /\ In r (bids g) /\ In r' (bids g) /\ r <> r' /\ In t (bin (bn g r)) /\ In t (bin (bn g r')) /\ exists f, bk (bn g r) = BSame f.
(** what is copied has at most one OUTPUT node *)
Definition one_output (g : bg) : Prop :=
  forall n t r r', branches g n -> In t (bout (bn g n)) -> In r (bids g) -> In r' (bids g) -> bk (bn g r) = BOut -> bk (bn g r') = BOut ->
    In t (bin (bn g r)) -> In t (bin (bn g r')) -> r = r'.
(** what is copied does not read a constant *)
Definition no_const (g : bg) : Prop := forall n t, branches g n -> In t (bin (bn g n)) -> bk (bn g (bprod g t)) <> BConst.
(** what is copied does not read a reshape (transpose) *)
Definition no_chain (g : bg) : Prop := forall n t f, branches g n -> In t (bin (bn g n)) -> bk (bn g (bprod g t)) <> BSame f.
