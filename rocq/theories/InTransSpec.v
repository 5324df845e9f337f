(** What has to become of a graph whose inputs are transposed. *)
From Coq Require Import List Arith Bool.
From Verif Require Import OutTransModel OutTransSpec BranchModel BranchSpec.
Import ListNotations.

(** [r] is a QUANTIZE and the only one to read [t] *)
Definition only_quantize (isq : nat -> bool) (g : bg) (t r : nat) : Prop :=
  In r (bids g) /\ (exists f, bk (bn g r) = BOp f /\ isq f = true) /\ In t (bin (bn g r)) /\
  forall r', In r' (bids g) -> In t (bin (bn g r')) -> r' = r.
(** the tensors that are transposed: a flagged input, and the output of the QUANTIZE that alone reads it *)
Definition moved (isq : nat -> bool) (g : bg) (ns : list (nat * bool)) (x : nat) : Prop :=
  exists t, In (t, true) ns /\ (x = t \/ exists r, only_quantize isq g t r /\ bout (bn g r) = [x]).
(** flagged tensors are inputs of the graph, listed once *)
Definition flagged_ok (g : bg) (ns : list (nat * bool)) : Prop :=
  NoDup (map fst ns) /\ forall t, In (t, true) ns -> t < bnext g /\ In (bprod g t) (bids g) /\ bn g (bprod g t) = mkBN BIn [] [t].
(** QUANTIZE has one input and one output *)
Definition quantize_ok (isq : nat -> bool) (g : bg) : Prop :=
  forall r f, In r (bids g) -> bk (bn g r) = BOp f -> isq f = true -> exists u x, bin (bn g r) = [u] /\ bout (bn g r) = [x].
(** no transposed tensor is an output of the graph *)
Definition no_moved_output (isq : nat -> bool) (g : bg) (ns : list (nat * bool)) : Prop :=
  forall x r, moved isq g ns x -> In r (bids g) -> bk (bn g r) = BOut -> ~ In x (bin (bn g r)).
(** values: transposed where [moved], the same elsewhere *)
Definition it_values {V} (isq : nat -> bool) (tr : V -> V) (g : bg) (ns : list (nat * bool)) (v v' : nat -> V) : Prop :=
  forall x, x < bnext g -> (moved isq g ns x -> v' x = tr (v x)) /\ (~ moved isq g ns x -> v' x = v x).
(** nodes: the same with the same input values, but for the QUANTIZE that is passed over; an OUTPUT has the same tensors; new are
    permutations and TRANSPOSE of moved tensors, and nobody else reads those *)
Definition it_nodes {V} (isq : nat -> bool) (trp : nat) (perm : V) (g : bg) (ns : list (nat * bool)) (v : nat -> V) (g' : bg) (v' : nat -> V) : Prop :=
  (forall r, In r (bids g) -> In r (bids g') /\ bk (bn g' r) = bk (bn g r) /\ bout (bn g' r) = bout (bn g r) /\
     ((exists t, In (t, true) ns /\ only_quantize isq g t r) \/ map v' (bin (bn g' r)) = map v (bin (bn g r))) /\
     (bk (bn g r) = BOut -> bin (bn g' r) = bin (bn g r))) /\
  (forall r, In r (bids g') -> In r (bids g) \/ (bn g' r = mkBN BConst [] [r] /\ v' r = perm) \/
     exists x c, moved isq g ns x /\ bn g' c = mkBN BConst [] [c] /\ v' c = perm /\ bn g' r = mkBN (BOp trp) [x; c] [r]) /\
  (forall r x, In r (bids g') -> moved isq g ns x -> In x (bin (bn g' r)) -> ~ In r (bids g) \/ exists t, In (t, true) ns /\ only_quantize isq g t r).
