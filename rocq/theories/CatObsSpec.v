(** Which observers have to be one object. *)
From Coq Require Import List Arith Bool.
From Verif Require Import CatObsModel.
Import ListNotations.

(** the nodes whose results node [n] reads (without the module that holds its observer) *)
Definition operands (g : cgraph) (n : nat) : list nat := if cn_ff (g n) then tl (cn_prev (g n)) else cn_prev (g n).
(** a node whose result has the quantization of its operands *)
Definition plain (g : cgraph) (n : nat) : Prop :=
  cn_cat (g n) = false /\ cn_shape (g n) = false /\ cn_stub (g n) = false /\ cn_slots (g n) = [].
(** the result of [n] gets to [m], through plain nodes only *)
Inductive arrives (g : cgraph) : nat -> nat -> Prop :=
| arr_direct n m : In n (operands g m) -> arrives g n m
| arr_through n k m : In n (operands g k) -> plain g k -> arrives g k m -> arrives g n m.
(** [p] has the observer of an operand of [c] *)
Definition source (g : cgraph) (p c : nat) : Prop :=
  cn_slots (g p) <> [] /\ cn_shape (g p) = false /\ arrives g p c.

Record proper (g : cgraph) : Prop := {
  (** a node lists the nodes that read it *)
  pr_next : forall n m, In n (operands g m) -> In m (cn_next (g n));
  (** every concatenation has an observer of its own *)
  pr_cat : forall n, cn_cat (g n) = true -> cn_slots (g n) <> [] /\ cn_shape (g n) = false /\ cn_stub (g n) = false;
  (** different nodes have different slots *)
  pr_slots : forall n m s, In s (cn_slots (g n)) -> In s (cn_slots (g m)) -> n = m }.
(** A plain node with several readers does not both get to a concatenation and to another source of a concatenation. *)
Definition apart (g : cgraph) : Prop :=
  forall n b q c, plain g n -> 1 < length (cn_next (g n)) -> cn_cat (g b) = true -> arrives g n b ->
    cn_cat (g q) = false -> cn_cat (g c) = true -> source g q c -> arrives g n q -> False.
(** finitely many nodes, from which no edge leads out *)
Definition finite (g : cgraph) (ns : list nat) : Prop :=
  forall n, In n ns -> (forall m, In m (cn_prev (g n)) -> In m ns) /\ (forall m, In m (cn_next (g n)) -> In m ns).
(** the slots that concatenations connect *)
Inductive joined (g : cgraph) : nat -> nat -> Prop :=
| jo_same s : joined g s s
| jo_cat p c s t : cn_cat (g c) = true -> source g p c -> In s (cn_slots (g p)) -> In t (cn_slots (g c)) -> joined g s t
| jo_two p s t : In s (cn_slots (g p)) -> In t (cn_slots (g p)) -> joined g s t
| jo_sym s t : joined g s t -> joined g t s
| jo_trans s t u : joined g s t -> joined g t u -> joined g s u.
(** the sources of [c] and [c] itself have one observer *)
Definition agree (g : cgraph) (obs : nat -> nat) (c : nat) : Prop :=
  (forall s t, In s (cn_slots (g c)) -> In t (cn_slots (g c)) -> obs s = obs t) /\
  forall p s t, source g p c -> In s (cn_slots (g p)) -> In t (cn_slots (g c)) -> obs s = obs t.
