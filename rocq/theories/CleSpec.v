(** What scaling two layers is for. *)
From Coq Require Import Reals List Arith.
Import ListNotations.
Open Scope R_scope.

(** [m] is the largest absolute value in the weight of output channel [c] of the first layer *)
Definition out_range (J : nat) (w : nat -> nat -> R) (c : nat) (m : R) : Prop :=
  (forall j, (j < J)%nat -> Rabs (w c j) <= m) /\ exists j, (j < J)%nat /\ Rabs (w c j) = m.
(** [m] is the largest absolute value in the weights of the second layer for input channel [c], which is in group [c / ig] *)
Definition in_range (og ig K : nat) (w : nat -> nat -> nat -> R) (c : nat) (m : R) : Prop :=
  (forall o k, (o / og = c / ig)%nat -> (k < K)%nat -> Rabs (w o (c mod ig)%nat k) <= m) /\
  exists o k, (o / og = c / ig)%nat /\ (k < K)%nat /\ Rabs (w o (c mod ig)%nat k) = m.
Fixpoint sum_n (n : nat) (f : nat -> R) : R := match n with O => 0 | S n => sum_n n f + f n end.
(** the two layers with an activation [act] between at one position of the output: position [k] of the kernel of the second layer sees
    the window [x k] of the input *)
Definition two_layers (og ig J K : nat) (w1 : nat -> nat -> R) (b1 : nat -> R) (act : nat -> R -> R) (w2 : nat -> nat -> nat -> R) (b2 : nat -> R)
    (x : nat -> nat -> nat -> R) (o : nat) : R :=
  b2 o + sum_n ig (fun i => sum_n K (fun k => let c := (o / og * ig + i)%nat in w2 o i k * act c (b1 c + sum_n J (fun j => w1 c j * x k c j)))).
(** ReLU, LeakyReLU, PReLU, Identity *)
Definition homogeneous (act : nat -> R -> R) : Prop := forall c a y, 0 < a -> act c (a * y) = a * act c y.
