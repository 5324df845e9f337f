(** Specification vocabulary for replacing transposes by reshapes. *)
From Coq Require Import List Arith Bool.
From Verif Require Import Tensor.
Import ListNotations.

(** Axis [k] of a shape has a size other than one. *)
Definition nonunit (s : list nat) (k : nat) : bool := negb (nth k s 0 =? 1).

(** The list [l] of axes contains every axis of size other than one exactly once and in the original
    order. *)
Definition keeps_order (s l : list nat) : Prop := filter (nonunit s) l = filter (nonunit s) (seq 0 (length s)).

(** A permutation that is its own inverse (such as a swap of two axes). *)
Definition involution (p : list nat) : Prop := sel p p = seq 0 (length p).

(** The sizes other than one are pairwise different. *)
Definition distinct_sizes (s : list nat) : Prop := NoDup (filter (fun d => negb (d =? 1)) s).

(** What the three operators compute. *)
Definition wrapped {A} (p b q : list nat) (t : tensor A) : tensor A := transpose q (reshape b (transpose p t)).

(** Neighbours in a chain are of different kinds. *)
Definition alternates {N} (is_transpose : N -> bool) (chain : list N) : Prop :=
  forall l x y r, chain = l ++ x :: y :: r -> is_transpose x = negb (is_transpose y).
