(** What the numbers that the pruner sends through the graph should say.

    An operator is described by its wiring: [w i j] when element [i] of its output is computed from element [j] of its
    input.  From the output of a layer, element [i] depends on channel [c] there, and from operator to operator an
    element depends on the channels that the elements it is computed from depend on.  No number is involved. *)
From Coq Require Import List Arith ZArith.
From Verif Require Import Tensor.
Import ListNotations.
Local Open Scope nat_scope.

Definition wire := list nat -> list nat -> Prop.
Definition depend := list nat -> nat -> Prop.
(** the output of the layer with the channels on axis [a] *)
Definition own (a : nat) : depend := fun i c => nth a i 0 = c.
Definition through (w : wire) (D : depend) : depend := fun i c => exists j, w i j /\ D j c.
Fixpoint along (ws : list wire) (D : depend) : depend :=
  match ws with [] => D | w :: r => along r (through w D) end.

(** Some element with index [k] on axis [d] depends on channel [c]. *)
Definition reaches (s : list nat) (D : depend) (d k c : nat) : Prop :=
  exists i, valid s i /\ nth d i 0 = k /\ D i c.

(** [row] has one set for each index of axis [d]; [says_all]: every channel that an index depends on is in its set;
    [says_only]: everything in the set, other than the mark -1, is such a channel. *)
Definition says_all (s : list nat) (D : depend) (d : nat) (row : list (list Z)) : Prop :=
  length row = nth d s 0 /\
  forall k c, reaches s D d k c -> In (Z.of_nat c) (nth k row []).
Definition says_only (s : list nat) (D : depend) (d : nat) (row : list (list Z)) : Prop :=
  forall k z, k < nth d s 0 -> In z (nth k row []) -> z = (-1)%Z \/ exists c, z = Z.of_nat c /\ reaches s D d k c.

(** Right-aligned broadcasting: element [i] of a tensor of shape [out] takes element [j] of one of shape [s]. *)
Definition aligned (s out i j : list nat) : Prop :=
  valid s j /\
  forall a, a < length s -> nth a s 0 = 1 \/ nth a j 0 = nth (length out - length s + a) i 0.
(** The output has the same axes and keeps the index on axis [d]. *)
Definition in_slice (s out : list nat) (d : nat) (w : wire) : Prop :=
  length out = length s /\ forall i j, valid out i -> w i j -> valid s j /\ nth d j 0 = nth d i 0.
(** [f] puts into element [i] the value of an element it reads, whatever the values are. *)
Definition moves (s : list nat) (f : tensor Z -> tensor Z) (w : wire) : Prop :=
  forall t i j, tshape t = s -> valid (tshape (f t)) i -> w i j -> valid s j /\ tget (f t) i = tget t j.
(** Concatenation on axis [d]: the tensor of shape [s] follows [o] indices of other tensors. *)
Definition placed (s : list nat) (d o : nat) : wire :=
  fun i j => valid s j /\ i = upd j d (o + nth d j 0).

(** * Which axes vary *)

(** Two elements that differ only in their index on axis [d] have different values. *)
Definition varies (t : tensor Z) (d : nat) : Prop :=
  exists i k, valid (tshape t) i /\ k < nth d (tshape t) 0 /\ tget t i <> tget t (upd i d k).
(** Values do not decrease when the index on axis [d] grows. *)
Definition grows (t : tensor Z) (d : nat) : Prop :=
  forall i k, valid (tshape t) i -> nth d i 0 <= k -> k < nth d (tshape t) 0 ->
  (tget t i <= tget t (upd i d k))%Z.

(** * Splitting *)

(** [torch.split(x, sizes)] of a list of channels *)
Fixpoint cut {A} (sizes : list nat) (l : list A) : list (list A) :=
  match sizes with [] => [] | n :: r => firstn n l :: cut r (skipn n l) end.
Definition keep (removed l : list nat) : list nat :=
  filter (fun c => negb (existsb (Nat.eqb c) removed)) l.
(** the node [n], given by its name and the values of its inputs, reads the value [v] *)
Definition reader (v : nat) (n : nat * list nat) : bool := existsb (Nat.eqb v) (snd n).
