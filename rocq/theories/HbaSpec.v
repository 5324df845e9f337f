(** What absorbing biases is for. *)
From Coq Require Import Reals List Arith.
From Verif Require Import CleSpec.
Open Scope R_scope.

(** what the activation gets for channel [c] at position [k] of the second kernel *)
Definition pre_act (J : nat) (w1 : nat -> nat -> R) (b1 : nat -> R) (x : nat -> nat -> nat -> R) (k c : nat) : R := b1 c + sum_n J (fun j => w1 c j * x k c j).
(** within three standard deviations of the mean of the batch norm *)
Definition three_sigma (gam bet : nat -> R) (c : nat) (y : R) : Prop := Rabs (y - bet c) <= 3 * Rabs (gam c).
(** ReLU, LeakyReLU, PReLU, Identity *)
Definition keeps_positive (act : nat -> R -> R) : Prop := forall c y, 0 <= y -> act c y = y.
(** as [two_layers], where the second layer reads zeros at the positions of its kernel in [pad] *)
Definition two_layers_pad (og ig J K : nat) (pad : nat -> bool) (w1 : nat -> nat -> R) (b1 : nat -> R) (act : nat -> R -> R) (w2 : nat -> nat -> nat -> R) (b2 : nat -> R)
    (x : nat -> nat -> nat -> R) (o : nat) : R :=
  b2 o + sum_n ig (fun i => sum_n K (fun k => let c := (o / og * ig + i)%nat in if pad k then 0 else w2 o i k * act c (pre_act J w1 b1 x k c))).
(** the bias [y] of layer [n] at [c]: the correction for the layer before is added, if there is one, and the own shift is subtracted if
    there is a layer that takes it *)
Definition moved (bn : nat -> bool) (sh : nat -> nat -> R) (co : nat -> nat -> option (nat -> R)) (m : nat -> nat -> R) (gs : list (nat * nat)) (n c : nat) (y : R) : Prop :=
  exists add sub, y = m n c + add - sub /\
    ((exists a d, In (a, n) gs /\ bn a = true /\ bn n = true /\ co a n = Some d /\ add = d c) \/ ((forall a, In (a, n) gs -> bn a = false \/ bn n = false) /\ add = 0)) /\
    ((exists b, In (n, b) gs /\ bn n = true /\ bn b = true /\ sub = sh n c) \/ ((forall b, In (n, b) gs -> bn n = false \/ bn b = false) /\ sub = 0)).
(** a layer is first in one group, second in one, and second before it is first *)
Inductive in_order : list (nat * nat) -> Prop :=
| io_nil : in_order nil
| io_cons a b gs : in_order gs -> a <> b -> (forall x, ~ In (a, x) gs) -> (forall x, ~ In (x, b) gs) -> (forall x, ~ In (x, a) gs) -> in_order (cons (a, b) gs).
