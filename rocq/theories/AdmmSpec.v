(** What the alternating directions method asks of its steps. *)
From Coq Require Import List Arith ZArith Bool Reals.
From Verif Require Import AdmmModel.
Import ListNotations.
Local Open Scope R_scope.

(** squared distance of two tensors with [C] channels of [n] entries *)
Definition dist2 (C n : nat) (x y : tensor) : R := sumR C (fun c => sumR n (fun j => (x c j - y c j) ^ 2)).
Definition vanishes (m : wmask) (y : tensor) : Prop := forall c j, m c j = false -> y c j = 0.
(** at least [k] channels of [y] are zero *)
Definition channel_sparse (C n k : nat) (y : tensor) : Prop :=
  exists q, NoDup q /\ length q = k /\ (forall c, In c q -> (c < C)%nat) /\ forall c j, In c q -> (j < n)%nat -> y c j = 0.
(** the gradient of the penalty when [Z] and [U] are constants *)
Definition wanted_grad (rho : R) (a : admm) (w : tensor) (c j : nat) : R := rho * (w c j - ad_z a c j + ad_u a c j).
(** the sum of the differences of weight and [Z] over the steps *)
Fixpoint gaps (steps : list (tensor * wmask)) (a : admm) (c j : nat) : R :=
  match steps with
  | [] => 0
  | (w, m) :: rest => let a' := admm_update w m a in (w c j - ad_z a' c j) + gaps rest a' c j
  end.
