(** Model of tinynn/prune/admm_pruner.py: the loop of [prune] (44-80), [adjust_learning_rate] (82-94),
    [construct_admm_criterion] (96-110), [register_mask] (112-122) and [admm_params_update] (124-153).

    Simplified: reals for floats; a weight is indexed by output channel and by the rest flattened; training between two
    updates may change the weight in any way; no distributed training.  What autograd does is written down as the derivative
    of the recorded expression. *)
From Coq Require Import List Arith ZArith QArith Qround Bool Reals.
Import ListNotations.
Local Open Scope R_scope.

Definition tensor := nat -> nat -> R.
Fixpoint sumR (n : nat) (f : nat -> R) : R := match n with O => 0 | S m => sumR m f + f m end.
(** modifier.py, masks of 1657-1670 and 2440-2452: entries that are kept *)
Definition wmask := nat -> nat -> bool.
Definition masked (t : tensor) (m : wmask) : tensor := fun c j => if m c j then t c j else 0.
(** [self.Z] and [self.U] of one centre.  [U] is not detached from the weight; [ad_slope] is its derivative by the weight *)
Record admm := mkAd { ad_z : tensor; ad_u : tensor; ad_slope : R }.
(** 112-122 *)
Definition admm_register (w : tensor) (m : wmask) : admm := mkAd (masked w m) (fun _ _ => 0) 0.
(** 124-147 *)
Definition admm_update (w : tensor) (m : wmask) (a : admm) : admm :=
  let z := masked (fun c j => w c j + ad_u a c j) m in
  mkAd z (fun c j => w c j - z c j + ad_u a c j) (1 - 0 + ad_slope a).
(** 50-77: training makes the weight [fst step], then the update with the mask [snd step] *)
Fixpoint admm_run (steps : list (tensor * wmask)) (a : admm) : admm :=
  match steps with [] => a | (w, m) :: rest => admm_run rest (admm_update w m a) end.
(** 103-107: the penalty as autograd sees it when entry [c], [j] of the weight [w] moves to [x] *)
Definition penalty_at (rho : R) (rest : R) (a : admm) (w : tensor) (c j : nat) (x : R) : R :=
  (1 / 2) * rho * (rest + (x - ad_z a c j + (ad_u a c j + ad_slope a * (x - w c j))) ^ 2).
(** the gradient for that entry *)
Definition penalty_grad (rho : R) (a : admm) (w : tensor) (c j : nat) : R :=
  rho * (w c j - ad_z a c j + ad_u a c j) * (1 + ad_slope a).

(** modifier.py 107-138: [l1_norm] and [l2_norm] of channel [c] with [n] entries *)
Definition l2_imp (n : nat) (t : tensor) (c : nat) : R := sqrt (sumR n (fun j => t c j ^ 2)).
Definition l1_imp (n : nat) (t : tensor) (c : nat) : R := sumR n (fun j => Rabs (t c j)).
(** modifier.py 2844-2880, for one centre with one leaf and one group: [sorted], then the first ones *)
Fixpoint ins (imp : nat -> R) (x : nat) (l : list nat) : list nat :=
  match l with [] => [x] | y :: r => if Rle_dec (imp x) (imp y) then x :: l else y :: ins imp x r end.
Fixpoint isort (imp : nat -> R) (l : list nat) : list nat := match l with [] => [] | x :: r => ins imp x (isort imp r) end.
Definition least (imp : nat -> R) (channels k : nat) : list nat := firstn k (isort imp (seq 0 channels)).
Definition prune_mask (p : list nat) : wmask := fun c _ => negb (existsb (Nat.eqb c) p).

(** 82-94 *)
Definition admm_lr (lr : R) (E epoch : nat) : R :=
  if ((epoch - 1) mod E =? 0)%nat then lr
  else lr * (1 / 10) ^ Z.to_nat (Qfloor (inject_Z (Z.of_nat ((epoch - 1) mod E)) / (inject_Z (Z.of_nat E) / 3))).
(** 50-54: the epochs and the learning rates they are trained with *)
Definition admm_epochs (iterations E : nat) : list nat :=
  flat_map (fun it => map (fun ep => ep + (it - 1) * E)%nat (seq 1 E)) (seq 1 iterations).
Definition admm_schedule (lr : R) (iterations E : nat) : list (nat * R) :=
  map (fun e => (e, admm_lr lr E e)) (admm_epochs iterations E).

(** A subgraph: excluded, the sparsity of its centre is not 0, its centres (each with a leaf) *)
Record sgr := mkSg { sg_skip : bool; sg_sparse : bool; sg_centers : list nat }.
(** modifier.py 2908-3185: which centres get indices to prune; [None]: a KeyError at importance[center_name] *)
Definition sg_calc (imp : list nat) (g : sgr) : option (list nat) :=
  if sg_sparse g then if forallb (fun c => existsb (Nat.eqb c) imp) (sg_centers g) then Some (sg_centers g) else None else Some [].
(** oneshot_pruner.py 139-151: the centres that get entries in [Z] and [U] *)
Fixpoint sg_register (imp : list nat) (gs : list sgr) : option (list nat) :=
  match gs with
  | [] => Some []
  | g :: r => if sg_skip g then sg_register imp r else
    match sg_calc (imp ++ sg_centers g) g, sg_register (imp ++ sg_centers g) r with
    | Some a, Some b => Some (a ++ b) | _, _ => None end
  end.
(** admm_pruner.py 126-136 *)
Fixpoint sg_update (u imp : list nat) (gs : list sgr) : option (list nat) :=
  match gs with
  | [] => Some []
  | g :: r =>
    let imp' := imp ++ filter (fun c => existsb (Nat.eqb c) u) (sg_centers g) in
    match sg_calc imp' g, sg_update u imp' r with Some a, Some b => Some (a ++ b) | _, _ => None end
  end.
