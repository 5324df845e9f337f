(** Reductions and normalisations of torch and of TFLite (specification side: documented semantics, no converter code). *)
From Coq Require Import List Arith Bool Reals Lia.
From Verif Require Import Tensor ConvSpec LayoutSpec MoveSpec PoolSpec.
Import ListNotations.
Local Open Scope R_scope.

(** the entries of [l] at the axes that are not in [axes]; [k] is the axis of the first entry *)
Fixpoint drop_from {D} (k : nat) (axes : list nat) (l : list D) : list D :=
  match l with
  | [] => []
  | v :: r => if existsb (Nat.eqb k) axes then drop_from (S k) axes r else v :: drop_from (S k) axes r
  end.
Definition kept {D} (axes : list nat) (l : list D) : list D := drop_from 0 axes l.

(** * torch *)

(** all elements whose coordinates outside of [axes] are [pos] *)
Definition line {A} (axes : list nat) (t : tensor A) (pos : list nat) : list A :=
  map (tget t) (filter (fun i => list_eqb (kept axes i) pos) (indices (tshape t))).
Definition torch_reduce {A B} (red : list A -> B) (axes : list nat) (keep : bool) (t : tensor A) : tensor B :=
  let n := length (tshape t) in
  if keep
  then mkT (map (fun k => if existsb (Nat.eqb k) axes then 1%nat else nth k (tshape t) 0%nat) (seq 0 n))
           (fun idx => red (line axes t (kept axes idx)))
  else mkT (kept axes (tshape t)) (fun idx => red (line axes t idx)).
(** the axes of a torch reduction: no axes, or an empty list, means all *)
Definition red_axes (n : nat) (dims : list ZArith.BinInt.Z) : list nat :=
  match dims with [] => seq 0 n | _ => map (axis_of n) dims end.

Definition torch_axes (n : nat) (arg : option (list ZArith.BinInt.Z)) : list nat :=
  match arg with None => seq 0 n | Some dims => red_axes n dims end.

Definition total (l : list R) : R := lsum l (fun v => v).
Definition sq (v : R) : R := v * v.
(** variance with [c] degrees of freedom removed; torch divides by [max(0, n - c)] *)
Definition variance (c : nat) (l : list R) : R := total (map (fun v => sq (v - mean l)) l) / Rmax 0 (INR (length l) - INR c).
Definition norm1 (l : list R) : R := total (map Rabs l).
Definition norm2 (l : list R) : R := sqrt (total (map sq l)).

(** operators that look at the elements along one axis in order, as argmax does *)
Definition along {A B} (f : list A -> B) (ax : nat) (keep : bool) (t : tensor A) : tensor B :=
  let n := nth ax (tshape t) 0%nat in
  if keep then mkT (upd (tshape t) ax 1) (fun idx => f (map (fun i => tget t (upd idx ax i)) (seq 0 n)))
  else mkT (remove_at ax (tshape t)) (fun idx => f (map (fun i => tget t (insert_at ax i idx)) (seq 0 n))).

(** normalised value of [v] within the elements [l] *)
Definition normal (eps : R) (l : list R) (v : R) : R := (v - mean l) / sqrt (variance 0 l + eps).
(** weight and bias are optional *)
Definition affine (w b : option (list R)) (c : nat) (v : R) : R :=
  v * match w with Some w => nth c w 0 | None => 1 end + match b with Some b => nth c b 0 | None => 0 end.

Definition layer_norm (eps : R) (ns : list nat) (w b : tensor R) (x : tensor R) : tensor R :=
  let p := (length (tshape x) - length ns)%nat in
  mkT (tshape x) (fun idx =>
    normal eps (map (fun k => tget x (firstn p idx ++ k)) (indices ns)) (tget x idx) * tget w (skipn p idx) + tget b (skipn p idx)).
Definition instance_norm (eps : R) (w b : option (list R)) (x : tensor R) : tensor R :=
  mkT (tshape x) (fun idx =>
    let n := nth 0 idx 0%nat in let c := nth 1 idx 0%nat in
    affine w b c (normal eps (map (fun k => tget x (n :: c :: k)) (indices (skipn 2 (tshape x)))) (tget x idx))).
(** with running statistics [torch.instance_norm] uses those of the operand only when asked to *)
Definition torch_instance_norm (use_input_stats : bool) (eps : R) (w b : option (list R)) (rm rv : list R) (x : tensor R) : tensor R :=
  if use_input_stats then instance_norm eps w b x
  else mkT (tshape x) (fun idx => let c := nth 1 idx 0%nat in
                                  affine w b c ((tget x idx - nth c rm 0) / sqrt (nth c rv 0 + eps))).
(** channel [c] belongs to the group [c / (channels/groups)] *)
Definition group_norm (eps : R) (groups : nat) (w b : option (list R)) (x : tensor R) : tensor R :=
  let cpg := (nth 1 (tshape x) 0 / groups)%nat in
  mkT (tshape x) (fun idx =>
    let n := nth 0 idx 0%nat in let c := nth 1 idx 0%nat in
    affine w b c (normal eps (flat_map (fun j => map (fun k => tget x (n :: (c / cpg * cpg + j)%nat :: k)) (indices (skipn 2 (tshape x)))) (seq 0 cpg))
                        (tget x idx))).

(** * TFLite *)

(** SUM, MEAN, REDUCE_PROD, REDUCE_MAX, REDUCE_MIN with [keep_dims]; without it the reduced axes disappear *)
Fixpoint fill_from (k n : nat) (axes idx : list nat) : list nat :=
  match n with
  | O => []
  | S n' => if existsb (Nat.eqb k) axes then 0%nat :: fill_from (S k) n' axes idx
            else match idx with [] => 0%nat :: fill_from (S k) n' axes [] | i :: r => i :: fill_from (S k) n' axes r end
  end.
Definition squeeze {A} (axes : list nat) (t : tensor A) : tensor A :=
  mkT (kept axes (tshape t)) (fun idx => tget t (fill_from 0 (length (tshape t)) axes idx)).
Definition reduce_op {A B} (red : list A -> B) (axes : list nat) (keep : bool) (t : tensor A) : tensor B :=
  if keep then reduce red axes t else squeeze axes (reduce red axes t).
(** ARG_MAX and ARG_MIN *)
Definition arg_op {A B} (f : list A -> B) (ax : nat) (t : tensor A) : tensor B :=
  mkT (remove_at ax (tshape t)) (fun idx => f (map (fun i => tget t (insert_at ax i idx)) (seq 0 (nth ax (tshape t) 0%nat)))).
(** SQUARED_DIFFERENCE; POW with the exponents 2 and 1/2 *)
Definition sqdiff (a b : R) : R := (a - b) * (a - b).
Definition pow_two (v : R) : R := v * v.
Definition pow_half (v : R) : R := sqrt v.
