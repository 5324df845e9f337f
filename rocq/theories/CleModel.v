(** Model of the scaling of two layers: [equalize] and [_weight_equal_helper]
    (tinynn/graph/quantization/algorithm/cross_layer_equalization.py 79-129).

    Simplified: reals for floats, with [None] for a NaN among the scales; a weight of the first layer is given by channel and position in
    the flattened rest, one of the second by output channel, input channel inside the group and position in the kernel. *)
From Coq Require Import Reals List Arith.
Import ListNotations.
Open Scope R_scope.

(** [abs().max(1)] of one row of length [n] (97-98) *)
Definition row_max (n : nat) (f : nat -> R) : R := fold_right Rmax 0 (map (fun j => Rabs (f j)) (seq 0 n)).
(** 84-96: [weight_2] as [(group, out / group, in / group, kernel)], permuted to [(in / group, group, out / group, kernel)] and made
    two-dimensional: entry [q] of row [r] *)
Definition rows_2 (g og K : nat) (w2 : nat -> nat -> nat -> R) (r q : nat) : R := w2 ((r mod g) * og + q / K)%nat (r / g)%nat (q mod K)%nat.
(** 99-104: division (zero by zero is NaN, other numbers by zero infinite), [clamp], [where] *)
Definition scale (smin smax thr r1 r2 : R) : option R :=
  if Rlt_dec (r1 + r2) thr then Some 1
  else
    let d := sqrt (r1 * r2) in
    if Req_EM_T d 0 then (if Req_EM_T r1 0 then None else Some smax) else Some (Rmin (Rmax (r1 / d) smin) smax).
(** 79-106: the scale of channel [c] *)
Definition cle_scale (smin smax thr : R) (g og J K : nat) (w1 : nat -> nat -> R) (w2 : nat -> nat -> nat -> R) (c : nat) : option R :=
  scale smin smax thr (row_max J (w1 c)) (row_max (og * K) (rows_2 g og K w2 c)).
(** no NaN in the list (119) *)
Fixpoint all_some (l : list (option R)) : option (list R) :=
  match l with [] => Some [] | Some x :: l => match all_some l with Some r => Some (x :: r) | None => None end | None :: _ => None end.
(** 109-127: new weight and bias of the first layer, new weight of the second *)
Definition equalize_pair (smin smax thr : R) (g og ig J K : nat) (w1 : nat -> nat -> R) (b1 : nat -> R) (w2 : nat -> nat -> nat -> R) :
    option ((nat -> nat -> R) * (nat -> R) * (nat -> nat -> nat -> R)) :=
  match all_some (map (cle_scale smin smax thr g og J K w1 w2) (seq 0 (g * ig))) with
  | None => None
  | Some l => let s c := nth c l 1 in Some (fun c j => w1 c j / s c, fun c => b1 c / s c, fun o i k => w2 o i k * s ((o / og) * ig + i)%nat)
  end.
