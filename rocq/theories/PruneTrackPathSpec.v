(** Paths of operators with their wirings, and what is asked of each operator on a path. *)
From Coq Require Import List Arith ZArith.
From Verif Require Import Tensor PruneModel PruneTrackSpec PruneTrackModel.
Import ListNotations.
Local Open Scope nat_scope.

(** The changed axes that an operator that is filled again leaves. *)
Definition left_dims (n : pnode) (dims : list nat) : list nat :=
  match n with
  | NDepth _ => remove1 3 (remove1 2 dims)
  | NLinear dim_c _ => remove1 dim_c dims
  | _ => dims
  end.

(** The wiring of the operator behind a node: elementwise with broadcasting, where an axis that carries channels is not
    broadcast; moving elements; windows that stay within one index of the axis that carries the channels, of which
    there is one; concatenation, of the first input or of one that was not filled again before. *)
Definition wired (n : pnode) (w : wire) (st : track) : Prop :=
  let s := tshape (tk_t st) in
  let dims := tk_dims st in
  match n with
  | NSame out =>
      (forall i j, valid out i -> w i j -> aligned s out i j) /\
      ((length out = length s /\ forall d, In d dims -> nth d out 0 = nth d s 0) \/
       (length out = S (length s) /\ hd 0 out = 1 /\ exists d, dims = [d] /\ nth (S d) out 0 = nth d s 0))
  | NIndex f => moves s f w
  | NPad out | NPool out | NLinear _ out => exists d, left_dims n dims = [d] /\ in_slice s out d w
  | NDepth out => exists d, left_dims n dims = [d] /\ in_slice s out d w /\ nth d out 0 = nth d s 0
  | NCat dim front back =>
      (forall i j, valid (upd s dim (axis_sum dim front + nth dim s 0 + axis_sum dim back)) i -> w i j ->
         placed s dim (axis_sum dim front) i j) /\
      (tk_tr st = None \/ front = [])
  end.
Fixpoint carried (ns : list (pnode * wire)) (st : track) : Prop :=
  match ns with
  | [] => True
  | (n, w) :: r => match pstep n st with Some (Some st') => wired n w st /\ carried r st' | _ => True end
  end.

(** Nothing is lost: all elements that the operator could read are read, and a window sees every channel that its
    index of the axis carries. *)
Definition positive (s : list nat) : Prop := Forall (lt 0) s.
Definition lossless (n : pnode) (w : wire) (st : track) (D : depend) : Prop :=
  let s := tshape (tk_t st) in
  match n with
  | NSame out =>
      positive out /\ (forall i j, valid out i -> aligned s out i j -> w i j) /\
      (forall j, valid s j -> exists i, valid out i /\ w i j)
  | NIndex f => positive (tshape (f (tk_t st))) /\ forall i, valid (tshape (f (tk_t st))) i -> exists j, w i j
  | NPad out | NPool out | NDepth out | NLinear _ out =>
      positive out /\
      forall d, left_dims n (tk_dims st) = [d] ->
        nth d out 0 = nth d s 0 /\
        forall i j c, valid out i -> valid s j -> nth d i 0 = nth d j 0 -> D j c -> through w D i c
  | NCat dim front back => forall i j, placed s dim (axis_sum dim front) i j -> w i j
  end.
Fixpoint kept (ns : list (pnode * wire)) (st : track) (D : depend) : Prop :=
  match ns with
  | [] => True
  | (n, w) :: r => match pstep n st with Some (Some st') => lossless n w st D /\ kept r st' (through w D) | _ => True end
  end.

(** * Single operators, and paths on which the numbers are wrong *)
(** [view]: element [i] is the element at the same row-major position. *)
Definition viewed (s out : list nat) : wire := fun i j => j = unravel s (ravel out i).
(** An average over the last axis. *)
Definition over_last (s : list nat) : wire := fun i j => valid s j /\ firstn 3 j = firstn 3 i.
(** [sum(dim=(2, 3))]: the numbers of the channels are added up like values. *)
Definition sum_23 (t : tensor Z) : tensor Z :=
  mkT (firstn 2 (tshape t))
    (fun i => fold_right Z.add 0%Z (map (fun j => tget t (i ++ j)) (indices (skipn 2 (tshape t))))).
Definition spatial (s : list nat) : wire := fun i j => valid s j /\ firstn 2 j = i.
(** Padding of the channel axis in front (the shortcut of a residual network without weights). *)
Definition padded (s : list nat) (d p : nat) : wire := fun i j => valid s j /\ i = upd j d (p + nth d j 0).
(** On axis [d] some index depends on a channel that its set does not contain *)
Definition misses (ns : list (pnode * wire)) (s : list nat) (a : nat) : Prop :=
  exists st d row k c, ptrack (map fst ns) (pstart s a) = Some (Some st) /\ In d (tk_dims st) /\
    dget d (update_i st) = Some row /\
    reaches (tshape (tk_t st)) (along (map snd ns) (own a)) d k c /\ ~ In (Z.of_nat c) (nth k row []).
