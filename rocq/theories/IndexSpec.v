(** Indexing operators of torch, GATHER_ND and SCATTER_ND of TFLite with range checks (specification side: documented
    semantics, no converter code). *)
From Coq Require Import List Arith Bool Reals Lia ZArith.
From Verif Require Import Tensor ConvSpec LayoutSpec MoveSpec.
Import ListNotations.

(** * torch *)

(** negative index values count from the end *)
Definition wrap (d : nat) (z : Z) : nat := Z.to_nat (if (z <? 0)%Z then z + Z.of_nat d else z)%Z.
Definition in_range (d : nat) (z : Z) : Prop := (- Z.of_nat d <= z < Z.of_nat d)%Z.

(** the common shape of several operands *)
Fixpoint bshapes (ss : list (list nat)) : option (list nat) :=
  match ss with [] => Some [] | s :: r => match bshapes r with Some q => bshape s q | None => None end end.
(** the coordinates that the index tensors [ixs] select on the leading axes at the position [p] of their common shape *)
Fixpoint picks (dims : list nat) (ixs : list (tensor Z)) (p : list nat) : list nat :=
  match ixs, dims with
  | ix :: r, d :: dims' => wrap d (tget ix (bidx (tshape ix) p)) :: picks dims' r p
  | _, _ => []
  end.
Definition target (dims : list nat) (ixs : list (tensor Z)) (b idx : list nat) : list nat :=
  picks dims ixs (firstn (length b) idx) ++ skipn (length b) idx.
(** [x[ix1, ix2, ...]]; [b] is the common shape of the index tensors *)
Definition torch_index {A} (ixs : list (tensor Z)) (b : list nat) (x : tensor A) : tensor A :=
  mkT (b ++ skipn (length ixs) (tshape x)) (fun idx => tget x (target (tshape x) ixs b idx)).
(** [x[:, ..., ix]]: one index tensor at the axis [ax] *)
Definition torch_index_at {A} (ax : nat) (ix : tensor Z) (x : tensor A) : tensor A :=
  let r := length (tshape ix) in
  mkT (firstn ax (tshape x) ++ tshape ix ++ skipn (S ax) (tshape x))
      (fun idx => tget x (firstn ax idx ++ wrap (nth ax (tshape x) 0) (tget ix (firstn r (skipn ax idx))) :: skipn (ax + r) idx)).

(** every value of the index tensors satisfies [P] of the size of its axis *)
Fixpoint picks_ok (P : nat -> Z -> Prop) (dims : list nat) (ixs : list (tensor Z)) : Prop :=
  match ixs, dims with
  | [], _ => True
  | ix :: r, d :: dims' => (forall j, valid (tshape ix) j -> P d (tget ix j)) /\ picks_ok P dims' r
  | _ :: _, [] => False
  end.
Definition nonneg (d : nat) (z : Z) : Prop := (0 <= z < Z.of_nat d)%Z.

(** [torch.gather] *)
Definition torch_gather {A} (ax : nat) (index : tensor nat) (x : tensor A) : tensor A :=
  mkT (tshape index) (fun idx => tget x (upd idx ax (tget index idx))).
Definition gather_ok (ax : nat) (index : tensor nat) (sh : list nat) : Prop :=
  length (tshape index) = length sh /\ ax < length sh /\
  (forall k, k < length sh -> k <> ax -> nth k (tshape index) 0 <= nth k sh 0) /\
  (forall idx, valid (tshape index) idx -> tget index idx < nth ax sh 0).

(** [y] is [x] with the elements of [val] written at the places [tgt]; when several elements go to one place, any of
    them may remain *)
Definition is_put {A} (x val : tensor A) (tgt : list nat -> list nat) (y : tensor A) : Prop :=
  tshape y = tshape x /\
  forall idx, valid (tshape x) idx ->
    ((forall j, valid (tshape val) j -> tgt j <> idx) -> tget y idx = tget x idx) /\
    ((exists j, valid (tshape val) j /\ tgt j = idx) ->
     exists j, valid (tshape val) j /\ tgt j = idx /\ tget y idx = tget val j).

(** the elements that [torch.scatter] writes: a number, or the part of a tensor that the index covers *)
Definition scatter_src (value : R + tensor R) (ishape : list nat) : tensor R :=
  mkT ishape (match value with inl v => fun _ => v | inr t => tget t end).

(** * TFLite *)
Fixpoint inside (sh : list nat) (c : list Z) : bool :=
  match sh, c with
  | [], [] => true
  | d :: sh', z :: c' => ((0 <=? z) && (z <? Z.of_nat d))%Z && inside sh' c'
  | _, _ => false
  end.
(** GATHER_ND and SCATTER_ND with full index vectors; an index outside of the operand is an error *)
Definition gather_nd_chk {A} (oshape : list nat) (ix : list nat -> list Z) (x : tensor A) : option (tensor A) :=
  if forallb (fun idx => inside (tshape x) (ix idx)) (indices oshape)
  then Some (gather_full oshape (fun idx => map Z.to_nat (ix idx)) x) else None.
Definition scatter_nd_chk (sh : list nat) (ix : list nat -> list Z) (u : tensor R) : option (tensor R) :=
  if forallb (fun idx => inside sh (ix idx)) (indices (tshape u))
  then Some (scatter_full sh (fun idx => map Z.to_nat (ix idx)) u) else None.
(** GATHER with an index tensor of any rank *)
Definition gather_chk {A} (ax : nat) (ix : tensor Z) (x : tensor A) : option (tensor A) :=
  if forallb (fun j => ((0 <=? tget ix j) && (tget ix j <? Z.of_nat (nth ax (tshape x) 0%nat)))%Z) (indices (tshape ix))
  then Some (gather_nd ax (mkT (tshape ix) (fun j => Z.to_nat (tget ix j))) x) else None.
