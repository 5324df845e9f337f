(** Model of the lowering of index, index_select, gather, scatter and index_put of
    tinynn/converter/operators/torch/aten.py.  An exception, or an operator that TFLite rejects, is [None].  The
    concatenation or packing of index columns is the list of the columns. *)
From Coq Require Import List Arith Bool Reals ZArith.
From Verif Require Import Tensor ConvSpec CatSpec LayoutSpec FuseModel MoveSpec IndexSpec AtenMoveModel.
Import ListNotations.

(** [ATenIndexOperator.parse] with several index tensors (aten.py 2657-2729).  [np.take] of an array without an axis
    reads the flattened array; row [q] of [all_indices] counts the elements of the result. *)
Definition take_flat (ix : tensor Z) (p : nat) : Z := tget ix (unravel (tshape ix) p).
Definition index_coords (sh : list nat) (ixs : list (tensor Z)) (q : nat) : list Z :=
  let pad := skipn (length ixs) sh in
  map (fun ix => take_flat ix ((q / prod pad) mod prod (tshape ix))) ixs ++ map Z.of_nat (unravel pad (q mod prod pad)).
Definition max_len (ixs : list (tensor Z)) : nat := list_max (map (fun ix => prod (tshape ix)) ixs).
(** an index tensor that is not constant goes through GATHER along axis 0, which fits only rank 1 (aten.py 2703-2707) *)
Definition dyn_ok (dyn : list bool) (ixs : list (tensor Z)) : bool :=
  forallb (fun di => negb (fst di) || (length (tshape (snd di)) =? 1)) (combine dyn ixs).
Definition aten_index_multi {A} (dyn : list bool) (ixs : list (tensor Z)) (oshape : list nat) (x : tensor A) : option (tensor A) :=
  if negb (dyn_ok dyn ixs) then None else
  if prod oshape =? max_len ixs * prod (skipn (length ixs) (tshape x))
  then gather_nd_chk oshape (fun idx => index_coords (tshape x) ixs (ravel oshape idx)) x else None.
(** with one index tensor (aten.py 2730-2760); constants are made nonnegative *)
Definition fix_index (d : nat) (z : Z) : Z := (z + (if z <? 0 then 1 else 0) * Z.of_nat d)%Z.
Definition aten_index_single {A} (const : bool) (ax : nat) (ix : tensor Z) (x : tensor A) : option (tensor A) :=
  gather_chk ax (if const then mkT (tshape ix) (fun j => fix_index (nth ax (tshape x) 0) (tget ix j)) else ix) x.
(** [ATenIndexSelectOperator.parse] (aten.py 2763-2787) *)
Definition aten_index_select {A} (const : bool) (dim : Z) (ix : tensor Z) (x : tensor A) : option (tensor A) :=
  let ax := Z.to_nat (if (dim <? 0)%Z then dim + Z.of_nat (length (tshape x)) else dim)%Z in
  aten_index_single const ax ix x.

(** [ATenGatherOperator.parse] (aten.py 3321-3373): coordinates from [torch.gather] of the numbered elements; [traced] is
    the index seen during conversion, [index] the one at run time *)
Definition fake (sh : list nat) : tensor nat := reshape sh (arange (prod sh)).
Definition traced_coords (ax : nat) (traced : tensor nat) (sh idx : list nat) : list nat :=
  unravel sh (tget (torch_gather ax traced (fake sh)) idx).
Definition gather_coords (const : bool) (ax : nat) (traced index : tensor nat) (sh idx : list nat) : list nat :=
  let c := traced_coords ax traced sh idx in if const then c else upd c ax (tget index idx).
Definition gather_axis (dim : Z) (n : nat) : nat := Z.to_nat (if (dim <? 0)%Z then dim + Z.of_nat n else dim)%Z.
Definition aten_gather {A} (const : bool) (dim : Z) (traced index : tensor nat) (x : tensor A) : tensor A :=
  gather_full (tshape index) (gather_coords const (gather_axis dim (length (tshape x))) traced index (tshape x)) x.

(** [ATenScatterOperator.parse] (aten.py 3376-3469) into zeros of the shape [sh]; the value is a number or a tensor, of
    which the part that the index covers is used *)
Definition scatter_fill (value : R + tensor R) (ishape : list nat) : tensor R :=
  match value with
  | inl v => mkT ishape (fun _ => v)
  | inr t => slice_op (map (fun _ => 0) ishape) ishape t
  end.
Definition aten_scatter (const : bool) (dim : Z) (traced index : tensor nat) (value : R + tensor R) (sh : list nat) : tensor R :=
  scatter_full sh (gather_coords const (gather_axis dim (length sh)) traced index sh) (scatter_fill value (tshape index)).

(** [ATenIndexPutOperator.parse] (aten.py 3472-3605).  The value is brought to the shape [n]: a constant by
    [np.broadcast_to] (aten.py 3583), another by RESHAPE and TILE (aten.py 3559-3581), whose multiples must match the
    rank *)
Definition put_value (const : bool) (n : nat) (val : tensor R) : option (tensor R) :=
  if list_eqb (tshape val) [n] then Some val else
  if const then match bshape (tshape val) [n] with
                | Some s => if list_eqb s [n] then Some (expand [n] val) else None
                | None => None
                end
  else let v := if length (tshape val) <? 1 then reshape [1] val else val in
       match tshape v with
       | [x] => if x =? n then Some (tile [1] v) else if x =? 0 then None else Some (tile [n / x] v)
       | _ => None
       end.
(** A constant value is subtracted from at conversion time (aten.py 3597-3598); when the old value is then only known at
    run time, its recorded content is the value itself (aten.py 3588). *)
Definition aten_index_put (dyn : list bool) (ixs : list (tensor Z)) (xconst vconst : bool) (val x : tensor R) : option (tensor R) :=
  if negb (dyn_ok dyn ixs) then None else
  let n := max_len ixs * prod (skipn (length ixs) (tshape x)) in
  let co := fun idx => index_coords (tshape x) ixs (nth 0 idx 0) in
  obind (put_value vconst n val) (fun v =>
  obind (gather_nd_chk [n] co x) (fun old =>
  let known := xconst && forallb negb dyn in
  obind (binop Rminus v (if vconst && negb known then v else old)) (fun u =>
  obind (scatter_nd_chk (tshape x) co u) (fun up => binop Rplus x up)))).
