(** Model of [ATenSliceOperator.parse]
    ([tinynn/converter/operators/torch/aten.py] 1957-2080), one axis of size [d]. *)
From Coq Require Import List ZArith Bool.
Import ListNotations.
Local Open Scope Z_scope.

(** Normalisation of the arguments (lines 1965-1984); [None] is a missing argument. *)
Definition slice_args (d : Z) (start stop : option Z) : Z * Z :=
  let start := match start with None => 0 | Some v => v end in
  let stop := match stop with None => d | Some v => v end in
  let start := if start <? 0 then start + d else start in
  let stop := if stop <? 0 then stop + d else stop in
  let stop := if start >? stop then start else stop in
  let stop := if stop >=? d then d else stop in
  (start, stop).

(** The emitted operator with its entry for the axis: SLICE with begin and size, or STRIDED_SLICE
    with begin, end and stride (all masks 0).  [dyn_start], [dyn_stop] hold the value at run time
    when the argument is a computed tensor ([constant_mapping]); the run-time value is used
    unchanged (lines 1988-2024, 2032-2060).  The other axes are taken whole. *)
Inductive emitted := ESlice (begin size : Z) | EStrided (begin stop step : Z).
(** lines 1985-2078 *)
Definition emit_slice (d : Z) (start stop : option Z) (dyn_start dyn_stop : option Z) (step : Z) : emitted :=
  let '(s, e) := slice_args d start stop in
  let b := match dyn_start with Some v => v | None => s end in
  match dyn_start, dyn_stop with
  | None, None => if step =? 1 then ESlice s (e - s) else EStrided s e step
  | _, Some v => EStrided b v step
  | Some _, None => EStrided b e step
  end.
