(** Model of the lowering of pooling: the pooling classes of tinynn/converter/operators/torch/aten.py with
    [handle_padding], [get_pool_ceil_padding] and the layout helpers of
    tinynn/converter/operators/torch/base.py.  Float operands; an exception is [None].  [low] is
    [np.finfo(np.float32).min]. *)
From Coq Require Import List Arith Bool Reals ZArith.
From Verif Require Import Tensor ConvSpec LayoutSpec FuseModel AtenConvModel PoolSpec.
Import ListNotations.
Local Open Scope R_scope.

(** [wrap_ops_with_nhwc_nchw_transposes] (base.py 447-475) *)
Definition wrap_nhwc {A B} (f : tensor A -> tensor B) (x : tensor A) : tensor B :=
  transpose [0; 3; 1; 2]%nat (f (transpose [0; 2; 3; 1]%nat x)).

(** [get_pool_ceil_padding] on one axis (base.py 759-788); [math.ceil] of a float quotient is taken exactly *)
Definition pool_ceil_pad (d k s p : Z) : Z :=
  (let o := - ((- (d + 2 * p - k)) / s) + 1 in
   let o := if o * s - s >=? d + p then o - 1 else o in
   let c := if s =? 1 then 0 else k - (d + 2 * p - ((o - 1) * s + 1)) in
   if c + 2 * p >=? k then (if c <? k - 1 then c else k - 1) else c)%Z.

(** [handle_padding] of a two-dimensional pooling (base.py 517-567).  [xt] is the output of the transpose
    [ops[0]]; [np.pad] rejects negative amounts. *)
Definition handle_padding (is_max : bool) (low : R) (kh kw sh sw ph pw : nat) (ceil : bool) (xt : tensor R)
  : option (tensor R) :=
  let ih := nth 1 (tshape xt) 0%nat in
  let iw := nth 2 (tshape xt) 0%nat in
  let divisible (i p k s : nat) := (((Z.of_nat (i + 2 * p) - Z.of_nat k) mod Z.of_nat s) =? 0)%Z in
  let fill_nan := ceil && negb (divisible ih ph kh sh && divisible iw pw kw sw) in
  if fill_nan && negb is_max then None else
  let xp := if (0 <? ph + pw)%nat
            then pad_op (if is_max then low else 0) [(0, 0); (ph, ph); (pw, pw); (0, 0)]%nat xt else xt in
  if fill_nan then
    let c d k s p := (pool_ceil_pad (Z.of_nat d) (Z.of_nat k) (Z.of_nat s) (Z.of_nat p) + Z.of_nat p)%Z in
    let ch := c ih kh sh ph in
    let cw := c iw kw sw pw in
    if (ch <? 0)%Z || (cw <? 0)%Z then None
    else Some (pad_op low [(0, 0); (0, Z.to_nat ch); (0, Z.to_nat cw); (0, 0)]%nat xp)
  else Some xp.

(** the same in front of a one-dimensional pooling: [ops] is reshape, transpose, pool, transpose, reshape, so
    [ops[1]] is the transpose.  It has no [filterHeight] (line 521), and the padding operator at index 1 is in
    front of it, with the amounts for the other layout and zeros (lines 532-550). *)
Definition handle_padding_1d (p : nat) (ceil : bool) (x4 : tensor R) : option (tensor R) :=
  if ceil then None
  else Some (if (0 <? p)%nat then pad_op 0 [(0, 0); (p, p); (0, 0); (0, 0)]%nat x4 else x4).

Definition dflt (stride : option (nat * nat)) (kh kw : nat) : nat * nat :=
  match stride with Some s => s | None => (kh, kw) end.

(** [ATenMaxPool2dOperator.parse_common] (aten.py 1469-1514), two-dimensional *)
Definition same_pool (kh kw sh sw ph pw : nat) (ceil : bool) : bool :=
  ((sh =? 1) && (sw =? 1) && (ph =? kh / 2) && (pw =? kw / 2))%nat && negb ceil.
Definition max_pool2d (low : R) (kh kw : nat) (stride : option (nat * nat)) (ph pw dh dw : nat) (ceil : bool) (x : tensor R)
  : option (tensor (option R)) :=
  let '(sh, sw) := dflt stride kh kw in
  if negb ((dh =? 1) && (dw =? 1))%nat then None else
  let xt := transpose [0; 2; 3; 1]%nat x in
  let C := nth 3 (tshape xt) 0%nat in
  if same_pool kh kw sh sw ph pw ceil
  then Some (transpose [0; 3; 1; 2]%nat (op_same maxpool_kernel C [sh; sw] [1; 1]%nat [kh; kw] xt))
  else obind (handle_padding true low kh kw sh sw ph pw ceil xt) (fun xp =>
       Some (transpose [0; 3; 1; 2]%nat (op_valid maxpool_kernel C [sh; sw] [1; 1]%nat [kh; kw] xp))).

(** [ATenMaxPool1dOperator] (aten.py 1453-1514) with [wrap_ops_with_1d_2d_reshapes] (base.py 387-417); [oshape]
    is the shape of the output of the torch operator *)
Definition max_pool1d (k : nat) (stride : option nat) (p dil : nat) (ceil : bool) (oshape : list nat) (x : tensor R)
  : option (tensor (option R)) :=
  let s := match stride with Some s => s | None => k end in
  if negb (dil =? 1)%nat then None else
  let x4 := reshape (tshape x ++ [1%nat]) x in
  let pool F (x : tensor R) : tensor (option R) := reshape oshape (wrap_nhwc F x) in
  if same_pool k 1 s 1 p 0 ceil
  then Some (pool (fun xt => op_same maxpool_kernel (nth 3 (tshape xt) 0%nat) [s; 1]%nat [1; 1]%nat [k; 1]%nat xt) x4)
  else obind (handle_padding_1d p ceil x4) (fun xp =>
       Some (pool (fun xt => op_valid maxpool_kernel (nth 3 (tshape xt) 0%nat) [s; 1]%nat [1; 1]%nat [k; 1]%nat xt) xp)).

(** [ATenAvgPool2dOperator.parse_common] (aten.py 1025-1085), two-dimensional; the mask is computed by torch *)
Definition avg_pool2d (kh kw : nat) (stride : option (nat * nat)) (ph pw : nat) (ceil include : bool)
  (override : option nat) (x : tensor R) : option (tensor R) :=
  let '(sh, sw) := dflt stride kh kw in
  if match override with None => false | Some d => negb ((d =? kh) && (kh =? kw))%nat end then None else
  let xt := transpose [0; 2; 3; 1]%nat x in
  let C := nth 3 (tshape xt) 0%nat in
  obind (handle_padding false 0 kh kw sh sw ph pw ceil xt) (fun xp =>
  let y := op_valid avgpool_kernel C [sh; sw] [1; 1]%nat [kh; kw] xp in
  let mask := tmap (fun v => 1 / v) (avg_pool true None ceil [kh; kw] [sh; sw] [ph; pw] (mkT (tshape x) (fun _ => 1))) in
  obind (if include then Some y else binop Rmult y (transpose [0; 2; 3; 1]%nat mask)) (fun y =>
  Some (transpose [0; 3; 1; 2]%nat y))).

(** [ATenAvgPool1dOperator] (aten.py 1009-1085); without [count_include_pad] the mask of a tensor with three axes
    is permuted by four (line 1075) *)
Definition avg_pool1d (k : nat) (stride : option nat) (p : nat) (ceil include : bool) (oshape : list nat) (x : tensor R)
  : option (tensor R) :=
  let s := match stride with Some s => s | None => k end in
  let x4 := reshape (tshape x ++ [1%nat]) x in
  obind (handle_padding_1d p ceil x4) (fun xp =>
  if negb include then None
  else Some (reshape oshape
         (wrap_nhwc (fun xt => op_valid avgpool_kernel (nth 3 (tshape xt) 0%nat) [s; 1]%nat [1; 1]%nat [k; 1]%nat xt) xp))).

(** [ATenAdaptiveAvgPool2dOperator.parse_common] and [ATenAdaptiveMaxPool2dOperator.parse_common] (aten.py
    1104-1148, 1167-1216): a reduction of both axes when one element is left, else a pooling.  [red] is the
    reduction, [kernel] the pooling kernel. *)
Definition adaptive2d {B} (red : list R -> B) (kernel : nat -> list (list (option R)) -> B) (oh ow : nat) (x : tensor R)
  : option (tensor B) :=
  let dh := nth 2 (tshape x) 0%nat in
  let dw := nth 3 (tshape x) 0%nat in
  if negb ((dh mod oh =? 0) && (dw mod ow =? 0))%nat then None else
  let sh := (dh / oh)%nat in
  let sw := (dw / ow)%nat in
  let kh := (dh - (oh - 1) * sh)%nat in
  let kw := (dw - (ow - 1) * sw)%nat in
  Some (wrap_nhwc (fun xt =>
    if ((oh =? 1) && (ow =? 1))%nat then reduce red [1; 2]%nat xt
    else op_valid kernel (nth 3 (tshape xt) 0%nat) [sh; sw] [1; 1]%nat [kh; kw] xt) x).
(** the one-dimensional classes (aten.py 1088-1148, 1151-1216) *)
Definition adaptive1d {B} (red : list R -> B) (kernel : nat -> list (list (option R)) -> B) (o : nat) (oshape : list nat) (x : tensor R)
  : option (tensor B) :=
  obind (adaptive2d red kernel o 1 (reshape (tshape x ++ [1%nat]) x)) (fun y => Some (reshape oshape y)).
