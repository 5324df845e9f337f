(** Model of the lowering of quantized layers (tinynn/converter/operators/torch/quantized.py) with the helpers
    [quantize] and [rescale_weight_scale_for_qnnpack] of torch/base.py.

    Simplified: scales and biases are reals (float rounding of products of scales is not modelled, except that the
    bounds of the 32 and 64 bit types are no binary32 numbers); the geometry of convolutions is that of C63 and C64.
    Activations are [quint8], weights [qint8].  An exception is [None]. *)
From Coq Require Import List Arith ZArith Bool Reals.
From Flocq Require Import Core.
From Verif Require Import Tensor ConvSpec QuantSpec FuseModel QuantModel QLayerSpec EltSpec AtenEltModel.
Import ListNotations.
Local Open Scope R_scope.

(** Exponent field of the binary32 number [v] >= 0 ([fp32_to_bits(v) >> 23], base.py 752-754, 277); rounding to binary32
    is not modelled *)
Definition f32_exponent (v : R) : Z :=
  if Rle_dec v 0 then 0%Z else Z.max 0 (mag radix2 v - 1 + 127).
(** [rescale_weight_scale_for_qnnpack] (base.py 269-285); [None]: still looping after [fuel] rounds *)
Fixpoint rescale (fuel : nat) (sx sw sy : R) : option R :=
  match fuel with
  | O => None
  | S fuel' =>
      let shift := (127 + 31 - 32 - f32_exponent (sx * sw / sy))%Z in
      if (32 <=? shift)%Z then rescale fuel' sx (sw * 10) sy else Some sw
  end.

(** The integer type of a quantized bias (quantized.py 104-116, 258-261) *)
Inductive bty := B32 | B64 | BOf (t : ity).
Definition bty_lo (t : bty) : Z := match t with B32 => - 2 ^ 31 | B64 => - 2 ^ 63 | BOf t => ity_lo t end.
Definition bty_hi (t : bty) : Z := match t with B32 => 2 ^ 31 - 1 | B64 => 2 ^ 63 - 1 | BOf t => ity_hi t end.
(** One element of [quantize] with zero point 0 (base.py 299-317).  The elements are binary32 numbers: storing the upper
    bound of a 32 or 64 bit type into the tensor rounds it up by one, and the conversion that follows is out of range.
    [oob] is what the machine then gives. *)
Definition quantize1 (oob : bty -> Z) (t : bty) (s v : R) : Z :=
  let q := rne (v / s) in
  if (bty_hi t <? q)%Z then match t with BOf _ => bty_hi t | _ => oob t end
  else if (q <? bty_lo t)%Z then bty_lo t else q.
Fixpoint map2o {A B C} (f : A -> B -> C) (l : list A) (m : list B) : option (list C) :=
  match l, m with
  | [], [] => Some []
  | a :: l', b :: m' => option_map (cons (f a b)) (map2o f l' m')
  | _, _ => None
  end.

(** The operands of the emitted operator: stored input, weight, bias (integers, scales) and output parameters *)
Record qdot := mkQD {
  qd_x : R * Z * tensor Z; qd_ws : qpar; qd_w : tensor Z;
  qd_b : option (list Z * list R); qd_ty : ity; qd_y : R * Z }.

Definition bias_type (own : bool) (qt : ity) : bty :=
  if own then BOf qt else if ity_eqb qt S16 then B64 else B32.

(** [QuantizedConv2dOperator.parse_common] (quantized.py 64-139) up to the emitted operator; [tr]: transposed;
    [own]: a bias of its own type for a separate ADD ([transpose and not enable_mtk_ops and not
    conv_transpose_with_bias], 105).  The output tensor has the parameters [py] *)
Definition conv_operands (oob : bty -> Z) (fuel : nat) (qt : ity) (asym tr own : bool)
  (px : tqpar) (x : tensor Z) (pw : tqpar) (w : tensor Z) (bias : option (list R)) (py : tqpar) : option qdot :=
  let bias := match bias with                                                           (* 69-71 *)
              | Some b => if tr && forallb (fun v => Reqb v 0) b then None else Some b
              | None => None
              end in
  obind (store QUInt8 asym qt px x) (fun rx =>
  obind (store QInt8 asym qt pw w) (fun rw =>
  obind (store QUInt8 asym qt py (mkT [] (fun _ => 0%Z))) (fun ry =>
  match rx, rw, ry with
  | (_, PerTensor sx zx, x'), (_, PerTensor sw zw, w'), (ty, PerTensor sy zy, _) =>
      obind (rescale fuel sx sw sy) (fun sw' =>                                          (* 89-97 *)
      let bs := sx * sw' in
      Some (mkQD (sx, zx, x') (PerTensor sw' zw) w'
              (option_map (fun b => (map (quantize1 oob (bias_type (tr && own) qt) bs) b, map (fun _ => bs) b)) bias)
              ty (sy, zy)))
  | (_, PerTensor sx zx, x'), (_, PerChannel sws zws dim, w'), (ty, PerTensor sy zy, _) =>
      let bs := map (fun s => sx * s) sws in                                             (* 99-101 *)
      match bias with
      | None => Some (mkQD (sx, zx, x') (PerChannel sws zws dim) w' None ty (sy, zy))
      | Some b =>
          obind (map2o (quantize1 oob (bias_type (tr && own) qt)) bs b) (fun bq =>
          Some (mkQD (sx, zx, x') (PerChannel sws zws dim) w' (Some (bq, bs)) ty (sy, zy)))
      end
  | _, _, _ => None
  end))).

(** [QuantizedLinearOperator.parse_common] (quantized.py 240-271): a missing bias is zero; the product of a scale and a
    list of scales raises *)
Definition linear_operands (oob : bty -> Z) (fuel : nat) (qt : ity) (asym : bool)
  (px : tqpar) (x : tensor Z) (pw : tqpar) (w : tensor Z) (bias : option (list R)) (py : tqpar) : option qdot :=
  obind (store QUInt8 asym qt px x) (fun rx =>
  obind (store QInt8 asym qt pw w) (fun rw =>
  obind (store QUInt8 asym qt py (mkT [] (fun _ => 0%Z))) (fun ry =>
  match rx, rw, ry with
  | (_, PerTensor sx zx, x'), (_, PerTensor sw zw, w'), (ty, PerTensor sy zy, _) =>
      obind (rescale fuel sx sw sy) (fun sw' =>
      let bs := sx * sw' in
      let b := match bias with Some b => b | None => repeat 0 (nth 0 (tshape w) 0%nat) end in
      Some (mkQD (sx, zx, x') (PerTensor sw' zw) w'
              (Some (map (quantize1 oob (bias_type false qt) bs) b, map (fun _ => bs) b)) ty (sy, zy)))
  | _, _, _ => None
  end))).

(** What the emitted CONV_2D, DEPTHWISE_CONV_2D, TRANSPOSE_CONV or FULLY_CONNECTED computes for one element of channel
    [c] (transformable.py 359-385 and 623-663 add a zero bias if there is none) *)
Definition chan_scale (p : qpar) (c : nat) : R := match p with PerTensor s _ => s | PerChannel s _ _ => nth c s 0 end.
Definition chan_zero (p : qpar) (c : nat) : Z := match p with PerTensor _ z => z | PerChannel _ z _ => nth c z 0%Z end.
Definition run_dot (relu : bool) (e : qdot) (c : nat) (taps : list tap) : Z :=
  let '(sx, zx, x) := qd_x e in
  let '(sy, zy) := qd_y e in
  let bq := match qd_b e with Some (b, _) => nth c b 0%Z | None => 0%Z end in
  tfl_requant relu (qd_ty e) (sx * chan_scale (qd_ws e) c / sy) zy
    (tfl_acc zx (chan_zero (qd_ws e) c) x (qd_w e) taps bq).
(** The transposed convolution without bias followed by an ADD of the bias (transformable.py 664-672) *)
Definition run_dot_add (e : qdot) (c : nat) (taps : list tap) : Z :=
  let '(sx, zx, x) := qd_x e in
  let '(sy, zy) := qd_y e in
  let y := tfl_requant false (qd_ty e) (sx * chan_scale (qd_ws e) c / sy) zy
             (tfl_acc zx (chan_zero (qd_ws e) c) x (qd_w e) taps 0%Z) in
  match qd_b e with
  | None => y
  | Some (b, bs) => tfl_add_q (qd_ty e) sy zy y (nth c bs 0) 0 (nth c b 0%Z) sy zy
  end.

(** ** Scalars.  The stored integer of the result of the emitted operator, for q_type uint8 and int8 (asymmetric):
    parameters of the output tensor and integer. *)
(** [Tensor.__init__] of a [quint8] element (tflite/base.py 202-225; [store] on one element) *)
Definition off (qt : ity) : Z := match qt with U8 => 0 | _ => 128 end%Z.
Definition qkind_of (qt : ity) : qkind := match qt with U8 => QU8 | S8 => QI8 | S16 => QI16 end.
(** [QuantizedMulScalarOperator.parse] and [QuantizedMulOperator.parse_common] (quantized.py 17-52); [torch_run] is the
    torch operator, run with 1 in place of -1 *)
Definition mul_scalar (torch_run : R -> Z -> R -> Z -> R * Z * Z) (qt : ity) (s : R) (z : Z) (v : R) (q : Z) : R * Z * Z :=
  let '(so, zo, _) := torch_run s z (if Reqb v (-1) then 1 else v) q in
  if Reqb v 1 then (s, (z - off qt)%Z, (q - off qt)%Z)                                            (* passthrough *)
  else let '(s2, z2, q2) := quantize_scalar (qkind_of qt) v in
       (so, (zo - off qt)%Z, tfl_mul_q qt s (z - off qt)%Z (q - off qt)%Z s2 z2 q2 so (zo - off qt)%Z).
(** [QuantizedAddScalarOperator.parse] and [QuantizedAddOperator.parse_common] without activation (quantized.py 223-228,
    280-296) *)
Definition add_scalar (torch_run : R -> Z -> R -> Z -> R * Z * Z) (qt : ity) (s : R) (z : Z) (v : R) (q : Z) : R * Z * Z :=
  let '(so, zo, _) := torch_run s z v q in
  if Reqb v 0 then (s, (z - off qt)%Z, (q - off qt)%Z)
  else let '(s2, z2, q2) := quantize_scalar (qkind_of qt) v in
       (so, (zo - off qt)%Z, tfl_add_q qt s (z - off qt)%Z (q - off qt)%Z s2 z2 q2 so (zo - off qt)%Z).
