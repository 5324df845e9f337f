(** Model of the fusion passes of the converter's optimizer
    ([tinynn/converter/operators/optimize.py]) on weights and attributes.

    One-dimensional numpy arrays are lists of reals, weights are tensors.  Numpy
    broadcasting follows the numpy rules and yields [None] where numpy raises
    [ValueError].  Values are reals: rounding is not modelled, and [np.sqrt] of a
    negative number (nan in numpy) is only meaningful where its argument is positive,
    which the theorems assume. *)
From Coq Require Import List Arith ZArith Bool Reals.
From Verif Require Import Tensor ConvSpec ChainModel.
Import ListNotations.
Local Open Scope R_scope.

(* ------------------------------------------------------------------ *)
(** * numpy helpers *)

(** Element-wise binary operation on 1-D arrays with broadcasting
    (numpy, used in optimize.py 4383-4428). *)
Definition arr2 (f : R -> R -> R) (a b : list R) : option (list R) :=
  match bdim (length a) (length b) with
  | Some n => Some (map (fun i => f (nth (if (length a =? 1)%nat then 0%nat else i) a 0)
                                    (nth (if (length b =? 1)%nat then 0%nat else i) b 0)) (seq 0 n))
  | None => None
  end.

(** [weight * v.reshape([1.., -1, 1..])] with the -1 at axis [ax] (optimize.py 4383-4392, 4404-4409). *)
Definition mul_axis (ax : nat) (v : list R) (w : tensor R) : option (tensor R) :=
  let d := nth ax (tshape w) 0%nat in
  match bdim d (length v) with
  | Some n =>
      Some (mkT (upd (tshape w) ax n)
        (fun idx => let i := nth ax idx 0%nat in
           tget w (upd idx ax (if (d =? 1)%nat then 0%nat else i)) *
           nth (if (length v =? 1)%nat then 0%nat else i) v 0))
  | None => None
  end.

(** [1 / np.sqrt(var + eps)] (optimize.py 4389, 4396, 4407, 4416). *)
Definition bn_inv (eps : R) (var : list R) : list R := map (fun v => 1 / sqrt (v + eps)) var.

Definition obind {A B} (o : option A) (f : A -> option B) : option B :=
  match o with Some a => f a | None => None end.

(* ------------------------------------------------------------------ *)
(** * Batch-norm folding into the preceding layer *)

(** [fuse_bn_weight] (optimize.py 4383-4392). *)
Definition fuse_bn_weight (eps : R) (scale var : list R) (w : tensor R) (transpose : bool) : option (tensor R) :=
  obind (arr2 Rmult scale (bn_inv eps var)) (fun s => mul_axis (if transpose then 1 else 0) s w).

(** [activ_b.shape != mean.shape and activ_b.size == 1 -> activ_b.repeat(mean.size)]
    (optimize.py 4398-4399, 4424-4425). *)
Definition repeat_bias (n : nat) (b : list R) : list R :=
  if negb (length b =? n)%nat && (length b =? 1)%nat then repeat (nth 0 b 0) n else b.

(** [fuse_bn_bias] (optimize.py 4395-4402). *)
Definition fuse_bn_bias (eps : R) (scale var mean bn_b : list R) (activ_b : option (list R)) : option (list R) :=
  let inv := bn_inv eps var in
  let d := match activ_b with
           | Some b => arr2 Rminus (repeat_bias (length mean) b) mean
           | None => Some (map Ropp mean)
           end in
  obind d (fun d => obind (arr2 Rmult d inv) (fun d => obind (arr2 Rmult d scale) (fun d => arr2 Rplus d bn_b))).

Definition activ_eqb (a b : activ) : bool :=
  match a, b with
  | ANone, ANone | ARelu, ARelu | AReluN1To1, AReluN1To1 | ARelu6, ARelu6 => true
  | _, _ => false
  end.

(** Activation part of [is_bn_fusable_edge] (optimize.py 3636-3653).  The remaining
    conditions (node types, one consumer, constant operands) select the situation modelled. *)
Definition bn_fusable (layer_act bn_act : activ) : bool :=
  activ_eqb bn_act ANone || activ_eqb layer_act ANone || activ_eqb layer_act bn_act.

(** The fused activation after [fuse_conv_fc_bn] (optimize.py 103-106, 124-125; the
    three layer operators all have the attribute, so line 105-106 never skips). *)
Definition bn_fused_act (layer_act bn_act : activ) : activ :=
  if negb (activ_eqb bn_act ANone) && activ_eqb layer_act ANone then bn_act else layer_act.

Inductive layer := LConv (a : conv_attr) | LDeconv (a : conv_attr) (oshape : list nat) | LFc.
Definition is_deconv (l : layer) : bool := match l with LDeconv _ _ => true | _ => false end.

Record bn_params := mkBn { bn_eps : R; bn_w : list R; bn_b : list R; bn_mean : list R; bn_var : list R }.

(** [fuse_conv_fc_bn] on one layer / batch-norm pair (optimize.py 96-170): the new
    weight, bias and activation of the layer; the batch-norm node is removed.
    [None]: numpy raises; [Some None]: the pair is left alone. *)
Definition fuse_conv_fc_bn (l : layer) (w : tensor R) (b : option (list R)) (layer_act bn_act : activ)
    (p : bn_params) : option (option (tensor R * list R * activ)) :=
  if bn_fusable layer_act bn_act then
    obind (fuse_bn_weight (bn_eps p) (bn_w p) (bn_var p) w (is_deconv l)) (fun w' =>
    obind (fuse_bn_bias (bn_eps p) (bn_w p) (bn_var p) (bn_mean p) (bn_b p) b) (fun b' =>
    Some (Some (w', b', bn_fused_act layer_act bn_act))))
  else Some None.

(* ------------------------------------------------------------------ *)
(** * Batch-norm folding into the following convolution *)

(** [fuse_rev_bn_weight] (optimize.py 4404-4409). *)
Definition fuse_rev_bn_weight (eps : R) (scale var : list R) (w : tensor R) : option (tensor R) :=
  obind (arr2 Rmult scale (bn_inv eps var)) (fun s => mul_axis 1 s w).

(** [weight.sum(reduced_dims)] as a function of output and input channel (optimize.py 4413, 4420-4422). *)
Definition wsum (w : tensor R) (o i : nat) : R := lsum (indices (skipn 2 (tshape w))) (fun k => tget w (o :: i :: k)).

(** [fuse_rev_bn_bias] (optimize.py 4412-4428); [np.matmul] raises unless the inner sizes agree. *)
Definition fuse_rev_bn_bias (eps : R) (scale var mean bn_b : list R) (activ_b : option (list R)) (w : tensor R)
  : option (list R) :=
  let inv := bn_inv eps var in
  let cout := nth 0 (tshape w) 0%nat in
  let ipg := nth 1 (tshape w) 0%nat in
  obind (arr2 Rmult mean inv) (fun m =>
  obind (arr2 Rmult m scale) (fun m =>
  obind (arr2 Rminus bn_b m) (fun fused_b =>
  let offset :=
    if (ipg =? 1)%nat && (1 <? length mean)%nat
    then arr2 Rmult (map (fun o => wsum w o 0) (seq 0 cout)) fused_b
    else if (ipg =? length fused_b)%nat
         then Some (map (fun o => lsum (seq 0 ipg) (fun i => wsum w o i * nth i fused_b 0)) (seq 0 cout))
         else None in
  obind offset (fun offset =>
  match activ_b with
  | Some b => arr2 Rplus (repeat_bias (length mean) b) offset
  | None => Some offset
  end)))).

(** [fuse_bn_conv] on one batch-norm / convolution pair (optimize.py 172-233 and the edge
    test 3656-3666: no activation on the batch-norm).  [quantized] is
    [bn.inputs[0].quantization is not None]. *)
Definition fuse_bn_conv (quantized : bool) (groups : nat) (w : tensor R) (b : option (list R)) (bn_act : activ)
    (p : bn_params) : option (option (tensor R * list R)) :=
  if activ_eqb bn_act ANone then
    if quantized || ((nth 1 (tshape w) 0 =? 1)%nat && (nth 0 (tshape w) 0 =? groups)%nat && (1 <? groups)%nat)
    then Some None
    else obind (fuse_rev_bn_weight (bn_eps p) (bn_w p) (bn_var p) w) (fun w' =>
         obind (fuse_rev_bn_bias (bn_eps p) (bn_w p) (bn_var p) (bn_mean p) (bn_b p) b w) (fun b' =>
         Some (Some (w', b'))))
  else Some None.

(** [BatchNormOperator.transform] (tflite/transformable.py 106-147): factor and offset per
    channel, reshaped to [1; C; 1; ...] and applied by MUL and ADD, the ADD carrying the activation.
    The dequantize/quantize pair around a quantized operand is not modelled. *)
Definition bn_transform (p : bn_params) (bn_act : activ) (x : tensor R) : option (tensor R) :=
  obind (arr2 Rmult (bn_inv (bn_eps p) (bn_var p)) (bn_w p)) (fun new_w =>
  obind (arr2 Rmult (bn_mean p) new_w) (fun m =>
  obind (arr2 Rminus (bn_b p) m) (fun new_b =>
  let new_shape := 1%nat :: length new_w :: repeat 1%nat (length (tshape x) - 2) in
  (* new_b.reshape(new_shape) raises unless the sizes agree *)
  if (length new_b =? length new_w)%nat then
    obind (binop Rmult x (mkT new_shape (fun idx => nth (nth 1 idx 0%nat) new_w 0))) (fun y =>
    obind (binop Rplus y (mkT new_shape (fun idx => nth (nth 1 idx 0%nat) new_b 0))) (fun z =>
    Some (tmap (act_fn bn_act) z)))
  else None))).

(* ------------------------------------------------------------------ *)
(** * SAME padding *)

(** [get_same_padding_args] (optimize.py 4844-4858); the padding is computed in python
    integers, negative before the [max]. *)
Definition same_padding_dim (d k s l : nat) : nat :=
  Z.to_nat (if (d mod s =? 0)%nat
            then Z.max (1 - Z.of_nat s + (Z.of_nat k - 1) * Z.of_nat l) 0
            else Z.max (1 + (Z.of_nat k - 1) * Z.of_nat l - Z.of_nat (d mod s)) 0)%Z.
Fixpoint same_padding_dims (dims ks stride dil : list nat) : list nat :=
  match dims, ks, stride, dil with
  | d :: dims', k :: ks', s :: stride', l :: dil' => same_padding_dim d k s l :: same_padding_dims dims' ks' stride' dil'
  | _, _, _, _ => []
  end.
Definition get_same_padding_args (dims ks stride dil : list nat) : list (nat * nat) :=
  (0, 0)%nat :: map (fun x => (x / 2, x - x / 2)%nat) (same_padding_dims dims ks stride dil) ++ [(0, 0)%nat].

Inductive win_op := WConv2d | WConv3d | WDepthwise | WMaxPool.
(** operand 2 of the pad node: absent (PAD, zeros), the float 0.0, the lowest float32, or something else *)
Inductive pad_const := PadAbsent | PadZero | PadLowest | PadOther.

(** Padding constant part of [is_padding_fusable_edge] (optimize.py 3669-3701). *)
Definition padding_fusable (op : win_op) (c : pad_const) : bool :=
  match c with
  | PadAbsent => true
  | PadZero => match op with WMaxPool => false | _ => true end
  | PadLowest => match op with WMaxPool => true | _ => false end
  | PadOther => false
  end.

(** [np.array_equal(pad_arr, old_pad_arr)] (optimize.py 304-307). *)
Fixpoint pads_eqb (a b : list (nat * nat)) : bool :=
  match a, b with
  | [], [] => true
  | (x, y) :: a', (u, v) :: b' => (x =? u)%nat && (y =? v)%nat && pads_eqb a' b'
  | _, _ => false
  end.

(** [fuse_same_padding] on one pad / windowed-operator pair (optimize.py 269-320 with the edge
    test 3669-3701): whether the pad node is dropped and the operator switched from VALID to SAME.
    [shape] is the shape of the pad node's operand. *)
Definition fuse_same_padding (op : win_op) (c : pad_const) (shape ks stride dil : list nat) (pads : list (nat * nat)) : bool :=
  padding_fusable op c &&
  pads_eqb (get_same_padding_args (removelast (tl shape)) ks stride
              (match op with WMaxPool => map (fun _ => 1%nat) dil | _ => dil end)) pads.

(** [fuse_same_padding_slicing] on a transposed convolution with VALID padding followed by a
    slice (optimize.py 323-385): dropped when the slice cuts exactly the SAME margins.
    [vshape], [start], [oshape]: shape before the slice, slice begin, shape after. *)
Fixpoint slice_margins (vshape start oshape : list nat) : list (nat * nat) :=
  match vshape, start, oshape with
  | v :: vshape', a :: start', o :: oshape' => (a, v - a - o)%nat :: slice_margins vshape' start' oshape'
  | _, _, _ => []
  end.
Definition fuse_same_padding_slicing (vshape start oshape ks stride dil : list nat) : bool :=
  pads_eqb (get_same_padding_args (removelast (tl oshape)) ks stride dil) (slice_margins vshape start oshape).

(* ------------------------------------------------------------------ *)
(** * Reciprocal square root *)

(** [fuse_reciprocal_sqrt] (optimize.py 466-505, edge test 4287-4295) on the node
    [DIV(in0, in1)] with an operand produced by SQRT.  [ones]: operand 0 is a constant whose
    elements are all 1.  The SQRT node always becomes RSQRT. *)
Inductive rsqrt_result :=
| RDropDiv       (* the DIV node is removed, its output is the RSQRT output *)
| RMul.          (* the DIV node becomes MUL with the same operands and activation *)
Definition fuse_reciprocal_sqrt (ones : bool) (act : activ) : rsqrt_result :=
  if ones && activ_eqb act ANone then RDropDiv else RMul.

(* ------------------------------------------------------------------ *)
(** * Tile before a binary operator *)

(** [remove_tile_before_binary_elementwise_ops] (optimize.py 508-557): whether the TILE node
    feeding one operand is dropped.  Shapes: the other operand, the tile's operand, the output. *)
Definition remove_tile (other tin out : list nat) : bool :=
  match bshape other tin with
  | Some s => if list_eq_dec Nat.eq_dec s out then true else false
  | None => false
  end.

(* ------------------------------------------------------------------ *)
(** * Convolution and gather *)

(** [np.take(w, indx, axis)] is [gather axis indx w] (optimize.py 587, 590, 636); all
    indices are non-negative in the model (a negative index would raise or count from the end). *)

(** Edge test [is_conv2d_gather_edge] (optimize.py 4259-4270). *)
Definition conv2d_gather_edge (axis : nat) (w : tensor R) (ix : list nat) : bool :=
  (axis =? 3)%nat && (nth 0 (tshape w) 0 =? length ix)%nat.
(** [fuse_conv2d_gather] (optimize.py 560-615), float case: new weight and bias.  Without a
    bias operand line 589 raises [IndexError]. *)
Definition fuse_conv2d_gather (axis : nat) (w : tensor R) (b : option (list R)) (ix : list nat)
  : option (option (tensor R * list R)) :=
  if conv2d_gather_edge axis w ix then
    match b with
    | Some b => Some (Some (gather 0 ix w, map (fun i => nth i b 0) ix))
    | None => None
    end
  else Some None.

(** Edge test [is_gather_conv2d_edge] (optimize.py 4273-4284). *)
Definition gather_conv2d_edge (axis : nat) (w : tensor R) (ix : list nat) : bool :=
  (axis =? 3)%nat && (length ix =? nth 3 (tshape w) 0)%nat.
(** [fuse_gather_conv2d] (optimize.py 618-656), float case: the new weight.  [np.argsort] is
    [argsort] of [ChainModel] (among equal keys numpy's order is unspecified). *)
Definition fuse_gather_conv2d (axis : nat) (w : tensor R) (ix : list nat) : option (tensor R) :=
  if gather_conv2d_edge axis w ix then Some (gather 3 (argsort ix) w) else None.

(* ------------------------------------------------------------------ *)
(** * Matrix product followed by an addition *)

Inductive mm_kind := MBmm | MFc.
(** [is_bmm_add_edge] (optimize.py 4067-4090) and the filter of [fuse_bmm_add_pass]
    (2572-2579).  [xrank], [w]: operands of the product; [bias_shape]: operand 1 of the ADD;
    [b]: bias operand of the FULLY_CONNECTED node, its zero test abstracted to [bias_zero]. *)
Definition bmm_add_edge (kind : mm_kind) (xrank : nat) (wshape bias_shape : list nat) (bias_zero : bool) : bool :=
  (2 <=? xrank)%nat && (length wshape =? 2)%nat && (length bias_shape =? 1)%nat &&
  (nth 0 bias_shape 0 =? (match kind with MBmm => nth 1 wshape 0 | MFc => nth 0 wshape 0 end))%nat &&
  (match kind with MBmm => true | MFc => bias_zero end).

(** [fuse_bmm_add_pass] on one pair (optimize.py 2611-2640): weight, bias and activation of the
    new FULLY_CONNECTED operator. *)
Definition fuse_bmm_add (kind : mm_kind) (w : tensor R) (add_bias : tensor R) (add_act : activ)
  : tensor R * (nat -> R) * activ :=
  ((match kind with MBmm => transpose [1; 0]%nat w | MFc => w end), (fun o => tget add_bias [o]), add_act).
