(** Model of the lowering of convolutions: [GenericConvOperator.transform] and
    [GenericTransposeConvOperator.transform] of
    tinynn/converter/operators/tflite/transformable.py.  Both rewrite one torch convolution into a
    chain of TFLite operators; the model is the composition of the operators of that chain.

    Float operators only (the quantization parameters of the intermediate tensors are not modelled).
    [oshape] is the shape of the output recorded while tracing the torch operator.  An assertion
    that fails is [None]. *)
From Coq Require Import List Arith Bool Reals.
From Verif Require Import Tensor ConvSpec LayoutSpec FuseModel AtenSpec.
Import ListNotations.
Local Open Scope R_scope.

(** [np.expand_dims(t, 2)] together with the RESHAPE that realises it (transformable.py 208-226, 479-496) *)
Definition expand2 {A} (t : tensor A) : tensor A := reshape (insert_at 2 1 (tshape t)) t.

(** permutations of [wrap_ops_with_nhwc_nchw_transposes] (transformable.py 51-58) *)
Definition nchw2nhwc (rank : nat) : option (list nat) :=
  match rank with
  | 4%nat => Some [0; 2; 3; 1]%nat
  | 5%nat => Some [0; 2; 3; 4; 1]%nat
  | _ => None
  end.
Definition nhwc2nchw (rank : nat) : option (list nat) :=
  match rank with
  | 4%nat => Some [0; 3; 1; 2]%nat
  | 5%nat => Some [0; 4; 1; 2; 3]%nat
  | _ => None
  end.

(** padding of the spatial axes, by position (transformable.py 315-327, 573-588); [flat] is
    [weight_dim in (3, 4)] *)
Definition spatial (two : bool) (l : list nat) : list nat :=
  if two then [nth 0 l 0%nat; nth 1 l 0%nat] else [nth 0 l 0%nat; nth 1 l 0%nat; nth 2 l 0%nat].

(** bias operand: zeros when it is missing (transformable.py 375-397, 613-639); a bias whose length
    does not fit is not accepted by the kernel ([None]) *)
Definition conv_bias (n : nat) (bias : option (list R)) : option (nat -> R) :=
  match bias with
  | None => Some (fun _ => 0)
  | Some b => if (length b =? n)%nat then Some (fun o => nth o b 0) else None
  end.

(** [GenericConvOperator.transform] (transformable.py 186-410) *)
Definition generic_conv (stride padding dilation : list nat) (groups : nat) (act : activ)
  (oshape : list nat) (bias : option (list R)) (x w : tensor R) : option (tensor R) :=
  let wd := length (tshape w) in
  let xd := length (tshape x) in
  let flat := ((wd =? 3) || (xd =? 3))%nat in
  let two := ((wd =? 3) || (wd =? 4))%nat in
  (* 197-253: one-dimensional convolutions get an axis of size 1 *)
  let ins (v : nat) (l : list nat) := if (wd =? 3)%nat then v :: l else l in
  let stride := ins 1%nat stride in
  let padding := ins 0%nat padding in
  let dilation := ins 1%nat dilation in
  let x := if flat then expand2 x else x in
  let w := if (wd =? 3)%nat then expand2 w else w in
  (* 254-255 *)
  if negb flat && negb ((wd =? 4) || (wd =? 5))%nat then None else
  (* 257-303: the operator *)
  let depthwise := ((nth 1 (tshape w) 0 =? 1) && (nth 0 (tshape w) 0 =? groups))%nat in
  if depthwise && negb two then None else
  obind (nchw2nhwc (length (tshape x))) (fun pin =>
  obind (nhwc2nchw (length (tshape x))) (fun pout =>
  let xt := transpose pin x in
  (* 308-336: explicit padding *)
  let xp := if (0 <? list_sum padding)%nat
            then pad_op 0 ((0, 0)%nat :: map (fun p => (p, p)) (spatial two padding) ++ [(0, 0)%nat]) xt
            else xt in
  (* 338-369: weight *)
  let wr := transpose (if depthwise then [1; 2; 3; 0]%nat
                       else if two then [0; 2; 3; 1]%nat else [2; 3; 4; 1; 0]%nat) w in
  (* 371-406: bias *)
  let kernel_num := if depthwise || negb two then last (tshape wr) 0%nat else nth 0 (tshape wr) 0%nat in
  obind (conv_bias kernel_num bias) (fun b =>
  let st := spatial two stride in
  let dl := spatial two dilation in
  let cin := last (tshape xp) 0%nat in
  let y := if depthwise then op_valid (depthwise_kernel wr b cin) kernel_num st dl (removelast (tl (tshape wr))) xp
           else if two then op_valid (conv_kernel wr b cin) kernel_num st dl (removelast (tl (tshape wr))) xp
           else op_valid (conv3d_kernel wr b) kernel_num st dl (firstn 3 (tshape wr)) xp in
  let yt := transpose pout (tmap (act_fn act) y) in
  (* 228-249: back to three axes *)
  Some (if flat then reshape oshape yt else yt)))).

(** [GenericTransposeConvOperator.transform] (transformable.py 456-677), without MTK operators.
    [with_bias] is [conv_transpose_with_bias].  A three-dimensional weight with a four-dimensional
    operand passes the weight as bias (line 521) and is not modelled ([None]). *)
Definition generic_deconv (stride padding dilation : list nat) (act : activ) (with_bias : bool)
  (oshape : list nat) (bias : option (list R)) (x w : tensor R) : option (tensor R) :=
  let wd := length (tshape w) in
  let xd := length (tshape x) in
  let flat := ((wd =? 3) || (xd =? 3))%nat in
  let two := ((wd =? 3) || (wd =? 4))%nat in
  if ((wd =? 3) && negb (xd =? 3))%nat then None else
  (* 468-526 *)
  let ins (v : nat) (l : list nat) := if flat then v :: l else l in
  let stride := ins 1%nat stride in
  let padding := ins 0%nat padding in
  let dilation := ins 1%nat dilation in
  let x := if flat then expand2 x else x in
  let w := if (wd =? 3)%nat then expand2 w else w in
  let out4 := if flat then insert_at 2 1 oshape else oshape in
  (* 527-528 *)
  if negb flat && negb ((wd =? 4) || (wd =? 5))%nat then None else
  (* 538 *)
  if two && negb (forallb (Nat.eqb 1) dilation) then None else
  obind (nchw2nhwc (length (tshape x))) (fun pin =>
  obind (nhwc2nchw (length (tshape x))) (fun pout =>
  let xt := transpose pin x in
  (* 571-602: padding becomes a slice of a larger output *)
  let oshape_nhwc := sel out4 pin in
  let padded := (0 <? list_sum padding)%nat in
  let vshape := if padded
                then pad_shape oshape_nhwc ((0, 0)%nat :: map (fun p => (p, p)) (spatial two padding) ++ [(0, 0)%nat])
                else oshape_nhwc in
  (* 604-616: weight *)
  let wr := transpose (if two then [1; 2; 3; 0]%nat else [2; 3; 4; 1; 0]%nat) w in
  (* 618-668: bias, in the operator or added behind it *)
  obind (conv_bias (nth 1 out4 0%nat) bias) (fun b =>
  let st := spatial two stride in
  let dl := spatial two dilation in
  let kb := if with_bias then b else fun _ => 0 in
  let y := if two then lite_deconv (deconv2d_weight wr) (removelast (tl (tshape wr))) kb st dl vshape xt
           else lite_deconv (deconv3d_weight wr) (firstn 3 (tshape wr)) kb st dl vshape xt in
  let ya := tmap (act_fn act) y in
  let ys := if padded then slice_op (0%nat :: spatial two padding ++ [0%nat]) oshape_nhwc ya else ya in
  let yb := if with_bias then ys else mkT (tshape ys) (fun idx => tget ys idx + b (last idx 0%nat)) in
  let yt := transpose pout yb in
  Some (if flat then reshape oshape yt else yt)))).
