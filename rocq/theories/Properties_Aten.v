(** Lowering of torch operators to TFLite operators (C63, C64). *)
From Coq Require Import List Arith Bool Reals Lia.
From Verif Require Import Tensor ConvSpec LayoutSpec FuseModel AtenSpec AtenConvModel AtenConvProofs.
Import ListNotations.
Local Open Scope R_scope.

(** Every one- or two-dimensional convolution, with any groups, stride, dilation and padding, becomes a chain of
    TFLite operators that computes the convolution of torch followed by the fused activation.  So does every
    three-dimensional convolution without groups, unless it has a single channel on both sides. *)
Theorem C63_conv_partial : forall groups ipg opg N dims ks stride dil pad act bias x w,
  conv_wf groups ipg opg N dims ks stride dil pad bias x w ->
  length dims = 1%nat \/ length dims = 2%nat \/
    (length dims = 3%nat /\ groups = 1%nat /\ ~ (ipg = 1%nat /\ opg = 1%nat)) ->
  let ref := conv (mkCA stride dil pad pad groups) x w (bias_of bias) in
  exists y, generic_conv stride pad dil groups act (tshape ref) bias x w = Some y /\ teq y (tmap (act_fn act) ref).
Proof. exact generic_conv_correct. Qed.
Print Assumptions C63_conv_partial.
(** two groups, unequal strides and paddings, a bias; the value of one output element *)
Example C63_example :
  let x := mkT [1; 4; 3; 3]%nat (fun i => INR (nth 1 i 0%nat)) in
  let w := mkT [6; 2; 2; 1]%nat (fun i => INR (nth 0 i 0%nat)) in
  let b := Some [1; 1; 1; 1; 1; 1] in
  conv_wf 2 2 3 1 [3; 3]%nat [2; 1]%nat [1; 2]%nat [2; 1]%nat [1; 0]%nat b x w /\
  tshape (conv (mkCA [1; 2]%nat [2; 1]%nat [1; 0]%nat [1; 0]%nat 2) x w (bias_of b)) = [1; 6; 3; 2]%nat /\
  tget (conv (mkCA [1; 2]%nat [2; 1]%nat [1; 0]%nat [1; 0]%nat 2) x w (bias_of b)) [0; 5; 1; 1]%nat = 51.
Proof.
  cbv zeta. split; [|split].
  - constructor; try reflexivity; try lia; [cbn [conv_axes]; repeat split; lia|]. intros l [= <-]. reflexivity.
  - reflexivity.
  - cbv -[Rplus Rmult Rminus Rdiv Ropp Rinv IZR]. ring.
Qed.

(** A three-dimensional convolution with one channel on both sides is taken for a depthwise one, and the
    conversion stops. *)
Theorem C63_conv3d_refuted : exists groups ipg opg N dims ks stride dil pad bias x w,
  conv_wf groups ipg opg N dims ks stride dil pad bias x w /\ length dims = 3%nat /\ groups = 1%nat /\
  forall act oshape, generic_conv stride pad dil groups act oshape bias x w = None.
Proof. exact generic_conv3d_none. Qed.
Print Assumptions C63_conv3d_refuted.

(** Every transposed convolution without groups becomes a chain of TFLite operators that computes it, whatever
    its stride, padding and output padding, with the bias inside the operator or added behind it; dilated ones
    only in three dimensions.  An activation may be fused only when the operator holds the bias. *)
Theorem C64_transpose_conv : forall cin cout N dims ks stride dil pad odims act with_bias bias x w,
  deconv_wf cin cout N dims ks stride dil pad odims bias x w ->
  length dims = 1%nat \/ length dims = 2%nat \/ length dims = 3%nat ->
  length dims = 3%nat \/ dil = map (fun _ => 1%nat) dims ->
  with_bias = true \/ act = ANone ->
  let ref := deconv (mkCA stride dil pad pad 1) odims x w (bias_of bias) in
  exists y, generic_deconv stride pad dil act with_bias (tshape ref) bias x w = Some y /\ teq y (tmap (act_fn act) ref).
Proof. exact generic_deconv_correct. Qed.
Print Assumptions C64_transpose_conv.
Example C64_example :
  let x := mkT [1; 2; 2; 3]%nat (fun i => INR (nth 1 i 0%nat + nth 3 i 0%nat)) in
  let w := mkT [2; 3; 3; 2]%nat (fun i => INR (nth 1 i 0%nat)) in
  let b := Some [1; 2; 3] in
  deconv_wf 2 3 1 [2; 3]%nat [3; 2]%nat [2; 1]%nat [1; 1]%nat [1; 0]%nat [4; 4]%nat b x w /\
  tget (deconv (mkCA [2; 1]%nat [1; 1]%nat [1; 0]%nat [1; 0]%nat 1) [4; 4]%nat x w (bias_of b)) [0; 2; 1; 1]%nat = 19.
Proof.
  cbv zeta. split.
  - constructor; try reflexivity; [repeat split; reflexivity|]. intros l [= <-]. reflexivity.
  - cbv -[Rplus Rmult Rminus Rdiv Ropp Rinv IZR]. ring.
Qed.

(** A dilated transposed convolution in one or two dimensions is rejected, never converted wrongly. *)
Theorem C64_dilated : forall stride pad dil act with_bias oshape bias x w,
  length (tshape w) = 3%nat \/ length (tshape w) = 4%nat -> forallb (Nat.eqb 1) dil = false ->
  generic_deconv stride pad dil act with_bias oshape bias x w = None.
Proof. exact generic_deconv_dilated. Qed.
Print Assumptions C64_dilated.
Example C64_dilated_example : length (tshape (mkT [2; 3; 3; 2]%nat (fun _ => 1))) = 4%nat /\ forallb (Nat.eqb 1) [1; 2]%nat = false.
Proof. split; reflexivity. Qed.
