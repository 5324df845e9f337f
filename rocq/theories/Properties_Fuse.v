(** Property theorems: fusing operators (C07-C12, C16, C59, C60). *)
From Coq Require Import List Arith Bool Reals Lia Lra Permutation.
From Verif Require Import Tensor ChainModel ConvSpec FuseModel FuseProofs PadProofs FuseMiscProofs.
Import ListNotations.
Local Open Scope R_scope.

(** ** C07: false for max pooling behind a PAD without a constant operand (it pads zeros). *)
Theorem C07_same_padding_conv_partial :
  forall op c (shape ks stride dil : list nat) pads lowest v F cout (x : tensor R) N dims C,
    op <> WMaxPool -> zero_padded F -> tshape x = N :: dims ++ [C] -> shape = tshape x ->
    axes_ok dims ks stride dil -> pad_value lowest c = Some v ->
    fuse_same_padding op c shape ks stride dil pads = true ->
    teq (op_same F cout stride dil ks x) (op_valid F cout stride dil ks (pad_op v pads x)).
Proof. exact same_padding_conv. Qed.
Print Assumptions C07_same_padding_conv_partial.

(** the two kernels of the convolution operators are covered *)
Theorem C07_conv_kernels_partial :
  forall w b cin, zero_padded (conv_kernel w b cin) /\ zero_padded (depthwise_kernel w b cin).
Proof. exact (fun w b cin => conj (conv_kernel_zero w b cin) (depthwise_kernel_zero w b cin)). Qed.
Print Assumptions C07_conv_kernels_partial.

Theorem C07_same_padding_maxpool_partial :
  forall c (shape ks stride dil : list nat) pads lowest v (x : tensor R) N dims C,
    tshape x = N :: dims ++ [C] -> shape = tshape x ->
    axes_ok dims ks stride (map (fun _ => 1%nat) dims) -> length dil = length dims ->
    pad_value lowest c = Some v -> (forall idx, valid (tshape x) idx -> lowest <= tget x idx) ->
    (c = PadAbsent -> forall idx, valid (tshape x) idx -> 0 <= tget x idx) ->
    fuse_same_padding WMaxPool c shape ks stride dil pads = true ->
    teq (op_same maxpool_kernel C stride (map (fun _ => 1%nat) dims) ks x)
        (op_valid maxpool_kernel C stride (map (fun _ => 1%nat) dims) ks (pad_op v pads x)).
Proof. exact same_padding_maxpool_const. Qed.
Print Assumptions C07_same_padding_maxpool_partial.

Theorem C07_same_padding_maxpool_refuted :
  exists c (shape ks stride dil : list nat) pads v (x : tensor R),
    shape = tshape x /\ axes_ok [1; 1]%nat ks stride dil /\ tshape x = [1; 1; 1; 1]%nat /\
    pad_value 0 c = Some v /\ fuse_same_padding WMaxPool c shape ks stride dil pads = true /\
    ~ teq (op_same maxpool_kernel 1 stride dil ks x) (op_valid maxpool_kernel 1 stride dil ks (pad_op v pads x)).
Proof. exact same_padding_maxpool_refuted. Qed.
Print Assumptions C07_same_padding_maxpool_refuted.

(** stride 2, kernel 3, an even and an odd size; the unsymmetric amounts go behind *)
Example C07_example :
  axes_ok [6; 5]%nat [3; 3]%nat [2; 2]%nat [1; 1]%nat /\
  fuse_same_padding WConv2d PadZero [1; 6; 5; 2]%nat [3; 3]%nat [2; 2]%nat [1; 1]%nat
    [(0, 0); (0, 1); (1, 1); (0, 0)]%nat = true /\
  fuse_same_padding WConv2d PadZero [1; 6; 5; 2]%nat [3; 3]%nat [2; 2]%nat [1; 1]%nat
    [(0, 0); (1, 1); (1, 1); (0, 0)]%nat = false /\
  fuse_same_padding WMaxPool PadLowest [1; 6; 5; 2]%nat [3; 3]%nat [2; 2]%nat [1; 1]%nat
    [(0, 0); (0, 1); (1, 1); (0, 0)]%nat = true.
Proof. repeat split; cbn; lia. Qed.

(** ** C08: false when the layer has a fused activation, for grouped transposed convolutions
    and for fully connected layers on operands with more than two axes. *)
Theorem C08_fuse_bn_partial :
  forall l x w b bn_act p,
    fold_domain l x w -> bn_ok (layer_channels l w) p -> bias_ok (layer_channels l w) b ->
    exists w' b' act',
      fuse_conv_fc_bn l w b ANone bn_act p = Some (Some (w', b', act')) /\
      tshape w' = tshape w /\ length b' = layer_channels l w /\
      teq (run_layer l act' x w' (bias_fn (Some b'))) (run_bn p bn_act (run_layer l ANone x w (bias_fn b))).
Proof. exact fuse_conv_bn_correct. Qed.
Print Assumptions C08_fuse_bn_partial.

Theorem C08_fuse_bn_relu_refuted :
  exists l x w b layer_act bn_act p w' b' act',
    fold_domain l x w /\ bn_ok (layer_channels l w) p /\ bias_ok (layer_channels l w) b /\
    fuse_conv_fc_bn l w b layer_act bn_act p = Some (Some (w', b', act')) /\
    ~ teq (run_layer l act' x w' (bias_fn (Some b'))) (run_bn p bn_act (run_layer l layer_act x w (bias_fn b))).
Proof. exact fuse_conv_bn_relu_refuted. Qed.
Print Assumptions C08_fuse_bn_relu_refuted.

Theorem C08_fuse_bn_group_deconv_refuted :
  exists a os x w p w' b' act',
    ca_groups a = 2%nat /\ bn_ok (layer_channels (LDeconv a os) w) p /\
    fuse_conv_fc_bn (LDeconv a os) w None ANone ANone p = Some (Some (w', b', act')) /\
    tshape w' <> tshape w /\
    ~ teq (run_layer (LDeconv a os) act' x w' (bias_fn (Some b')))
          (run_bn p ANone (run_layer (LDeconv a os) ANone x w (bias_fn None))).
Proof. exact fuse_deconv_group_refuted. Qed.
Print Assumptions C08_fuse_bn_group_deconv_refuted.

Theorem C08_fuse_bn_fc_3d_refuted :
  exists x w p w' b' act',
    tshape x = [1; 2; 2]%nat /\ tshape w = [2; 2]%nat /\
    bn_ok (nth 1 (tshape (run_layer LFc ANone x w (bias_fn None))) 0%nat) p /\
    fuse_conv_fc_bn LFc w None ANone ANone p = Some (Some (w', b', act')) /\
    ~ teq (run_layer LFc act' x w' (bias_fn (Some b'))) (run_bn p ANone (run_layer LFc ANone x w (bias_fn None))).
Proof. exact fuse_fc_3d_refuted. Qed.
Print Assumptions C08_fuse_bn_fc_3d_refuted.

Theorem C08_fuse_bn_fc_3d_raises_refuted :
  exists x w p,
    bn_ok (nth 1 (tshape (run_layer LFc ANone x w (bias_fn None))) 0%nat) p /\
    fuse_conv_fc_bn LFc w None ANone ANone p = None.
Proof. exact fuse_fc_3d_raises. Qed.
Print Assumptions C08_fuse_bn_fc_3d_raises_refuted.

(** a grouped convolution with a one-element bias, two channels *)
Example C08_example :
  let a := mkCA [1%nat; 1%nat] [1%nat; 1%nat] [1%nat; 0%nat] [1%nat; 0%nat] 2 in
  let w := mkT [2; 1; 3; 1]%nat (fun idx => INR (nth 0 idx 0%nat + nth 2 idx 0%nat)) in
  let x := mkT [1; 2; 3; 3]%nat (fun idx => INR (nth 2 idx 0%nat)) in
  let p := mkBn (1 / 2) [2; 3] [1; -1] [4; 5] [1; 2] in
  fold_domain (LConv a) x w /\ bn_ok (layer_channels (LConv a) w) p /\ bias_ok (layer_channels (LConv a) w) (Some [7]).
Proof. repeat split; cbn; auto; try lia. repeat constructor; cbn; lra. Qed.

(** ** C09: false with zero padding, and for one output channel the bias gets the wrong length. *)
Theorem C09_fuse_bn_into_next_conv_partial :
  forall a x w b bn_act p w' b' quant,
    conv_ok a x w -> bn_ok (nth 1 (tshape x) 0%nat) p ->
    (match b with None => True | Some l => length l = nth 0 (tshape w) 0%nat end) ->
    no_pad (skipn 2 (tshape x)) (ca_stride a) (ca_dil a) (ca_pad a) (ca_pad_end a) (skipn 2 (tshape w)) ->
    fuse_bn_conv quant (ca_groups a) w b bn_act p = Some (Some (w', b')) ->
    tshape w' = tshape w /\
    ((b = None \/ nth 0 (tshape w) 0 <> 1 \/ nth 1 (tshape x) 0 = 1)%nat -> length b' = nth 0 (tshape w) 0%nat) /\
    teq (conv a x w' (fun o => nth o b' 0)) (conv a (run_bn p bn_act x) w (bias_fn b)).
Proof. exact rev_fold_ok. Qed.
Print Assumptions C09_fuse_bn_into_next_conv_partial.

Theorem C09_padding_refuted :
  exists a x w p w' b',
    conv_ok a x w /\ bn_ok (nth 1 (tshape x) 0%nat) p /\
    fuse_bn_conv false (ca_groups a) w None ANone p = Some (Some (w', b')) /\
    ~ teq (conv a x w' (bias_fn (Some b'))) (conv a (run_bn p ANone x) w (bias_fn None)).
Proof. exact rev_fold_padding_refuted. Qed.
Print Assumptions C09_padding_refuted.

Theorem C09_bias_length_refuted :
  exists a x w l p w' b',
    conv_ok a x w /\ bn_ok (nth 1 (tshape x) 0%nat) p /\ length l = nth 0 (tshape w) 0%nat /\
    no_pad (skipn 2 (tshape x)) (ca_stride a) (ca_dil a) (ca_pad a) (ca_pad_end a) (skipn 2 (tshape w)) /\
    fuse_bn_conv false (ca_groups a) w (Some l) ANone p = Some (Some (w', b')) /\
    length b' <> nth 0 (tshape w) 0%nat.
Proof. exact rev_fold_bias_refuted. Qed.
Print Assumptions C09_bias_length_refuted.

Theorem C09_multiplier_raises_refuted :
  exists a x w p,
    conv_ok a x w /\ bn_ok (nth 1 (tshape x) 0%nat) p /\ fuse_bn_conv false (ca_groups a) w None ANone p = None.
Proof. exact rev_fold_multiplier_raises. Qed.
Print Assumptions C09_multiplier_raises_refuted.

Example C09_example :
  let a := mkCA [2%nat] [1%nat] [0%nat] [0%nat] 1 in
  let x := mkT [1; 2; 5]%nat (fun idx => INR (nth 2 idx 0%nat)) in
  let w := mkT [3; 2; 2]%nat (fun idx => INR (nth 0 idx 0%nat + nth 1 idx 0%nat)) in
  let p := mkBn (1 / 2) [2; 3] [1; -1] [4; 5] [1; 2] in
  conv_ok a x w /\ bn_ok (nth 1 (tshape x) 0%nat) p /\
  no_pad (skipn 2 (tshape x)) (ca_stride a) (ca_dil a) (ca_pad a) (ca_pad_end a) (skipn 2 (tshape w)) /\
  (exists w' b', fuse_bn_conv false (ca_groups a) w (Some [1; 2; 3]) ANone p = Some (Some (w', b'))).
Proof.
  split; [|split; [|split]].
  - repeat split; cbn; lia.
  - repeat split; cbn; auto. repeat constructor; cbn; lra.
  - repeat split; cbn; lia.
  - eexists. eexists. reflexivity.
Qed.

(** ** C10: false when the root is the numerator, and when the ones broadcast the root. *)
Theorem C10_rsqrt_partial :
  forall (ones : bool) act n x,
    (forall idx, valid (tshape x) idx -> 0 < tget x idx) ->
    (ones = true -> (forall idx, valid (tshape n) idx -> tget n idx = 1) /\ bshape (tshape n) (tshape x) = Some (tshape x)) ->
    oteq (after_rsqrt (fuse_reciprocal_sqrt ones act) act n x) (div_sqrt act n x).
Proof. exact rsqrt_correct. Qed.
Print Assumptions C10_rsqrt_partial.

Theorem C10_numerator_refuted :
  exists act x d, (forall idx, 0 < tget x idx) /\ (forall idx, tget d idx <> 0) /\
    fuse_reciprocal_sqrt false act = RMul /\
    ~ oteq (act_out act (binop Rmult (tmap rsqrt x) d)) (act_out act (binop Rdiv (tmap sqrt x) d)).
Proof. exact rsqrt_numerator_refuted. Qed.
Print Assumptions C10_numerator_refuted.

Theorem C10_broadcast_refuted :
  exists n x, (forall idx, 0 < tget x idx) /\ (forall idx, tget n idx = 1) /\
    bshape (tshape n) (tshape x) <> None /\
    ~ oteq (after_rsqrt (fuse_reciprocal_sqrt true ANone) ANone n x) (div_sqrt ANone n x).
Proof. exact rsqrt_broadcast_refuted. Qed.
Print Assumptions C10_broadcast_refuted.

Example C10_example :
  let x := mkT [2; 3]%nat (fun idx => 1 + INR (nth 1 idx 0%nat)) in
  let n := mkT [1]%nat (fun _ => 1) in
  (forall idx, valid (tshape x) idx -> 0 < tget x idx) /\
  bshape (tshape n) (tshape x) = Some (tshape x) /\
  fuse_reciprocal_sqrt true ANone = RDropDiv /\ fuse_reciprocal_sqrt true ARelu = RMul.
Proof. repeat split. intros idx _. cbn. pose proof (pos_INR (nth 1 idx 0%nat)). lra. Qed.

(** ** C11 *)
Theorem C11_remove_tile :
  forall (A B C : Type) (f : A -> B -> C) (o : tensor A) (t : tensor B) (m : list nat) z,
    length m = length (tshape t) -> binop f o (tile m t) = Some z ->
    remove_tile (tshape o) (tshape t) (tshape z) = true ->
    exists z', binop f o t = Some z' /\ teq z' z.
Proof. exact @remove_tile_correct. Qed.
Print Assumptions C11_remove_tile.

Theorem C11_remove_tile_left :
  forall (A B C : Type) (f : A -> B -> C) (o : tensor B) (t : tensor A) (m : list nat) z,
    length m = length (tshape t) -> binop f (tile m t) o = Some z ->
    remove_tile (tshape o) (tshape t) (tshape z) = true ->
    exists z', binop f t o = Some z' /\ teq z' z.
Proof. exact @remove_tile_correct_left. Qed.
Print Assumptions C11_remove_tile_left.

Example C11_example :
  let t := mkT [1; 3]%nat (fun idx => nth 1 idx 0%nat) in
  let o := mkT [2; 4; 3]%nat (fun idx => nth 0 idx 0%nat) in
  option_map tshape (binop Nat.add o (tile [4; 1]%nat t)) = Some [2; 4; 3]%nat /\
  remove_tile (tshape o) (tshape t) [2; 4; 3]%nat = true /\
  remove_tile [2; 1; 3]%nat (tshape t) [2; 4; 3]%nat = false.
Proof. repeat split. Qed.

(** ** C12: false for grouped convolutions, for a convolution without bias (the pass raises)
    and for a gather in front that selects fewer channels. *)
Theorem C12_conv_gather_partial :
  forall act (od st dil pad : list nat) x w b ix N H W C kh kw cout,
    tshape x = [N; H; W; C] -> tshape w = [cout; kh; kw; C] -> (0 < C)%nat -> (0 < cout)%nat -> length od = 2%nat ->
    length b = cout -> Forall (fun i => i < cout)%nat ix -> conv2d_gather_edge 3 w ix = true ->
    exists w' b', fuse_conv2d_gather 3 w (Some b) ix = Some (Some (w', b')) /\ tshape w' = tshape w /\ length b' = cout /\
      teq (conv2d act od st dil pad x w' (fun o => nth o b' 0))
          (gather 3 ix (conv2d act od st dil pad x w (fun o => nth o b 0))).
Proof. exact conv_gather_correct. Qed.
Print Assumptions C12_conv_gather_partial.

Theorem C12_gather_conv_partial :
  forall act (od st dil pad : list nat) x w b ix N H W C kh kw cout,
    tshape x = [N; H; W; C] -> tshape w = [cout; kh; kw; C] -> (0 < C)%nat -> (0 < cout)%nat ->
    length od = 2%nat -> length st = 2%nat -> length dil = 2%nat -> length pad = 2%nat -> is_perm C ix ->
    exists w', fuse_gather_conv2d 3 w ix = Some w' /\ tshape w' = tshape w /\
      teq (conv2d act od st dil pad x w' b) (conv2d act od st dil pad (gather 3 ix x) w b).
Proof. exact gather_conv_correct. Qed.
Print Assumptions C12_gather_conv_partial.

Theorem C12_group_refuted :
  exists x w b ix w' b',
    tshape x = [1; 1; 1; 2]%nat /\ tshape w = [2; 1; 1; 1]%nat /\ is_perm 2 ix /\
    fuse_conv2d_gather 3 w (Some b) ix = Some (Some (w', b')) /\
    ~ teq (conv2d ANone [1; 1]%nat [1; 1]%nat [1; 1]%nat [0; 0]%nat x w' (fun o => nth o b' 0))
          (gather 3 ix (conv2d ANone [1; 1]%nat [1; 1]%nat [1; 1]%nat [0; 0]%nat x w (fun o => nth o b 0))).
Proof. exact conv_gather_group_refuted. Qed.
Print Assumptions C12_group_refuted.

Theorem C12_nobias_raises_refuted :
  exists w ix, conv2d_gather_edge 3 w ix = true /\ fuse_conv2d_gather 3 w None ix = None.
Proof. exact conv_gather_nobias_raises. Qed.
Print Assumptions C12_nobias_raises_refuted.

Theorem C12_select_refuted :
  exists x w ix w',
    tshape x = [1; 1; 1; 4]%nat /\ tshape w = [2; 1; 1; 2]%nat /\ NoDup ix /\ Forall (fun i => i < 4)%nat ix /\
    fuse_gather_conv2d 3 w ix = Some w' /\
    ~ teq (conv2d ANone [1; 1]%nat [1; 1]%nat [1; 1]%nat [0; 0]%nat x w' (fun _ => 0))
          (conv2d ANone [1; 1]%nat [1; 1]%nat [1; 1]%nat [0; 0]%nat (gather 3 ix x) w (fun _ => 0)).
Proof. exact gather_conv_select_refuted. Qed.
Print Assumptions C12_select_refuted.

Example C12_example :
  let w := mkT [3; 2; 2; 3]%nat (fun idx => INR (nth 0 idx 0%nat * nth 3 idx 0%nat)) in
  conv2d_gather_edge 3 w [2; 2; 0]%nat = true /\ Forall (fun i => i < 3)%nat [2; 2; 0]%nat /\
  is_perm 3 [2; 0; 1]%nat /\ argsort [2; 0; 1]%nat = [1; 2; 0]%nat.
Proof.
  repeat split.
  - repeat constructor.
  - apply perm_trans with [0; 2; 1]%nat; [apply perm_swap|apply perm_skip; apply perm_swap].
Qed.

(** ** C16: false when the FULLY_CONNECTED operator has a fused activation. *)
Theorem C16_matmul_add_partial :
  forall kind add_act x w bias bias_zero,
    bmm_add_edge kind (length (tshape x)) (tshape w) (tshape bias) bias_zero = true ->
    exists y, binop Rplus (run_mm kind ANone x w) bias = Some y /\
      let '(w', b', act') := fuse_bmm_add kind w bias add_act in
      teq (tmap (act_fn act') (fc x w' b')) (tmap (act_fn add_act) y).
Proof. exact bmm_add_correct. Qed.
Print Assumptions C16_matmul_add_partial.

Theorem C16_activation_refuted :
  exists act x w bias y,
    bmm_add_edge MFc (length (tshape x)) (tshape w) (tshape bias) true = true /\
    binop Rplus (run_mm MFc act x w) bias = Some y /\
    let '(w', b', act') := fuse_bmm_add MFc w bias ANone in
    ~ teq (tmap (act_fn act') (fc x w' b')) (tmap (act_fn ANone) y).
Proof. exact bmm_add_relu_refuted. Qed.
Print Assumptions C16_activation_refuted.

Example C16_example :
  bmm_add_edge MBmm 3 [4; 5]%nat [5]%nat false = true /\ bmm_add_edge MFc 2 [5; 4]%nat [5]%nat true = true /\
  bmm_add_edge MBmm 3 [4; 5]%nat [1]%nat false = false /\ bmm_add_edge MFc 2 [5; 4]%nat [5]%nat false = false.
Proof. repeat split. Qed.

(** ** C59 *)
Theorem C59_bn_lowering :
  forall p act x N C r,
    tshape x = N :: C :: r -> bn_ok C p -> exists y, bn_transform p act x = Some y /\ teq y (run_bn p act x).
Proof. exact bn_transform_correct. Qed.
Print Assumptions C59_bn_lowering.

Example C59_example :
  let p := mkBn (1 / 2) [2; 3] [1; -1] [4; 5] [1; 2] in
  bn_ok 2 p /\ option_map tshape (bn_transform p ARelu (mkT [1; 2; 5]%nat (fun _ => 1))) = Some [1; 2; 5]%nat.
Proof. split; [|reflexivity]. repeat split; cbn; auto. repeat constructor; cbn; lra. Qed.

(** ** C60 *)
Theorem C60_same_slicing :
  forall wt b (ks stride dil vshape start : list nat) x N dims C,
    let oshape := N :: dims ++ [C] in
    length vshape = length oshape -> length start = length oshape -> axes_ok dims ks stride dil ->
    fuse_same_padding_slicing vshape start oshape ks stride dil = true ->
    teq (tconv_same wt b ks stride dil oshape x) (cut start oshape (tconv_valid wt b ks stride dil vshape x)).
Proof. exact same_slicing_correct. Qed.
Print Assumptions C60_same_slicing.

(** 2x2 operand, kernel 4, stride 2: full output 6x6, one row cut on every side *)
Example C60_example :
  axes_ok [4; 4]%nat [4; 4]%nat [2; 2]%nat [1; 1]%nat /\
  fuse_same_padding_slicing [1; 6; 6; 3]%nat [0; 1; 1; 0]%nat [1; 4; 4; 3]%nat [4; 4]%nat [2; 2]%nat [1; 1]%nat = true /\
  fuse_same_padding_slicing [1; 6; 6; 3]%nat [0; 0; 1; 0]%nat [1; 4; 4; 3]%nat [4; 4]%nat [2; 2]%nat [1; 1]%nat = false.
Proof. repeat split; cbn; lia. Qed.
