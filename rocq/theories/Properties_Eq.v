(** Properties of cross-layer equalization, high-bias absorption and batch-norm folding for
    quantization (C43-C46). *)
From Coq Require Import List Arith ZArith Bool Reals Lia Lra.
From Verif Require Import Tensor ConvSpec QuantSpec FuseModel FuseProofs QuantModel EqModel EqProofs EqMiscProofs.
Import ListNotations.
Local Open Scope R_scope.

(** ** C43: any number of equalization steps at any positions of a chain of convolutions (any
    groups, strides, dilations, paddings) or of linear layers; activations between the layers
    positively homogeneous per channel (ReLU, LeakyReLU, PReLU, identity). *)
Theorem C43_function_kept : forall thr js net net' x,
  chain_ok net -> net <> [] -> eq_steps thr js net = Some net' -> teq (run_net net' x) (run_net net x).
Proof. exact equalize_keeps_function. Qed.
Print Assumptions C43_function_kept.
(** the step is defined when every filter of the first layer has a non-zero weight *)
Theorem C43_defined : forall w1 b1 w2 G thr,
  tshape w1 <> [] -> (0 < G)%nat -> (2 <= length (tshape w2))%nat -> (nth 0 (tshape w2) 0 mod G = 0)%nat ->
  (0 < prod (tshape w2))%nat -> nth 0 (tshape w1) 0%nat = (nth 1 (tshape w2) 0 * G)%nat ->
  (forall c, (c < nth 0 (tshape w1) 0)%nat -> exists k, valid (tshape w1) (c :: k) /\ tget w1 (c :: k) <> 0) ->
  weight_equal w1 b1 w2 G thr <> None.
Proof. exact weight_equal_defined. Qed.
Print Assumptions C43_defined.
(** two filters of weights 4 and 1 in front of a convolution over both channels: scales 2 and 1 *)
Example C43_case : let net := [cl_l1; mkCL (KConv (unit_attr 1)) (kt [1; 2; 1]%nat 1) (Some [3]) id_act] in
  chain_ok net /\ exists net', eq_steps (1 / 2) [0%nat] net = Some net' /\
    map (fun l => tget (cl_w l) [0; 0; 0]%nat) net' = [4 / 2; 1 * 2].
Proof.
  cbv zeta. split.
  - cbn [chain_ok]. unfold layer_wf, in_channels. cbn. repeat split; try lia. exact relu_homog.
  - assert (E : equalize (cl_w cl_l1) (kt [1; 2; 1]%nat 1) 1 (1 / 2) = Some [2; 1]).
    { unfold cl_l1, cl_w1. eval_equalize. rewrite scale_4_1, scale_1_1. reflexivity. }
    cbn [eq_steps eq_at cl_w cl_groups cl_kind unit_attr ca_groups]. unfold weight_equal. rewrite E. cbn [obind].
    eexists. split; [reflexivity|]. reflexivity.
Qed.
(** not for every weight: a filter of zeros in front of weights above the threshold gives nan *)
Theorem C43_zero_filter_refuted : exists w1 b1 w2 thr,
  nth 0 (tshape w1) 0%nat = nth 1 (tshape w2) 0%nat /\ (0 < prod (tshape w1))%nat /\ (0 < prod (tshape w2))%nat /\
  weight_equal w1 b1 w2 1 thr = None.
Proof. exact zero_filter_witness. Qed.
Print Assumptions C43_zero_filter_refuted.
(** a convolution directly followed by a linear layer is equalized too, though the linear layer
    works on the last axis: the output changes from 1 to 2 *)
Theorem C43_conv_linear_refuted : exists w1 b1 w2,
  weight_equal (cl_w cl_l1) (cl_b cl_l1) (cl_w cl_l2) (cl_groups cl_l2) (1 / 2) = Some (w1, b1, w2) /\
  tget (run_net [mkCL (cl_kind cl_l1) w1 b1 (cl_act cl_l1); mkCL (cl_kind cl_l2) w2 (cl_b cl_l2) (cl_act cl_l2)] cl_x) [0; 1; 0]%nat = 2 /\
  tget (run_net [cl_l1; cl_l2] cl_x) [0; 1; 0]%nat = 1.
Proof. exact conv_linear_changes. Qed.
Print Assumptions C43_conv_linear_refuted.

(** ** C44: one group, or depthwise; ranges within a factor of 10^12 of each other (beyond, the
    scale is limited). *)
Theorem C44_balanced_partial : forall w1 b1 w2 G thr w1' b1' w2' c r1 r2,
  (0 < G)%nat -> (nth 0 (tshape w2) 0 mod G = 0)%nat -> tshape w1 <> [] -> G = 1%nat \/ nth 1 (tshape w2) 0%nat = 1%nat ->
  weight_equal w1 b1 w2 G thr = Some (w1', b1', w2') -> (c < nth 0 (tshape w1) 0)%nat ->
  out_range w1 c r1 -> in_range G w2 c r2 ->
  (0 < r1 -> 0 < r2 -> thr <= r1 + r2 -> r1 <= 1000000000000 * r2 -> r2 <= 1000000000000 * r1 ->
    out_range w1' c (sqrt (r1 * r2)) /\ in_range G w2' c (sqrt (r1 * r2))) /\
  (r1 + r2 < thr -> out_range w1' c r1 /\ in_range G w2' c r2).
Proof. exact equalize_balances. Qed.
Print Assumptions C44_balanced_partial.
(** for every number of groups the product of the two ranges of a channel is kept *)
Theorem C44_scaled : forall w1 b1 w2 G thr w1' b1' w2' c r1 r2,
  (0 < G)%nat -> (nth 0 (tshape w2) 0 mod G = 0)%nat -> tshape w1 <> [] ->
  weight_equal w1 b1 w2 G thr = Some (w1', b1', w2') -> (c < nth 0 (tshape w1) 0)%nat ->
  out_range w1 c r1 -> in_range G w2 c r2 ->
  exists s, 0 < s /\ out_range w1' c (r1 / s) /\ in_range G w2' c (r2 * s) /\
    (G = 1%nat \/ nth 1 (tshape w2) 0%nat = 1%nat -> eq_scale thr r1 r2 = Some s).
Proof. exact weight_equal_ranges. Qed.
Print Assumptions C44_scaled.
(** ranges 4 and 1 of the first channel of the pair of C43_case *)
Example C44_case : out_range cl_w1 0 4 /\ in_range 1 (kt [1; 2; 1]%nat 1) 0 1.
Proof.
  split; split.
  - exists [0; 0; 0]%nat. split; [split; [repeat constructor|reflexivity]|]. cbn. apply Rabs_pos_eq. lra.
  - intros k _. cbn [cl_w1 tget]. destruct k as [|[|] ?]; rewrite Rabs_pos_eq; lra.
  - exists [0; 0; 0]%nat. split; [split; [repeat constructor|reflexivity]|]. cbn [kt tget]. apply Rabs_R1.
  - intros k _. cbn [kt tget]. rewrite Rabs_R1. lra.
Qed.
(** two groups of two channels: ranges 1 and 4 of channel 1 stay different *)
Theorem C44_grouped_refuted : exists w1 b1 w2,
  weight_equal (kt [4; 1; 1]%nat 1) None g_w2 2 (1 / 2) = Some (w1, b1, w2) /\
  out_range (kt [4; 1; 1]%nat 1) 1 1 /\ in_range 2 g_w2 1 4 /\
  forall r, ~ (out_range w1 1 r /\ in_range 2 w2 1 r).
Proof. exact grouped_unbalanced. Qed.
Print Assumptions C44_grouped_refuted.

(** ** C45: without padding in the second convolution. *)
Theorem C45_absorb_partial : forall a1 a2 w1 b1 act1 w2 b2 act2 gamma beta b1' b2' x,
  let l1 := mkCL (KConv a1) w1 (Some b1) act1 in
  let l2 := mkCL (KConv a2) w2 (Some b2) act2 in
  let C := nth 0 (tshape w1) 0%nat in
  length gamma = C -> length beta = C -> length b1 = C -> length b2 = nth 0 (tshape w2) 0%nat ->
  conv_ok a2 (run1 l1 x) w2 ->
  no_pad (skipn 2 (tshape (run1 l1 x))) (ca_stride a2) (ca_dil a2) (ca_pad a2) (ca_pad_end a2) (skipn 2 (tshape w2)) ->
  (forall c y, 0 <= y -> act1 c y = y) ->
  (forall idx, valid (tshape (conv a1 x w1 (lbias (Some b1)))) idx ->
     absorbed gamma beta (nth 1 idx 0%nat) <= tget (conv a1 x w1 (lbias (Some b1))) idx) ->
  bias_absorb gamma beta b1 w2 b2 = Some (b1', b2') ->
  teq (run1 (mkCL (KConv a2) w2 (Some b2') act2) (run1 (mkCL (KConv a1) w1 (Some b1') act1) x)) (run1 l2 (run1 l1 x)).
Proof. exact bias_absorb_keeps. Qed.
Print Assumptions C45_absorb_partial.
(** the step is defined for dense and depthwise second layers *)
Theorem C45_defined : forall gamma beta b1 w2 b2 C,
  length gamma = C -> length beta = C -> length b1 = C -> length b2 = nth 0 (tshape w2) 0%nat ->
  nth 1 (tshape w2) 0%nat = C \/ (nth 1 (tshape w2) 0%nat = 1%nat /\ nth 0 (tshape w2) 0%nat = C) ->
  bias_absorb gamma beta b1 w2 b2 <> None.
Proof. exact bias_absorb_defined. Qed.
Print Assumptions C45_defined.
(** and raises for every other number of groups *)
Theorem C45_grouped_raises : forall gamma beta b1 w2 b2 G C,
  length gamma = C -> length beta = C -> C = (nth 1 (tshape w2) 0 * G)%nat -> (1 < G)%nat -> (1 < nth 1 (tshape w2) 0)%nat ->
  bias_absorb gamma beta b1 w2 b2 = None.
Proof. exact bias_absorb_grouped. Qed.
Print Assumptions C45_grouped_raises.
(** the assumption holds for the value 20 and the constant 10 (gamma = 1, beta = 13); in front of
    a padded convolution the border changes *)
Theorem C45_padding_refuted :
  let w := kt [1; 1; 1; 1]%nat 1 in
  let x := kt [1; 1; 1; 1]%nat 20 in
  (forall idx, valid (tshape (conv (unit_attr 2) x w (lbias (Some [0])))) idx ->
     absorbed [1] [13] (nth 1 idx 0%nat) <= tget (conv (unit_attr 2) x w (lbias (Some [0]))) idx) /\
  exists b1 b2, bias_absorb [1] [13] [0] w [0] = Some (b1, b2) /\
  ~ teq (run1 (mkCL (KConv pad1_attr) w (Some b2) id_act) (run1 (mkCL (KConv (unit_attr 2)) w (Some b1) relu_act) x))
        (run1 (mkCL (KConv pad1_attr) w (Some [0]) id_act) (run1 (mkCL (KConv (unit_attr 2)) w (Some [0]) relu_act) x)).
Proof. exact absorb_padding_changes. Qed.
Print Assumptions C45_padding_refuted.
Example C45_case : let w := kt [1; 1; 1; 1]%nat 1 in let x := kt [1; 1; 1; 1]%nat 20 in
  let y := run1 (mkCL (KConv (unit_attr 2)) w (Some [0]) relu_act) x in
  conv_ok (unit_attr 2) y w /\ no_pad (skipn 2 (tshape y)) [1; 1]%nat [1; 1]%nat [0; 0]%nat [0; 0]%nat (skipn 2 (tshape w)) /\
  absorbed [1] [13] 0 = 10.
Proof.
  cbv zeta. split; [unfold conv_ok; cbn; lia|]. split; [cbn; lia|].
  unfold absorbed. cbn [nth]. rewrite Rabs_R1, Rmax_right by lra. lra.
Qed.
(** run after the equalization of the same pair, as the tool does, it changes the output from 11
    to 20 although the pre-activation 11 is above the constant 10 *)
Theorem C45_after_equalization_refuted :
  let a := unit_attr 2 in
  let w1 := kt [1; 1; 1; 1]%nat 4 in
  let w2 := kt [1; 1; 1; 1]%nat 1 in
  let x := kt [1; 1; 1; 1]%nat (- (1 / 2)) in
  tget (conv a x w1 (lbias (Some [13]))) [0; 0; 0; 0]%nat = 11 /\ absorbed [1] [13] 0 = 10 /\
  exists w1' b1' w2' b2', cle_hba (1 / 2) [1] [13] w1 [13] w2 [0] 1 = Some (w1', b1', w2', b2') /\
  tget (run1 (mkCL (KConv a) w2 (Some [0]) id_act) (run1 (mkCL (KConv a) w1 (Some [13]) relu_act) x)) [0; 0; 0; 0]%nat = 11 /\
  tget (run1 (mkCL (KConv a) w2' (Some b2') id_act) (run1 (mkCL (KConv a) w1' (Some b1') relu_act) x)) [0; 0; 0; 0]%nat = 20.
Proof. exact absorb_after_equalization_changes. Qed.
Print Assumptions C45_after_equalization_refuted.

(** ** C46: convolution (any groups) or transposed convolution (one group) followed by a batch
    norm with or without weight and bias. *)
Theorem C46_conv_bn_partial : forall l x w b rm rv eps bw bb, l <> LFc -> fold_domain l x w ->
  let p := bn_of rm rv eps bw bb in
  bn_ok (layer_channels l w) p -> match b with Some v => length v = layer_channels l w | None => True end ->
  exists w' b', fuse_conv_bn_weights w b rm rv eps bw bb (is_deconv l) = Some (w', b') /\
    tshape w' = tshape w /\ length b' = layer_channels l w /\
    teq (run_layer l ANone x w' (bias_fn (Some b'))) (run_bn p ANone (run_layer l ANone x w (bias_fn b))).
Proof. exact conv_bn_fold_correct. Qed.
Print Assumptions C46_conv_bn_partial.
(** a batch norm followed by a convolution: one group, no padding *)
Theorem C46_bn_conv_partial : forall a x w b rm rv eps bw bb,
  let p := bn_of rm rv eps bw bb in
  conv_ok a x w -> ca_groups a = 1%nat -> bn_ok (nth 1 (tshape x) 0%nat) p ->
  match b with Some v => length v = nth 0 (tshape w) 0%nat | None => True end ->
  no_pad (skipn 2 (tshape x)) (ca_stride a) (ca_dil a) (ca_pad a) (ca_pad_end a) (skipn 2 (tshape w)) ->
  exists w' b', fuse_bn_conv_weights w b rm rv eps bw bb = Some (w', b') /\
    tshape w' = tshape w /\ length b' = nth 0 (tshape w) 0%nat /\
    teq (conv a x w' (bias_fn (Some b'))) (conv a (run_bn p ANone x) w (bias_fn b)).
Proof. exact bn_conv_fold_correct. Qed.
Print Assumptions C46_bn_conv_partial.
(** two channels, two filters; mean 1, 2, variance 4, 1, no weight *)
Example C46_case : let x := kt [1; 2; 3; 3]%nat 1 in let w := kt [2; 2; 2; 2]%nat 1 in
  let a := unit_attr 2 in
  fold_domain (LConv a) x w /\ conv_ok a x w /\ bn_ok 2 (bn_of [1; 2] [4; 1] (1 / 1000) None (Some [3; 5])) /\
  no_pad (skipn 2 (tshape x)) (ca_stride a) (ca_dil a) (ca_pad a) (ca_pad_end a) (skipn 2 (tshape w)).
Proof.
  cbv zeta. split; [cbn; lia|]. split; [unfold conv_ok; cbn; lia|]. split; [|cbn; lia].
  unfold bn_ok. cbn. repeat split; try lia. apply Forall_cons; [lra|]. apply Forall_cons; [lra|apply Forall_nil].
Qed.
(** a transposed convolution with groups never keeps its weight shape; with more than one output
    channel per group it raises *)
Theorem C46_deconv_groups_refuted :
  (forall w b rm rv eps bw bb w' b' G,
    (1 < G)%nat -> (0 < nth 1 (tshape w) 0)%nat -> (2 <= length (tshape w))%nat ->
    bn_ok (nth 1 (tshape w) 0 * G)%nat (bn_of rm rv eps bw bb) ->
    fuse_conv_bn_weights w b rm rv eps bw bb true = Some (w', b') -> nth 1 (tshape w) 0%nat = 1%nat /\ tshape w' <> tshape w) /\
  exists w' b', fuse_conv_bn_weights (kt [2; 1; 1; 1]%nat 1) None [0; 0] [1; 1] 0 None None true = Some (w', b') /\ tshape w' = [2; 2; 1; 1]%nat.
Proof. exact (conj deconv_groups_wrong deconv_groups_witness). Qed.
Print Assumptions C46_deconv_groups_refuted.
(** a depthwise convolution behind a batch norm of several channels never keeps its weight shape *)
Theorem C46_bn_depthwise_refuted :
  (forall w b rm rv eps bw bb w' b',
    nth 1 (tshape w) 0%nat = 1%nat -> (1 < length rm)%nat -> (2 <= length (tshape w))%nat ->
    bn_ok (length rm) (bn_of rm rv eps bw bb) ->
    fuse_bn_conv_weights w b rm rv eps bw bb = Some (w', b') ->
    tshape w' <> tshape w /\ nth 1 (tshape w') 0%nat = length rm) /\
  exists w' b', fuse_bn_conv_weights (kt [2; 1; 1; 1]%nat 1) None [0; 0] [1; 1] 0 None None = Some (w', b') /\ tshape w' = [2; 2; 1; 1]%nat.
Proof. exact (conj bn_dw_wrong bn_dw_witness). Qed.
Print Assumptions C46_bn_depthwise_refuted.
(** any other grouped convolution behind a batch norm raises *)
Theorem C46_bn_grouped_raises : forall w b rm rv eps bw bb G,
  length rm = (nth 1 (tshape w) 0 * G)%nat -> (1 < G)%nat -> (1 < nth 1 (tshape w) 0)%nat ->
  bn_ok (length rm) (bn_of rm rv eps bw bb) -> fuse_bn_conv_weights w b rm rv eps bw bb = None.
Proof. exact bn_grouped_raises. Qed.
Print Assumptions C46_bn_grouped_raises.
(** with padding the border changes (0 before, 5 after) *)
Theorem C46_bn_padding_refuted :
  let w := kt [1; 1; 1; 1]%nat 1 in
  let x := kt [1; 1; 1; 1]%nat 2 in
  exists w' b', fuse_bn_conv_weights w None [0] [1] 0 None (Some [5]) = Some (w', b') /\
    tget (conv pad1_attr x w' (bias_fn (Some b'))) [0; 0; 0; 0]%nat = 5 /\
    tget (conv pad1_attr (run_bn (bn_of [0] [1] 0 None (Some [5])) ANone x) w (bias_fn None)) [0; 0; 0; 0]%nat = 0.
Proof. exact bn_conv_padding_changes. Qed.
Print Assumptions C46_bn_padding_refuted.
