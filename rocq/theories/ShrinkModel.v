(** Model of masking and shrinking layers after pruning ([tinynn/graph/modifier.py]):
    the mask registered on a layer and the physical removal of channels.

    A layer has its weights as real tensors in torch layout.  [ri] / [ro] are the removed
    input / output channels ([in_remove_idx], [ot_remove_idx]).  Kept channels come in the order
    of [complementary_list] (PruneModel).  [None] stands for a python exception. *)
From Coq Require Import List Arith ZArith Bool Reals.
From Verif Require Import Tensor ConvSpec FuseModel QuantModel PruneModel.
Import ListNotations.
Local Open Scope R_scope.

Inductive pl :=
| PlConv (a : conv_attr) (w : tensor R) (b : option (list R))
| PlDeconv (a : conv_attr) (os : list nat) (w : tensor R) (b : option (list R))   (* [os]: spatial output size *)
| PlLinear (w : tensor R) (b : option (list R))
| PlBn (p : bn_params)
| PlPrelu (w : list R)
| PlChan (sh : list nat -> list nat) (f : list nat -> (list nat -> R) -> list nat -> R)
    (* any layer that works on each channel by itself: activation, pooling, padding, ... *)
| PlFlatten.

(** [conv.weight[keep]] / [conv.weight[:, keep]] are [gather]; [t[keep]] on a list *)
Definition lgather (keep : list nat) (l : list R) : list R := map (fun k => nth k l 0) keep.
(** multiplication with a mask that is zero where [p] holds *)
Definition tmask (p : list nat -> bool) (w : tensor R) : tensor R :=
  mkT (tshape w) (fun idx => if p idx then 0 else tget w idx).
Definition lmask (r : list nat) (l : list R) : list R :=
  map (fun c => if nmem c r then 0 else nth c l 0) (seq 0 (length l)).

(** [is_dw_conv] (modifier.py 149-154); in_channels is weight.shape[1] * groups *)
Definition is_dw_conv (a : conv_attr) (w : tensor R) : bool :=
  (nth 1 (tshape w) 0 * ca_groups a =? ca_groups a)%nat && (ca_groups a =? nth 0 (tshape w) 0)%nat.

(* ------------------------------------------------------------------ *)
(** * Masks *)

(** [ConvChannelModifier.register_mask] (2253-2299): depthwise layers are masked by [ri] alone;
    otherwise the columns of [ri] (in the group's own numbering) and the rows of [ro]. *)
Definition mask_conv (ri ro : list nat) (a : conv_attr) (w : tensor R) (b : option (list R)) : pl :=
  if is_dw_conv a w then
    PlConv a (tmask (fun idx => nmem (nth 0 idx 0%nat) ri) w) (option_map (lmask ri) b)
  else
    let num_g_out := (nth 0 (tshape w) 0 / ca_groups a)%nat in
    let weight_2 := nth 1 (tshape w) 0%nat in
    PlConv a (tmask (fun idx => nmem (nth 0 idx 0 / num_g_out * weight_2 + nth 1 idx 0)%nat ri
                                || nmem (nth 0 idx 0%nat) ro) w) (option_map (lmask ro) b).
(** the mask of every kind of layer: [TransConvChannelModifier.register_mask] (2439-2461),
    [LinearChannelModifier.register_mask] (1658-1674), [NormChannelModifier.register_mask] (1163-1177),
    [PReLUChannelModifier.register_mask] (1134-1146); other layers have no weights (704-707) *)
Definition mask_layer (ri ro : list nat) (l : pl) : pl :=
  match l with
  | PlConv a w b => mask_conv ri ro a w b
  | PlDeconv a os w b =>
      PlDeconv a os (tmask (fun idx => nmem (nth 0 idx 0%nat) ri || nmem (nth 1 idx 0%nat) ro) w) (option_map (lmask ro) b)
  | PlLinear w b =>
      PlLinear (tmask (fun idx => nmem (nth 1 idx 0%nat) ri || nmem (nth 0 idx 0%nat) ro) w) (option_map (lmask ro) b)
  | PlBn p => PlBn (mkBn (bn_eps p) (lmask ri (bn_w p)) (lmask ri (bn_b p)) (bn_mean p) (bn_var p))
  | PlPrelu w => PlPrelu (lmask ri w)
  | PlChan sh f => PlChan sh f
  | PlFlatten => PlFlatten
  end.

(* ------------------------------------------------------------------ *)
(** * Removing channels *)

(** input columns of a grouped convolution (2320-2342): group [i] drops the [i]-th slice of [ri]; the
    parts are concatenated along the rows, which needs equal widths *)
Definition group_keep (ri : list nat) (group width i : nat) : option (list nat) :=
  complementary_list width (map Z.to_nat (filter (Z.leb 0) (group_remove_slice ri group width i))).
Definition shrink_group_in (ri : list nat) (a : conv_attr) (w : tensor R) : option (tensor R) :=
  let group := ca_groups a in
  let num_g_out := (nth 0 (tshape w) 0 / group)%nat in
  let weight_2 := nth 1 (tshape w) 0%nat in
  if (weight_2 * group =? weight_2 * group - length ri)%nat then Some w
  else obind (oall (map (group_keep ri group weight_2) (seq 0 group))) (fun keeps =>
       let n := length (nth 0 keeps []) in
       if forallb (fun k => length k =? n)%nat keeps
       then Some (mkT (upd (tshape w) 1 n)
                      (fun idx => tget w (upd idx 1 (nth (nth 1 idx 0%nat) (nth (nth 0 idx 0 / num_g_out)%nat keeps []) 0%nat))))
       else None).
(** [ConvChannelModifier.modify_input] and [modify_output] (2301-2382); for a depthwise layer the second
    call gets the same list and finds nothing left to remove *)
Definition shrink_conv (ri ro : list nat) (a : conv_attr) (w : tensor R) (b : option (list R)) : option pl :=
  let cout := nth 0 (tshape w) 0%nat in
  if is_dw_conv a w then
    obind (complementary_list cout ri) (fun keep =>
    if (ca_groups a =? length keep)%nat then Some (PlConv a w b)
    else Some (PlConv (mkCA (ca_stride a) (ca_dil a) (ca_pad a) (ca_pad_end a) (length keep))
                      (gather 0 keep w) (option_map (lgather keep) b)))
  else
    obind (if (ca_groups a =? 1)%nat
           then obind (complementary_list (nth 1 (tshape w) 0%nat) ri) (fun keep =>
                Some (if (nth 1 (tshape w) 0 =? length keep)%nat then w else gather 1 keep w))
           else shrink_group_in ri a w) (fun w1 =>
    obind (complementary_list cout ro) (fun keep =>
    Some (if (cout =? length keep)%nat then PlConv a w1 b
          else PlConv a (gather 0 keep w1) (option_map (lgather keep) b)))).
(** [TransConvChannelModifier] (2463-2483), [LinearChannelModifier] (1676-1703), [NormChannelModifier]
    (1179-1257, without bias compensation), [PReLUChannelModifier] (1148-1155) *)
Definition shrink_layer (ri ro : list nat) (l : pl) : option pl :=
  match l with
  | PlConv a w b => shrink_conv ri ro a w b
  | PlDeconv a os w b =>
      obind (complementary_list (nth 0 (tshape w) 0%nat) ri) (fun ki =>
      let w1 := if (nth 0 (tshape w) 0 =? length ki)%nat then w else gather 0 ki w in
      obind (complementary_list (nth 1 (tshape w) 0%nat) ro) (fun ko =>
      Some (if (nth 1 (tshape w) 0 * ca_groups a =? length ko)%nat then PlDeconv a os w1 b
            else PlDeconv a os (gather 1 ko w1) (option_map (lgather ko) b))))
  | PlLinear w b =>
      obind (complementary_list (nth 1 (tshape w) 0%nat) ri) (fun ki =>
      let w1 := if (nth 1 (tshape w) 0 =? length ki)%nat then w else gather 1 ki w in
      obind (complementary_list (nth 0 (tshape w) 0%nat) ro) (fun ko =>
      Some (if (nth 0 (tshape w) 0 =? length ko)%nat then PlLinear w1 b
            else PlLinear (gather 0 ko w1) (option_map (lgather ko) b))))
  | PlBn p =>
      obind (complementary_list (length (bn_w p)) ri) (fun keep =>
      Some (if (length (bn_w p) =? length keep)%nat then PlBn p
            else PlBn (mkBn (bn_eps p) (lgather keep (bn_w p)) (lgather keep (bn_b p))
                            (lgather keep (bn_mean p)) (lgather keep (bn_var p)))))
  | PlPrelu w =>
      obind (complementary_list (length w) ri) (fun keep =>
      Some (if (length w =? length keep)%nat then PlPrelu w else PlPrelu (lgather keep w)))
  | PlChan sh f => Some (PlChan sh f)
  | PlFlatten => Some PlFlatten
  end.

(** a chain of layers with their removed input and output channels *)
Definition pnet := list (pl * (list nat * list nat)).
(** [apply_mask] on every modifier (709-717) *)
Fixpoint shrink_net (net : pnet) : option (list pl) :=
  match net with
  | [] => Some []
  | (l, (ri, ro)) :: r => obind (shrink_layer ri ro l) (fun l' => obind (shrink_net r) (fun r' => Some (l' :: r')))
  end.
(** [register_mask] on every modifier *)
Definition mask_net (net : pnet) : list pl := map (fun '(l, (ri, ro)) => mask_layer ri ro l) net.

(* ------------------------------------------------------------------ *)
(** * Compensation of a removed constant channel *)

(** The bias added to the convolution behind batch norm and activation
    ([NormChannelModifier.modify_input], 1219-1232): over the removed channels, the kernel sum of the
    channel times the activation of the batch-norm bias. *)
Definition compensation (act : R -> R) (p : bn_params) (w : tensor R) (ri : list nat) (o : nat) : R :=
  lsum (filter (fun i => nmem i ri) (seq 0 (nth 1 (tshape w) 0%nat)))
       (fun i => lsum (indices (skipn 2 (tshape w))) (fun k => tget w (o :: i :: k)) * act (nth i (bn_b p) 0)).
Definition compensate (act : R -> R) (p : bn_params) (ri : list nat) (a : conv_attr) (w : tensor R)
    (b : option (list R)) : option (list R) :=
  if (ca_groups a =? 1)%nat
  then Some (map (fun o => match b with None => 0 | Some b => nth o b 0 end + compensation act p w ri o)
                 (seq 0 (nth 0 (tshape w) 0%nat)))
  else b.
(** Removal in front of a convolution with compensation on: batch norm and convolution afterwards. *)
Definition shrink_bn_conv (act : R -> R) (p : bn_params) (ri : list nat) (a : conv_attr) (w : tensor R)
    (b : option (list R)) : option (pl * pl) :=
  obind (complementary_list (length (bn_w p)) ri) (fun keep =>
  let b' := if (length (bn_w p) =? length keep)%nat then b else compensate act p ri a w b in
  obind (shrink_layer ri ri (PlBn p)) (fun bn => obind (shrink_conv ri [] a w b') (fun cv => Some (bn, cv)))).

(** [NormChannelModifier.modify_input] on a one-dimensional layer norm (1241-1257): weight and bias are cut,
    the normalised axis shrinks with the operand.  Weight, bias after masking and after removal. *)
Definition ln_mask (ri : list nat) (g b : list R) : list R * list R := (lmask ri g, lmask ri b).
Definition ln_shrink (ri : list nat) (g b : list R) : option (list R * list R) :=
  obind (complementary_list (length g) ri) (fun keep => Some (lgather keep g, lgather keep b)).
