(** Properties of the removal of channels from layers: C39, C41. *)
From Coq Require Import List Arith ZArith Bool Reals Lra Lia.
From Verif Require Import Tensor ConvSpec FuseModel FuseProofs QuantModel QModModel QModProofs PruneModel OrderProofs ShrinkModel ShrinkProofs ShrinkMiscProofs.
Import ListNotations.
Local Open Scope R_scope.

(** ** C39: the shrunk chain computes the masked chain on the kept channels.
    [chain_ok]: the removed outputs of a layer are the removed inputs of the next, shapes fit, grouped layers lose
    the same number in every group, and in front of grouped layers and flattening the kept channels are stored in
    ascending order ([few_removed]).  [restrict r x] are the channels of [x] not in [r] in stored order.
    Partial: the unconditional statement is false, see the three refutations; branches (add, concat, split) and
    recurrent layers are not in the chain. *)
Theorem C39_chain_partial : forall net ri (x xs : tensor R), chain_ok net ri x -> teq xs (restrict ri x) ->
  exists ls, shrink_net net = Some ls /\
    teq (run_pls ls xs) (restrict (last_removed net ri) (run_pls (mask_net net) x)).
Proof. exact shrink_net_correct. Qed.
Print Assumptions C39_chain_partial.

Definition ex_pw (cout cin g : nat) : pl :=
  PlConv (mkCA [1%nat; 1%nat] [1%nat; 1%nat] [0%nat; 0%nat] [0%nat; 0%nat] g)
         (mkT [cout; cin; 1%nat; 1%nat] (fun idx => INR (nth 0 idx 0%nat) - 2 * INR (nth 1 idx 0%nat) + 1)) (Some (repeat 1 cout)).
Definition ex_net : pnet :=
  [(ex_pw 4 3 1, ([], [1%nat]));
   (PlBn (mkBn 1 [1; 2; 3; 4] [5; 6; 7; 8] [1; 1; 0; 0] [1; 2; 3; 4]), ([1%nat], [1%nat]));
   (PlChan (fun d => d) (fun d x pos => Rmax 0 (x pos)), ([1%nat], [1%nat]));
   (ex_pw 4 1 4, ([1%nat], [1%nat]));
   (PlPrelu [1; 2; 3; 4], ([1%nat], [1%nat]));
   (PlDeconv (mkCA [1%nat; 1%nat] [1%nat; 1%nat] [0%nat; 0%nat] [0%nat; 0%nat] 1) [2%nat; 2%nat]
             (mkT [4; 4; 1; 1]%nat (fun idx => INR (nth 1 idx 0%nat))) None, ([1%nat], [0%nat; 2%nat]));
   (ex_pw 8 2 2, ([0%nat; 2%nat], [1; 6]%nat));
   (PlFlatten, ([1; 6]%nat, flat 4 [1; 6]%nat));
   (PlLinear (mkT [2; 32]%nat (fun idx => INR (nth 1 idx 0%nat))) (Some [1; 2]), (flat 4 [1; 6]%nat, [0%nat]))].
Example C39_chain_example : chain_ok ex_net [] (mkT [1; 3; 2; 2]%nat (fun idx => INR (nth 1 idx 0%nat))) /\
  last_removed ex_net [] = [0%nat].
Proof.
  split; [|reflexivity]. unfold ex_net, ex_pw. cbn [chain_ok layer_ok]. repeat (match goal with |- _ /\ _ => split end).
  all: try reflexivity.
  - exists 4%nat, 3%nat, [1; 1]%nat. split; [reflexivity|]. split; [repeat split; cbn; lia|]. repeat (split; [cbn; lia|]). left. reflexivity.
  - vm_compute; lia.
  - vm_compute; lia.
  - intros g h pos H V. f_equal. apply H. exact V.
  - exists 4%nat, 1%nat, [1; 1]%nat. split; [reflexivity|]. split; [repeat split; cbn; lia|]. repeat (split; [cbn; lia|]). reflexivity.
  - vm_compute; lia.
  - exists 4%nat, 4%nat, [1; 1]%nat. split; [reflexivity|]. split; [cbn; lia|]. split; reflexivity.
  - exists 8%nat, 2%nat, [1; 1]%nat. split; [reflexivity|]. split; [repeat split; cbn; lia|]. repeat (split; [cbn; lia|]). right.
    exists 1%nat, (fun _ => [0%nat]), 1%nat, (fun g => match g with 0%nat => [1%nat] | _ => [2%nat] end).
    split; [lia|]. split; [reflexivity|].
    assert (B : forall w (p : nat -> list nat), (w <= 8)%nat -> (forall g, (g < 2)%nat -> length (p g) = 1%nat /\ NoDup (p g) /\ Forall (fun x => (x < w)%nat) (p g)) ->
      balanced 2 w 1 p (concat (map (fun g => map (fun x => w * g + x)%nat (p g)) (seq 0 2)))).
    { intros w p Hw H. split; [reflexivity|]. intros g Hg. destruct (H g Hg) as (H1 & H2 & H3). split; [exact H1|]. split; [exact H2|].
      split; [exact H3|]. left. exact Hw. }
    split; [apply (B 2%nat (fun _ => [0%nat])); [lia|intros; repeat split; repeat constructor; cbn; tauto]|]. split; [left; cbn; lia|].
    split; [apply (B 4%nat); [lia|intros g Hg; destruct g; repeat split; repeat constructor; cbn; tauto]|left; cbn; lia].
  - vm_compute; lia.
  - vm_compute; lia.
  - left. cbn. lia.
  - right. vm_compute. lia.
  - exists 1%nat, 2%nat, 32%nat. split; reflexivity.
Qed.

(** The kept channels of a larger layer need not be stored in ascending order; flattening in between pairs the
    features with the wrong channels. *)
Theorem C39_flatten_refuted : exists w ri x ls,
  let net := [(PlFlatten, (ri, flat 3 ri)); (PlLinear w None, (flat 3 ri, []))] in
  tshape w = [1; 27]%nat /\ tshape x = [1; 9; 3]%nat /\ Forall (fun c => (c < 9)%nat) ri /\
  shrink_net net = Some ls /\
  tget (run_pls (mask_net net) x) [0; 0]%nat = 1 /\ tget (run_pls ls (restrict ri x)) [0; 0]%nat = 0.
Proof. exact flatten_refuted. Qed.
Print Assumptions C39_flatten_refuted.

(** So does a grouped convolution whose input loses the same number of channels in both groups. *)
Theorem C39_groups_refuted : exists a w ri x ls,
  let net := [(PlConv a w None, (ri, []))] in
  ca_groups a = 2%nat /\ tshape w = [2; 8; 1; 1]%nat /\ tshape x = [1; 16; 1; 1]%nat /\
  (exists per, ri = concat (map (fun g => map (fun x => 8 * g + x)%nat (per g)) (seq 0 2)) /\
               forall g, (g < 2)%nat -> length (per g) = 7%nat /\ Forall (fun c => (c < 8)%nat) (per g)) /\
  shrink_net net = Some ls /\
  tget (run_pls (mask_net net) x) [0; 0; 0; 0]%nat = 1 /\ tget (run_pls ls (restrict ri x)) [0; 0; 0; 0]%nat = 0.
Proof. exact groups_refuted. Qed.
Print Assumptions C39_groups_refuted.

(** Layer norm averages over the channels, also the masked ones. *)
Theorem C39_layer_norm_refuted :
  let x := mkT [1; 2]%nat (fun idx => match nth 1 idx 0%nat with 0%nat => 0 | _ => 2 end) in
  let vec l := mkT [length l] (fun idx => nth (nth 0 idx 0%nat) l 0) in
  exists g b, ln_shrink [0%nat] [1; 1] [0; 0] = Some (g, b) /\
    let '(gm, bm) := ln_mask [0%nat] [1; 1] [0; 0] in
    tget (layernorm_spec [2%nat] (vec gm) (vec bm) 0 x) [0; 1]%nat = 1 /\
    tget (layernorm_spec [1%nat] (vec g) (vec b) 0 (restrict [0%nat] x)) [0; 0]%nat = 0.
Proof. exact layer_norm_differs. Qed.
Print Assumptions C39_layer_norm_refuted.

(** ** C41: compensation of removed constant channels.
    The removed channels have batch-norm scale zero; at every position whose kernel window lies inside the image
    (or everywhere, when the activation maps the removed biases to zero) the shrunk layers with the compensated
    bias compute what the original layers computed.  Partial: false on padded borders. *)
Theorem C41_inside_partial : forall act p ri a (w : tensor R) b (x : tensor R) cout cin ks,
  tshape w = cout :: cin :: ks -> spatial_ok a (tshape x) ks -> nth 1 (tshape x) 0%nat = cin ->
  length (bn_w p) = cin -> ca_groups a = 1%nat -> is_dw_conv a w = false ->
  (forall c, In c ri -> (c < cin)%nat -> nth c (bn_w p) 0 = 0) ->
  exists bn cv, shrink_bn_conv act p ri a w b = Some (bn, cv) /\
    let before := run_pl (PlConv a w b) (tmap act (run_pl (PlBn p) x)) in
    let after := run_pl cv (tmap act (run_pl bn (restrict ri x))) in
    tshape after = tshape before /\
    forall n o pos, valid (tshape before) (n :: o :: pos) ->
      (pad_free a (skipn 2 (tshape x)) ks pos \/ (forall c, In c ri -> (c < cin)%nat -> act (nth c (bn_b p) 0) = 0)) ->
      tget after (n :: o :: pos) = tget before (n :: o :: pos).
Proof. exact compensate_correct. Qed.
Print Assumptions C41_inside_partial.
(** the window of the middle pixel of a row of three lies inside the image, that of the first does not *)
Example C41_inside_example :
  let w := mkT [1; 2; 1; 3]%nat (fun idx => INR (nth 3 idx 0%nat)) in
  spatial_ok cw_conv [1; 2; 1; 3]%nat [1; 3]%nat /\ is_dw_conv cw_conv w = false /\
  (forall c, In c [0%nat] -> (c < 2)%nat -> nth c (bn_w cw_bn) 0 = 0) /\
  pad_free cw_conv [1; 3]%nat [1; 3]%nat [0; 1]%nat /\ ~ pad_free cw_conv [1; 3]%nat [1; 3]%nat [0; 0]%nat.
Proof.
  split; [repeat split; cbn; lia|]. split; [reflexivity|]. split; [intros c [<-|[]] _; reflexivity|]. split.
  - intros k V. inversion V as [|i d r s Hi V1]; subst k d s. inversion V1 as [|j d r1 s Hj V2]; subst r d s. inversion V2. subst r1.
    assert (i = 0%nat) by lia. subst i. destruct j as [|[|[|]]]; try lia; cbn; discriminate.
  - intro H. apply (H [0; 0]%nat); [repeat constructor|reflexivity].
Qed.

(** With padding the compensation counts taps that read zeros. *)
Theorem C41_border_refuted : exists p a w x bn cv,
  (forall c, In c [0%nat] -> nth c (bn_w p) 0 = 0) /\ ca_groups a = 1%nat /\
  shrink_bn_conv (act_fn ARelu) p [0%nat] a w None = Some (bn, cv) /\
  tget (run_pl (PlConv a w None) (tmap (act_fn ARelu) (run_pl (PlBn p) x))) [0; 0; 0; 0]%nat = 1 /\
  tget (run_pl cv (tmap (act_fn ARelu) (run_pl bn (restrict [0%nat] x)))) [0; 0; 0; 0]%nat = 3.
Proof. exact border_refuted. Qed.
Print Assumptions C41_border_refuted.
