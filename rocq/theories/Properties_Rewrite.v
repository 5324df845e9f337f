(** Property theorems: replacing one operator by several (C13-C15). *)
From Coq Require Import List Arith Bool Reals Lia Lra.
From Verif Require Import Tensor ConvSpec CatSpec RewriteModel CatProofs FuseMiscProofs GroupConvProofs.
Import ListNotations.

(** ** C13: exactly one operator, the last, writes the output tensor; its value is the original
    concatenation; every operator has one to ten operands, all available when it runs. *)
Theorem C13_cat_split :
  forall (A : Type) (d : A) (ax : nat) (ts : list (tensor A)),
    10 < length ts -> cat_compat ax ts ->
    exists ops op,
      cat_split (length ts) = Some (ops ++ [(op, true)]) /\ Forall (fun o => snd o = false) ops /\
      ops_ok (length ts) (ops ++ [(op, true)]) /\
      teq (last (run_cats d ax ts (ops ++ [(op, true)])) (mkT [] (fun _ => d))) (concatenation d ax ts).
Proof. exact @cat_split_correct. Qed.
Print Assumptions C13_cat_split.

Example C13_example :
  cat_compat 1 (map (fun i => mkT [2; S i; 3] (fun _ => i)) (seq 0 12)) /\
  cat_split 12 = Some [(map CIn (seq 0 10), false); ([CIn 10; CIn 11], false); ([COut 0; COut 1], true)] /\
  option_map (@length cop) (cat_split 101) = Some (11 + 2 + 1).
Proof.
  split; [|split; reflexivity]. exists [2; 0; 3]. split; [simpl; lia|]. repeat constructor.
Qed.

(** ** C14: the function is kept; the scales of a per-channel quantized weight are not split. *)
Theorem C14_group_conv_partial :
  forall act (od st dil pad : list nat) x w b N H W cout kh kw ipg opg G oh ow,
    tshape x = [N; H; W; G * ipg] -> tshape w = [cout; kh; kw; ipg] -> cout = G * opg -> od = [oh; ow] ->
    length st = 2 -> length dil = 2 -> length pad = 2 ->
    0 < ipg -> 0 < opg -> 0 < G -> (match b with None => True | Some l => length l = cout end) ->
    exists parts, group_conv_rewrite (tshape x) [N; oh; ow; cout] w b act = Some parts /\ length parts = G /\
      (forall p, In p parts -> tshape (pt_w p) = [opg; kh; kw; ipg]) /\
      teq (run_conv_parts od st dil pad x parts) (conv2d act od st dil pad x w (bias_at b)).
Proof. exact group_conv_correct. Qed.
Print Assumptions C14_group_conv_partial.

Theorem C14_scales_refuted :
  exists (n g opg o : nat) (scales : list nat),
    length scales = n * opg /\ g < n /\ o < opg /\
    nth_error (group_conv_scales n g scales) o <> nth_error scales (g * opg + o) /\
    length (group_conv_scales n g scales) <> opg.
Proof. exists 2, 1, 2, 0, [1; 2; 3; 4]. repeat split; try (simpl; lia); discriminate. Qed.
Print Assumptions C14_scales_refuted.

Example C14_example :
  let x := mkT [1; 5; 5; 3 * 2] (fun idx => INR (nth 3 idx 0)) in
  let w := mkT [3 * 4; 3; 3; 2] (fun idx => INR (nth 0 idx 0)) in
  is_group_conv_node (tshape x) (tshape w) = true /\
  option_map (@length part) (group_conv_rewrite (tshape x) [1; 3; 3; 12] w None ARelu) = Some 3.
Proof. split; reflexivity. Qed.

(** ** C15: false when the operator has a fused activation. *)
Theorem C15_group_deconv_partial :
  forall (st pad : list nat) x w b N H W kh kw ipg opg G oh ow,
    tshape x = [N; H; W; G * ipg] -> tshape w = [opg; kh; kw; G * ipg] ->
    0 < ipg -> 0 < opg -> 0 < G -> (match b with None => True | Some l => length l = G * opg end) ->
    exists new_os parts,
      group_deconv_rewrite (tshape x) [N; oh; ow; G * opg] w b ANone = Some (new_os, parts) /\ length parts = G /\
      new_os = [N; oh; ow; opg] /\
      (forall p, In p parts -> tshape (pt_w p) = [opg; kh; kw; ipg]) /\
      teq (run_deconv_parts st pad x new_os parts) (tconv2d ANone st pad [N; oh; ow; G * opg] x w (bias_at b)).
Proof. exact group_deconv_correct. Qed.
Print Assumptions C15_group_deconv_partial.

Theorem C15_activation_refuted :
  exists x w new_os parts,
    tshape x = [1; 1; 1; 2] /\ tshape w = [1; 1; 1; 2] /\ is_group_deconv_node [1; 1; 1; 2] (tshape w) = true /\
    group_deconv_rewrite (tshape x) [1; 1; 1; 2] w None ARelu = Some (new_os, parts) /\
    ~ teq (run_deconv_parts [1; 1] [0; 0] x new_os parts) (tconv2d ARelu [1; 1] [0; 0] [1; 1; 1; 2] x w (bias_at None)).
Proof. exact group_deconv_act_refuted. Qed.
Print Assumptions C15_activation_refuted.

Example C15_example :
  let x := mkT [1; 5; 5; 3 * 2] (fun idx => INR (nth 3 idx 0)) in
  let w := mkT [4; 3; 3; 3 * 2] (fun idx => INR (nth 0 idx 0)) in
  is_group_deconv_node [1; 7; 7; 12] (tshape w) = true /\
  option_map fst (group_deconv_rewrite (tshape x) [1; 7; 7; 12] w None ANone) = Some [1; 7; 7; 4].
Proof. split; reflexivity. Qed.
