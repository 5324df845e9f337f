(** Absorbing high biases. *)
From Coq Require Import Reals List Arith Lia Lra.
From Verif Require Import CleModel CleSpec CleProofs HbaModel HbaSpec HbaProofs.
Import ListNotations.
Open Scope R_scope.

(** If what the activation gets is within three standard deviations of the mean of the batch norm and not negative, the two layers
    compute with the new biases what they computed before, where the second layer reads no padding. *)
Theorem C154_keeps_partial :
  forall g og ig J K k1 k2 gam bet w1 b1 act w2 b2 b1' b2' x o, (0 < g)%nat -> (0 < og)%nat -> (0 < ig)%nat -> (o < g * og)%nat -> keeps_positive act ->
  (forall k c, (k < K)%nat -> (c < g * ig)%nat -> three_sigma gam bet c (pre_act J w1 b1 x k c) /\ 0 <= pre_act J w1 b1 x k c) ->
  absorb k1 k2 (g * ig) (g * og) ig K gam bet b1 w2 b2 = Some (b1', b2') -> two_layers og ig J K w1 b1' act w2 b2' x o = two_layers og ig J K w1 b1 act w2 b2 x o.
Proof. exact absorb_keeps. Qed.
Print Assumptions C154_keeps_partial.
(** two channels, a kernel of two positions; mean 5, deviation 1, the values are 3 and 4 *)
Definition ex_x (k c j : nat) : R := match k with O => -2 | _ => -1 end.
Example C154_keeps_example : keeps_positive (fun _ y => Rmax 0 y) /\
  (forall k c, (k < 2)%nat -> (c < 1 * 2)%nat -> three_sigma (fun _ => 1) (fun _ => 5) c (pre_act 1 (fun _ _ => 1) (fun _ => 5) ex_x k c) /\ 0 <= pre_act 1 (fun _ _ => 1) (fun _ => 5) ex_x k c) /\
  shift (fun _ => 1) (fun _ => 5) 0 = 2 /\ exists r, absorb HBn HBn (1 * 2) (1 * 3) 2 2 (fun _ => 1) (fun _ => 5) (fun _ => 5) (fun o i k => INR (o + i)) (fun _ => 7) = Some r.
Proof.
  split; [exact relu_positive|]. split; [|split; [unfold shift; cbv zeta; rewrite Rabs_R1; destruct (Rlt_dec _ _); lra|apply absorb_works; now left]].
  intros k c _ _. unfold three_sigma, pre_act, ex_x. cbn [sum_n]. rewrite Rabs_R1. destruct k; (split; [rewrite Rabs_left|]; lra).
Qed.

(** It works for convolutions without groups and for depthwise ones with one output per channel. *)
Theorem C154_works :
  forall g og ig K gam bet b1 w2 b2, g = 1%nat \/ (ig = 1%nat /\ og = 1%nat) -> exists r, absorb HBn HBn (g * ig) (g * og) ig K gam bet b1 w2 b2 = Some r.
Proof. exact absorb_works. Qed.
Print Assumptions C154_works.
Example C154_works_example : match absorb HBn HBn (4 * 1) (4 * 1) 1 9 (fun _ => 1) (fun _ => 5) (fun _ => 5) (fun o i k => 1) (fun _ => 7) with Some (b1', b2') => b1' 3%nat = 3 /\ b2' 3%nat = 25 | None => False end.
Proof. unfold absorb, correct, reduced, rsum, shift. cbn [Nat.eqb Nat.mul Nat.add map seq fold_right]. cbv zeta. rewrite Rabs_R1. destruct (Rlt_dec _ _); lra. Qed.

(** With other groups it raises an exception. *)
Theorem C154_groups_fail :
  forall g og ig K gam bet b1 w2 b2, (1 < g)%nat -> (0 < og)%nat -> (0 < ig)%nat -> (1 < ig \/ 1 < og)%nat -> absorb HBn HBn (g * ig) (g * og) ig K gam bet b1 w2 b2 = None.
Proof. exact absorb_fails. Qed.
Print Assumptions C154_groups_fail.
(** two groups of two channels; a depthwise convolution with two outputs per channel *)
Example C154_groups_fail_example : forall f, absorb HBn HBn 4 2 2 1 f f f (fun _ _ _ => 1) f = None /\ absorb HBn HBn 3 6 1 1 f f f (fun _ _ _ => 1) f = None.
Proof. intros f. split; reflexivity. Qed.

(** Where the second layer reads padding the output changes. *)
Theorem C154_padding_refuted :
  exists og ig J K pad gam bet w1 b1 act w2 b2 b1' b2' x o, (o < 1 * og)%nat /\ keeps_positive act /\
  (forall k c, (k < K)%nat -> (c < 1 * ig)%nat -> three_sigma gam bet c (pre_act J w1 b1 x k c) /\ 0 <= pre_act J w1 b1 x k c) /\
  absorb HBn HBn (1 * ig) (1 * og) ig K gam bet b1 w2 b2 = Some (b1', b2') /\ two_layers_pad og ig J K pad w1 b1' act w2 b2' x o <> two_layers_pad og ig J K pad w1 b1 act w2 b2 x o.
Proof. exact pad_lemma. Qed.
Print Assumptions C154_padding_refuted.

(** After equalization the output changes: the means and deviations are those of the layer before its weights were scaled. *)
Theorem C154_after_equalization_refuted :
  exists smin smax thr g og ig J K w1 b1 w2 w1' b1' w2' gam bet act b2 b1'' b2'' x o,
  (o < g * og)%nat /\ 0 < smin /\ smin <= smax /\ homogeneous act /\ keeps_positive act /\ equalize_pair smin smax thr g og ig J K w1 b1 w2 = Some (w1', b1', w2') /\
  (forall k c, (k < K)%nat -> (c < g * ig)%nat -> three_sigma gam bet c (pre_act J w1 b1 x k c) /\ 0 <= pre_act J w1 b1 x k c) /\
  absorb HBn HBn (g * ig) (g * og) ig K gam bet b1' w2' b2 = Some (b1'', b2'') /\
  two_layers og ig J K w1' b1'' act w2' b2'' x o <> two_layers og ig J K w1 b1 act w2 b2 x o.
Proof. exact stale_lemma. Qed.
Print Assumptions C154_after_equalization_refuted.

(** In a model with several groups every layer gets the correction for the layer before it and gives its own shift to the next, where
    the groups are in order. *)
Theorem C154_model :
  forall bn sh co m gs m', in_order gs -> absorb_model bn sh co m gs = Some m' -> forall n c, moved bn sh co m gs n c (m' n c).
Proof. exact model_ok. Qed.
Print Assumptions C154_model.
(** three layers in a row: the one in the middle gets and gives *)
Example C154_model_example : in_order [(1, 2); (2, 3)]%nat /\
  match absorb_model (fun _ => true) (fun n _ => INR n) (fun _ _ => Some (fun _ => 10)) (fun _ _ => 5) [(1, 2); (2, 3)]%nat with Some m' => m' 2%nat 0%nat = 13 | None => False end.
Proof.
  split; [|cbn; unfold set_bias; cbn; lra].
  repeat apply io_cons; try apply io_nil; try discriminate; intros x H; cbn in H; intuition discriminate.
Qed.

(** In another order shifts are lost. *)
Theorem C154_order_refuted :
  exists bn sh co m gs m' n c, NoDup (map fst gs) /\ NoDup (map snd gs) /\ (forall x, ~ In (x, x) gs) /\ absorb_model bn sh co m gs = Some m' /\ ~ moved bn sh co m gs n c (m' n c).
Proof. exact order_lemma. Qed.
Print Assumptions C154_order_refuted.
