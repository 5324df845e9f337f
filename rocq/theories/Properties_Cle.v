(** Scaling two layers. *)
From Coq Require Import Reals List Arith Lia Lra.
From Verif Require Import CleModel CleSpec CleProofs.
Import ListNotations.
Open Scope R_scope.

(** Whatever scales are found, if none is NaN the two layers with the activation between compute what they computed before. *)
Theorem C153_keeps :
  forall smin smax thr g og ig J K w1 b1 w2 w1' b1' w2' act b2 x o, 0 < smin -> smin <= smax -> homogeneous act ->
  equalize_pair smin smax thr g og ig J K w1 b1 w2 = Some (w1', b1', w2') -> two_layers og ig J K w1' b1' act w2' b2 x o = two_layers og ig J K w1 b1 act w2 b2 x o.
Proof. exact cle_keeps. Qed.
Print Assumptions C153_keeps.
(** two channels between: the first layer has ranges 4 and 1, the second 1 and 9 *)
Definition ex_w1 (c j : nat) : R := match c, j with O, O => 4 | O, _ => -1 | _, _ => 1 end.
Definition ex_w2 (o i k : nat) : R := match i, o with O, _ => 1 | _, O => 9 | _, _ => 2 end.
Example C153_keeps_example : 0 < / 1000000 /\ / 1000000 <= 1000000 /\ homogeneous (fun _ y => Rmax 0 y) /\ exists r, equalize_pair (/ 1000000) 1000000 (/ 2) 1 2 2 2 1 ex_w1 (fun _ => 3) ex_w2 = Some r.
Proof.
  split; [lra|]. split; [lra|]. split.
  - intros c a y A. rewrite <- (Rmult_0_r a) at 1. apply RmaxRmult. lra.
  - apply cle_clean. intros [|c] _; exists 0%nat; (split; [lia|cbn; lra]).
Qed.

(** No scale is NaN if no channel of the first layer has only zeros as weights. *)
Theorem C153_clean :
  forall smin smax thr g og ig J K w1 b1 w2, (forall c, (c < g * ig)%nat -> exists j, (j < J)%nat /\ w1 c j <> 0) -> exists r, equalize_pair smin smax thr g og ig J K w1 b1 w2 = Some r.
Proof. exact cle_clean. Qed.
Print Assumptions C153_clean.
Example C153_clean_example : forall c, (c < 1 * 2)%nat -> exists j, (j < 2)%nat /\ ex_w1 c j <> 0.
Proof. intros [|c] _; exists 0%nat; (split; [lia|cbn; lra]). Qed.

(** Without groups, and in depthwise convolutions, the weights of the two layers for a channel have the same range afterwards, the
    geometric mean of the ranges before, unless the scale has to be clamped. *)
Theorem C153_equal_partial :
  forall smin smax thr g og ig J K w1 b1 w2 w1' b1' w2' c a b, g = 1%nat \/ ig = 1%nat -> (0 < og)%nat -> (0 < K)%nat -> (c < g * ig)%nat -> 0 < smin -> smin <= smax ->
  equalize_pair smin smax thr g og ig J K w1 b1 w2 = Some (w1', b1', w2') -> out_range J w1 c a -> in_range og ig K w2 c b -> 0 < a -> 0 < b -> thr <= a + b -> smin * smin * b <= a <= smax * smax * b ->
  exists m, out_range J w1' c m /\ in_range og ig K w2' c m /\ m * m = a * b.
Proof. exact cle_equal. Qed.
Print Assumptions C153_equal_partial.
Example C153_equal_example : out_range 2 ex_w1 1 1 /\ in_range 2 2 1 ex_w2 1 9 /\ / 2 <= 1 + 9 /\ / 1000000 * / 1000000 * 9 <= 1 <= 1000000 * 1000000 * 9.
Proof.
  split; [split|].
  - intros j _. cbn. rewrite Rabs_R1. lra.
  - exists 0%nat. split; [lia|]. cbn. apply Rabs_R1.
  - split; [|lra]. split.
    + intros o k _ _. change (1 mod 2)%nat with 1%nat. destruct o; cbn; rewrite Rabs_right; lra.
    + exists 0%nat, 0%nat. repeat split; auto. change (1 mod 2)%nat with 1%nat. cbn. rewrite Rabs_right; lra.
Qed.

(** Channels with small weights stay as they are. *)
Theorem C153_small_partial :
  forall smin smax thr g og ig J K w1 b1 w2 w1' b1' w2' c a b, g = 1%nat \/ ig = 1%nat -> (0 < og)%nat -> (0 < K)%nat -> (c < g * ig)%nat ->
  equalize_pair smin smax thr g og ig J K w1 b1 w2 = Some (w1', b1', w2') -> out_range J w1 c a -> in_range og ig K w2 c b -> a + b < thr ->
  (forall j, w1' c j = w1 c j) /\ b1' c = b1 c /\ forall o k, (o / og = c / ig)%nat -> w2' o (c mod ig)%nat k = w2 o (c mod ig)%nat k.
Proof. exact cle_small. Qed.
Print Assumptions C153_small_partial.
Example C153_small_example : out_range 2 ex_w1 0 4 /\ in_range 2 2 1 ex_w2 0 1 /\ 4 + 1 < 6 /\ exists r, equalize_pair (/ 1000000) 1000000 6 1 2 2 2 1 ex_w1 (fun _ => 3) ex_w2 = Some r.
Proof.
  split; [split|].
  - intros [|j] _; cbn; [rewrite Rabs_right|rewrite Rabs_left]; lra.
  - exists 0%nat. split; [lia|]. cbn. rewrite Rabs_right; lra.
  - split; [split|].
    + intros o k _ _. change (0 mod 2)%nat with 0%nat. cbn. rewrite Rabs_R1. lra.
    + exists 0%nat, 0%nat. repeat split; auto. change (0 mod 2)%nat with 0%nat. cbn. apply Rabs_R1.
    + split; [lra|]. apply cle_clean. intros [|c] _; exists 0%nat; (split; [lia|cbn; lra]).
Qed.

(** With groups of several channels the range of the second layer is that of another channel: the ranges are not made equal. *)
Theorem C153_group_refuted :
  exists smin smax thr g og ig J K w1 b1 w2 w1' b1' w2' c a b,
  (0 < og)%nat /\ (0 < K)%nat /\ (c < g * ig)%nat /\ 0 < smin /\ smin <= smax /\ equalize_pair smin smax thr g og ig J K w1 b1 w2 = Some (w1', b1', w2') /\
  out_range J w1 c a /\ in_range og ig K w2 c b /\ 0 < a /\ 0 < b /\ thr <= a + b /\ smin * smin * b <= a <= smax * smax * b /\
  ~ exists m, out_range J w1' c m /\ in_range og ig K w2' c m.
Proof. exact group_lemma. Qed.
Print Assumptions C153_group_refuted.

(** A channel with only zeros in the first layer has NaN as scale if the second layer has a weight above the threshold for it. *)
Theorem C153_dead_channel :
  forall smin smax thr g og ig J K w1 b1 w2 c b, g = 1%nat \/ ig = 1%nat -> (0 < og)%nat -> (0 < K)%nat -> (c < g * ig)%nat -> (0 < J)%nat ->
  (forall j, (j < J)%nat -> w1 c j = 0) -> in_range og ig K w2 c b -> thr <= b -> equalize_pair smin smax thr g og ig J K w1 b1 w2 = None.
Proof. exact cle_dead. Qed.
Print Assumptions C153_dead_channel.
Example C153_dead_channel_example : (forall j, (j < 2)%nat -> (fun c j => match c with O => 0 | _ => 1 end) 0%nat j = 0) /\ in_range 2 2 1 ex_w2 0 1 /\ / 2 <= 1.
Proof.
  split; [reflexivity|]. split; [split|lra].
  - intros o k _ _. change (0 mod 2)%nat with 0%nat. cbn. rewrite Rabs_R1. lra.
  - exists 0%nat, 0%nat. repeat split; auto. change (0 mod 2)%nat with 0%nat. cbn. apply Rabs_R1.
Qed.

(** So scales are not always numbers. *)
Theorem C153_nan_refuted :
  exists smin smax thr g og ig J K (w1 : nat -> nat -> R) b1 w2, (0 < og)%nat /\ (0 < K)%nat /\ (0 < g * ig)%nat /\ (0 < J)%nat /\ 0 < smin /\ smin <= smax /\
  equalize_pair smin smax thr g og ig J K w1 b1 w2 = None.
Proof. exact nan_lemma. Qed.
Print Assumptions C153_nan_refuted.
