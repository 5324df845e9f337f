(** Theorems about the quantizable replacement modules (C52). *)
From Coq Require Import List Arith Bool Reals Lra Lia.
From Verif Require Import Tensor ConvSpec FuseModel FuseProofs FuseMiscProofs QModModel QModProofs.
Import ListNotations.
Local Open Scope R_scope.

(** PReLU with one slope, and with one slope per channel. *)
Theorem C52_prelu_shared : forall w x, prod (tshape w) = 1%nat ->
  exists r, qprelu w x = Some r /\ teq r (prelu_spec (fun _ => tget w (unravel (tshape w) 0)) x).
Proof. exact qprelu_shared. Qed.
Print Assumptions C52_prelu_shared.
Theorem C52_prelu_channel : forall w x N C r, tshape w = [C] -> tshape x = N :: C :: r ->
  exists t, qprelu w x = Some t /\ teq t (prelu_spec (fun c => tget w [c]) x).
Proof. exact qprelu_channel. Qed.
Print Assumptions C52_prelu_channel.
Example C52_prelu_witness :
  let w := mkT [3]%nat (fun i => INR (nth 0 i 0%nat)) in
  let x := mkT [2; 3; 4]%nat (fun _ => -1) in
  tget (prelu_spec (fun c => tget w [c]) x) [1; 2; 3]%nat = -2.
Proof. cbn. destruct Rle_dec; lra. Qed.

Theorem C52_silu : forall x, exists r, qsilu x = Some r /\ teq r (silu_spec x).
Proof. exact qsilu_ok. Qed.
Print Assumptions C52_silu.
Example C52_silu_witness : tget (silu_spec (mkT [1]%nat (fun _ => 0))) [0]%nat = 0.
Proof. cbn. unfold Rdiv. ring. Qed.

(** GLU on every axis of even size (the original raises on odd sizes). *)
Theorem C52_glu : forall ax x, (ax < length (tshape x))%nat -> Nat.even (nth ax (tshape x) 0%nat) = true ->
  exists r, qglu ax x = Some r /\ teq r (glu_spec ax x).
Proof. exact qglu_even. Qed.
Print Assumptions C52_glu.
Example C52_glu_witness : let x := mkT [2; 6]%nat (fun i => INR (ravel [2; 6]%nat i)) in
  (1 < length (tshape x))%nat /\ Nat.even (nth 1 (tshape x) 0%nat) = true /\ tshape (glu_spec 1 x) = [2; 3]%nat.
Proof. cbn. auto. Qed.
(** On an axis of size 3 the original raises, the replacement returns a tensor of size 2. *)
Theorem C52_glu_odd_refuted : exists x r, nth 1 (tshape x) 0%nat = 3%nat /\ qglu 1 x = Some r /\ tshape r = [5; 2]%nat.
Proof. exists (mkT [5; 3]%nat (fun _ => 0)). eexists. split; [reflexivity|]. split; reflexivity. Qed.
Print Assumptions C52_glu_odd_refuted.

Theorem C52_hardsigmoid : forall x, teq (qhardsigmoid x) (tmap hardsigmoid_spec x).
Proof. exact qhardsigmoid_ok. Qed.
Print Assumptions C52_hardsigmoid.
Example C52_hardsigmoid_witness : hardsigmoid_spec (3 / 2) = 3 / 4 /\ hardsigmoid_spec (-4) = 0 /\ hardsigmoid_spec 5 = 1.
Proof. unfold hardsigmoid_spec. repeat split; repeat destruct Rle_dec; lra. Qed.

(** Layer norm with weight and bias, any number of normalised axes and leading axes. *)
Theorem C52_layernorm_partial : forall lead ns w b eps x,
  tshape x = lead ++ ns -> tshape w = ns -> tshape b = ns ->
  exists r, qlayernorm (length ns) (Some w) (Some b) eps x = Some r /\ teq r (layernorm_spec ns w b eps x).
Proof. exact qlayernorm_ok. Qed.
Print Assumptions C52_layernorm_partial.
(** RMS norm with weight and an explicit eps. *)
Theorem C52_rmsnorm_partial : forall lead ns w eps x, tshape x = lead ++ ns -> tshape w = ns ->
  exists r, qrmsnorm (length ns) (Some w) (Some eps) x = Some r /\ teq r (rmsnorm_spec ns w eps x).
Proof. exact qrmsnorm_ok. Qed.
Print Assumptions C52_rmsnorm_partial.
Example C52_norm_witness : let x := mkT [2; 3; 2]%nat (fun i => INR (nth 2 i 0%nat)) in
  tshape x = [2]%nat ++ [3; 2]%nat /\ tget (rmsnorm_spec [3; 2]%nat (mkT [3; 2]%nat (fun _ => 1)) (1 / 2) x) [0; 0; 1]%nat = 1.
Proof.
  split; [reflexivity|]. unfold rmsnorm_spec, expect. cbn -[sqrt INR].
  unfold lsum. cbn -[sqrt INR].
  replace _ with (INR 1 / sqrt 1 * 1); [rewrite sqrt_1; cbn; lra|]. f_equal. f_equal. f_equal. cbn. lra.
Qed.
(** Modules without weight or bias ([elementwise_affine=False], [bias=False]) cannot be replaced:
    construction raises. *)
Theorem C52_norm_affine_refuted : forall k w eps e x,
  qlayernorm k None None eps x = None /\ qlayernorm k (Some w) None eps x = None /\ qrmsnorm k None e x = None.
Proof. intros. repeat split. Qed.
Print Assumptions C52_norm_affine_refuted.
(** RMS norm with [eps=None]: the original adds the machine epsilon of the data type, the replacement adds
    nothing; whatever positive epsilon is used, they differ. *)
Theorem C52_rmsnorm_default_refuted : forall e, 0 < e -> exists w x r, tshape x = [1]%nat /\ tshape w = [1]%nat /\
  qrmsnorm 1 (Some w) None x = Some r /\ ~ teq r (rmsnorm_spec [1]%nat w e x).
Proof.
  intros e He. set (w := mkT [1]%nat (fun _ => 1)). set (x := mkT [1]%nat (fun _ => 1)).
  destruct (qrmsnorm_none [] [1]%nat w x eq_refl eq_refl) as (r & E & (S & G)).
  exists w, x, r. split; [reflexivity|]. split; [reflexivity|]. split; [exact E|]. intros (_ & G').
  assert (V : valid (tshape r) [0]%nat) by (rewrite S; repeat constructor).
  specialize (G _ V). rewrite (G' _ V) in G. unfold rmsnorm_spec, expect in G.
  assert (Q : lsum (indices [1]%nat) (fun j => tget x ([] ++ j) ^ 2) / INR (length (indices [1]%nat)) = 1)
    by (unfold lsum; cbn; lra).
  cbn [tget tshape x length Nat.sub firstn] in G. cbn [tget x w] in Q, G. rewrite Q in G.
  rewrite Rplus_0_r, sqrt_1 in G. assert (H : sqrt 1 < sqrt (1 + e)) by (apply sqrt_lt_1; lra).
  rewrite sqrt_1 in H.
  assert (/ sqrt (1 + e) < / 1) by (apply Rinv_lt_contravar; lra). unfold w in G. cbn [tget] in G. lra.
Qed.
Print Assumptions C52_rmsnorm_default_refuted.
