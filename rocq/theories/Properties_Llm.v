(** Property theorems: LLM compression (C49-C51). *)
From Coq Require Import List Arith ZArith Bool Reals Lia Lra.
From Verif Require Import Tensor ConvSpec QuantSpec QuantModel QuantProofs LlmModel LlmProofs.
Import ListNotations.
Local Open Scope R_scope.

(** ** C49 *)
Theorem C49_pack_roundtrip : forall (w : tensor Z) o i, tshape w = [o; i] -> (i mod 2 = 0)%nat ->
  (forall idx, valid (tshape w) idx -> (-8 <= tget w idx <= 7)%Z) ->
  exists p, pack_weight w = Some p /\ tshape p = [o; (i / 2)%nat] /\ all_in S8 p /\ teq (unpack_weight o i p) w.
Proof. exact pack_roundtrip. Qed.
Print Assumptions C49_pack_roundtrip.
Theorem C49_odd_rejected : forall (w : tensor Z) o i, tshape w = [o; i] -> (i mod 2 = 1)%nat -> pack_weight w = None.
Proof. exact pack_odd. Qed.
Print Assumptions C49_odd_rejected.
Example C49_case :
  let w := mkT [2; 4]%nat (fun idx => nth (nth 0 idx 0 * 4 + nth 1 idx 0)%nat [-8; 7; 0; -1; 3; -4; 5; -6]%Z 0%Z) in
  (forall idx, valid (tshape w) idx -> (-8 <= tget w idx <= 7)%Z) /\
  match pack_weight w with
  | Some p => map (tget p) (indices [2; 2]%nat) = [-121; 15; 60; 90]%Z /\
              map (tget (unpack_weight 2 4 p)) (indices [2; 4]%nat) = [-8; 7; 0; -1; 3; -4; 5; -6]%Z
  | None => False
  end.
Proof.
  cbv zeta. split.
  - intros idx V. cbn [tget]. set (n := (_ + _)%nat).
    do 8 (destruct n as [|n]; [cbn; lia|]). destruct n; cbn; lia.
  - vm_compute. auto.
Qed.
(** the float weight of the 4-bit layer is within a fifteenth of the largest weight of the row *)
Theorem C49_weight4_error : forall nan_int w o i, tshape w = [o; i] -> (0 < o)%nat -> (0 < i)%nat -> (i mod 2 = 0)%nat ->
  exists fp, weight4_fp nan_int w = Some fp /\ tshape fp = tshape w /\
    forall r c, (r < o)%nat -> (c < i)%nat ->
      exists c', (c' < i)%nat /\ Rabs (tget w [r; c] - tget fp [r; c]) <= Rabs (tget w [r; c']) / 15.
Proof. exact weight4_ok. Qed.
Print Assumptions C49_weight4_error.
Example C49_weight4_case : forall nan_int, exists fp, weight4_fp nan_int (mkT [1; 2]%nat (fun idx => INR (nth 1 idx 0%nat))) = Some fp.
Proof. intro nan_int. destruct (weight4_ok nan_int (mkT [1; 2]%nat (fun idx => INR (nth 1 idx 0%nat))) 1 2 eq_refl) as (fp & H & _); [lia|lia|reflexivity|eauto]. Qed.

(** ** C50 *)
Theorem C50_compress : forall nan_int b mode t sc q, (1 <= b <= 8)%nat ->
  compress_int nan_int b mode t = Some (sc, q) ->
  tshape q = tshape t /\ tshape sc = scale_shape mode (tshape t) /\
  forall idx, valid (tshape t) idx ->
    let s := tget sc (scale_index mode idx) in
    compressed b s (tget t idx) (tget q idx) /\
    exists jdx, valid (tshape t) jdx /\ shares mode idx jdx /\ Rabs (tget t jdx) = s * steps mode b.
Proof. exact compress_int_ok. Qed.
Print Assumptions C50_compress.
Theorem C50_defined : forall nan_int b mode t, Forall (lt 0%nat) (tshape t) ->
  match mode with
  | CPerChannel => length (tshape t) = 2%nat
  | CPerToken => (2 <= length (tshape t) <= 3)%nat /\ (2 <= b)%nat
  | CPerTensor => (2 <= b)%nat
  end -> exists r, compress_int nan_int b mode t = Some r.
Proof. exact compress_int_defined. Qed.
Print Assumptions C50_defined.
(** the row (1, -2) with 8 bits, per token: scale 2/127 *)
Example C50_case : let t := mkT [1; 2]%nat (fun idx => nth (nth 1 idx 0%nat) [1; -2] 0) in
  exists sc q, compress_int 0 8 CPerToken t = Some (sc, q) /\ tget sc [0; 0]%nat = 2 / 127.
Proof.
  cbv zeta. do 2 eexists. split; [reflexivity|]. cbn [tget removelast].
  replace (row_absmax _ _) with 2; [reflexivity|].
  unfold row_absmax. cbn [tshape last seq map lmax fold_left tget app nth]. symmetry.
  rewrite (Rabs_right 1) by lra. rewrite (Rabs_left (-2)) by lra. rewrite Rmax_right by lra. lra.
Qed.

(** ** C51: one batch, no bias. *)
Theorem C51_dynamic_partial : forall nan_int w x o i lead n,
  tshape w = [o; i] -> tshape x = lead ++ [i] -> lead_ok lead n -> (0 < o)%nat -> (0 < i)%nat -> (0 < n)%nat ->
  exists l y xq wq, dyn_init nan_int w None = Some l /\ dyn_forward nan_int l x = Some y /\
    close 254 x xq /\ close 255 w wq /\ teq y (fc xq wq (fun _ => 0)).
Proof. exact dyn_forward_no_bias. Qed.
Print Assumptions C51_dynamic_partial.
(** with a bias: the result exactly; the bias is multiplied by both scales *)
Theorem C51_bias_value : forall nan_int w b x o i lead n,
  tshape w = [o; i] -> tshape x = lead ++ [i] -> lead_ok lead n -> (0 < o)%nat -> (0 < i)%nat -> (0 < n)%nat ->
  exists l y xq wq xs ws,
    dyn_init nan_int w b = Some l /\ dyn_forward nan_int l x = Some y /\
    close 254 x xq /\ step_of 127 x xs /\ close 255 w wq /\ step_of (255 / 2) w ws /\
    tshape y = lead ++ [o] /\
    forall pre k, valid (lead ++ [o]) (pre ++ [k]) ->
      tget y (pre ++ [k]) = tget (fc xq wq (fun _ => 0)) (pre ++ [k]) + bias_of b k * (ws [k] * xs pre).
Proof. exact dyn_forward_ok. Qed.
Print Assumptions C51_bias_value.
(** a 3x5 layer (padded to 8 columns) on an input of one batch and two rows *)
Example C51_case : forall nan_int (w x : tensor R), tshape w = [3; 5]%nat -> tshape x = [1; 2; 5]%nat ->
  exists l y, dyn_init nan_int w None = Some l /\ tshape (dl_weight l) = [3; 8]%nat /\ dyn_forward nan_int l x = Some y /\ tshape y = [1; 2; 3]%nat.
Proof.
  intros nan_int w x Hw Hx.
  destruct (dyn_forward_ok nan_int w None x 3 5 [1; 2]%nat 2 Hw Hx) as (l & y & _ & _ & _ & _ & H1 & H2 & _ & _ & _ & _ & H3 & _);
    [right; reflexivity|lia|lia|lia|].
  exists l, y. split; [exact H1|]. split; [|auto].
  unfold dyn_init, compress_int in H1. rewrite Hw in H1. cbn in H1. injection H1 as <-. cbn. reflexivity.
Qed.
Theorem C51_bias_refuted : forall nan_int, exists w x b l y,
  dyn_init nan_int w (Some b) = Some l /\ dyn_forward nan_int l x = Some y /\
  forall xq wq, close 254 x xq -> close 255 w wq -> ~ teq y (fc xq wq (fun k => nth k b 0)).
Proof. exact dyn_bias_refuted. Qed.
Print Assumptions C51_bias_refuted.
(** several batches: with several rows the layer raises, with one row the shape is wrong *)
Theorem C51_batch_refuted :
  (forall nan_int w b x o i m n l,
     tshape w = [o; i] -> tshape x = [m; n; i] -> (0 < o)%nat -> (0 < i)%nat -> (2 <= n)%nat -> (2 <= m)%nat ->
     dyn_init nan_int w b = Some l -> dyn_forward nan_int l x = None) /\
  (forall nan_int w b x o i m l,
     tshape w = [o; i] -> tshape x = [m; 1%nat; i] -> (0 < o)%nat -> (0 < i)%nat -> (2 <= m)%nat ->
     dyn_init nan_int w b = Some l -> exists y, dyn_forward nan_int l x = Some y /\ tshape y = [m; m; o]).
Proof. exact (conj dyn_batch_raises dyn_batch_shape). Qed.
Print Assumptions C51_batch_refuted.
