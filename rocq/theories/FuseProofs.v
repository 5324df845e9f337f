(** Proofs about batch-norm folding (FuseModel.v). *)
From Coq Require Import List Arith Bool Reals Lia Lra ZArith.
From Verif Require Import Tensor ConvSpec ChainModel FuseModel.
Import ListNotations.
Local Open Scope R_scope.

(* ------------------------------------------------------------------ *)
(** * Vocabulary of the statements *)

(** bias operand of a layer: absent, one value for all channels, or one per channel *)
Definition bias_fn (b : option (list R)) (o : nat) : R :=
  match b with
  | None => 0
  | Some l => if (length l =? 1)%nat then nth 0 l 0 else nth o l 0
  end.
Definition run_layer (l : layer) (act : activ) (x w : tensor R) (b : nat -> R) : tensor R :=
  tmap (act_fn act) (match l with
                     | LConv a => conv a x w b
                     | LDeconv a os => deconv a os x w b
                     | LFc => fc x w b
                     end).
Definition run_bn (p : bn_params) (act : activ) (y : tensor R) : tensor R :=
  tmap (act_fn act) (batch_norm (bn_eps p) (fun c => nth c (bn_w p) 0) (fun c => nth c (bn_b p) 0)
                                (fun c => nth c (bn_mean p) 0) (fun c => nth c (bn_var p) 0) y).
Definition bn_ok (c : nat) (p : bn_params) : Prop :=
  length (bn_w p) = c /\ length (bn_b p) = c /\ length (bn_mean p) = c /\ length (bn_var p) = c /\
  Forall (fun v => 0 < v + bn_eps p) (bn_var p).
Definition bias_ok (c : nat) (b : option (list R)) : Prop :=
  match b with None => True | Some l => length l = c \/ length l = 1%nat end.
(** channels of the layer's output *)
Definition layer_channels (l : layer) (w : tensor R) : nat :=
  match l with LDeconv a _ => (nth 1 (tshape w) 0 * ca_groups a)%nat | _ => nth 0 (tshape w) 0%nat end.

(* ------------------------------------------------------------------ *)
(** * numpy helpers *)

Lemma bdim_same n : bdim n n = Some n.
Proof. unfold bdim. now rewrite Nat.eqb_refl. Qed.

Lemma nth_map_seq {A} (f : nat -> A) n i d : (i < n)%nat -> nth i (map f (seq 0 n)) d = f i.
Proof.
  intro H. rewrite nth_indep with (d' := f 0%nat) by (rewrite map_length, seq_length; lia).
  rewrite map_nth, seq_nth by lia. reflexivity.
Qed.

Lemma arr2_same f a b n : length a = n -> length b = n ->
  exists r, arr2 f a b = Some r /\ length r = n /\ forall i, (i < n)%nat -> nth i r 0 = f (nth i a 0) (nth i b 0).
Proof.
  intros Ha Hb. unfold arr2. rewrite Ha, Hb, bdim_same. eexists. split; [reflexivity|].
  split; [now rewrite map_length, seq_length|]. intros i Hi. rewrite nth_map_seq by auto.
  destruct (Nat.eqb_spec n 1); [|reflexivity]. replace i with 0%nat by lia. reflexivity.
Qed.

Lemma mul_axis_same ax v w : (ax < length (tshape w))%nat -> length v = nth ax (tshape w) 0%nat ->
  exists w', mul_axis ax v w = Some w' /\ tshape w' = tshape w /\
    forall idx, valid (tshape w) idx -> tget w' idx = tget w idx * nth (nth ax idx 0%nat) v 0.
Proof.
  intros Hax Hv. unfold mul_axis. rewrite Hv, bdim_same. eexists. split; [reflexivity|].
  split; [cbn; apply upd_same; auto|]. intros idx V. cbn [tget].
  pose proof (valid_nth _ _ ax V Hax) as H. pose proof (valid_length _ _ V) as HL.
  destruct (Nat.eqb_spec (nth ax (tshape w) 0%nat) 1) as [E|E].
  - assert (nth ax idx 0%nat = 0%nat) as E0 by lia. rewrite E0.
    rewrite <- E0 at 1. rewrite upd_same by lia. reflexivity.
  - rewrite upd_same by lia. reflexivity.
Qed.

Lemma bn_inv_length e v : length (bn_inv e v) = length v.
Proof. apply map_length. Qed.
Lemma bn_inv_nth e v i : (i < length v)%nat -> nth i (bn_inv e v) 0 = 1 / sqrt (nth i v 0 + e).
Proof.
  intro H. unfold bn_inv. rewrite nth_indep with (d' := (fun x => 1 / sqrt (x + e)) 0) by (rewrite map_length; auto).
  apply (map_nth (fun x => 1 / sqrt (x + e))).
Qed.
Lemma sqrt_ne x : 0 < x -> sqrt x <> 0.
Proof. intros H E. pose proof (sqrt_lt_R0 x H). lra. Qed.

Lemma repeat_nth {A} (a : A) n i d : (i < n)%nat -> nth i (repeat a n) d = a.
Proof. revert i. induction n; simpl; intros [|i] H; try lia; auto. apply IHn; lia. Qed.

Lemma repeat_bias_ok n l : (length l = n \/ length l = 1%nat) ->
  length (repeat_bias n l) = n /\ forall i, (i < n)%nat -> nth i (repeat_bias n l) 0 = bias_fn (Some l) i.
Proof.
  intro H. unfold repeat_bias, bias_fn.
  destruct (Nat.eqb_spec (length l) n) as [E|E], (Nat.eqb_spec (length l) 1) as [E1|E1]; cbn [negb andb].
  - split; auto. intros i Hi. replace i with 0%nat by lia. reflexivity.
  - split; auto.
  - split; [apply repeat_length|]. intros; now apply repeat_nth.
  - lia.
Qed.

(* ------------------------------------------------------------------ *)
(** * Batch-norm after the layer *)

Lemma fuse_bn_weight_ok p c (w : tensor R) (tr : bool) : bn_ok c p ->
  ((if tr then 1 else 0) < length (tshape w))%nat -> nth (if tr then 1 else 0)%nat (tshape w) 0%nat = c ->
  exists w', fuse_bn_weight (bn_eps p) (bn_w p) (bn_var p) w tr = Some w' /\ tshape w' = tshape w /\
    forall idx, valid (tshape w) idx ->
      let o := nth (if tr then 1 else 0)%nat idx 0%nat in
      tget w' idx = tget w idx * (nth o (bn_w p) 0 / sqrt (nth o (bn_var p) 0 + bn_eps p)).
Proof.
  intros (H1 & H2 & H3 & H4 & H5) Hax Hc. unfold fuse_bn_weight.
  destruct (arr2_same Rmult (bn_w p) (bn_inv (bn_eps p) (bn_var p)) c) as (s & -> & Ls & Hs); auto.
  { now rewrite bn_inv_length. }
  cbn [obind]. destruct (mul_axis_same _ s w Hax) as (w' & -> & Sw & Hw); [congruence|].
  exists w'. split; [reflexivity|]. split; [exact Sw|]. intros idx V. cbv zeta.
  rewrite Hw by exact V. pose proof (valid_nth _ _ _ V Hax) as Ho.
  rewrite Hs by lia. rewrite bn_inv_nth by lia. unfold Rdiv. ring.
Qed.

Lemma bn_ok_pos p c o : bn_ok c p -> (o < c)%nat -> 0 < nth o (bn_var p) 0 + bn_eps p.
Proof.
  intros (H1 & H2 & H3 & H4 & H5) Ho. rewrite Forall_forall in H5. apply H5. apply nth_In. lia.
Qed.

Lemma fuse_bn_bias_ok p c b : bn_ok c p -> bias_ok c b ->
  exists b', fuse_bn_bias (bn_eps p) (bn_w p) (bn_var p) (bn_mean p) (bn_b p) b = Some b' /\ length b' = c /\
    forall o, (o < c)%nat ->
      nth o b' 0 = bn_affine (bn_eps p) (nth o (bn_w p) 0) (nth o (bn_b p) 0) (nth o (bn_mean p) 0)
                             (nth o (bn_var p) 0) (bias_fn b o).
Proof.
  intros Hp Hb. pose proof Hp as (H1 & H2 & H3 & H4 & H5). unfold fuse_bn_bias.
  assert (exists d, match b with
                    | Some b => arr2 Rminus (repeat_bias (length (bn_mean p)) b) (bn_mean p)
                    | None => Some (map Ropp (bn_mean p)) end = Some d /\ length d = c /\
           forall o, (o < c)%nat -> nth o d 0 = bias_fn b o - nth o (bn_mean p) 0) as (d & -> & Ld & Hd).
  { destruct b as [l|].
    - rewrite H3. destruct (repeat_bias_ok c l Hb) as [L1 L2].
      destruct (arr2_same Rminus (repeat_bias c l) (bn_mean p) c) as (d & E & Ld & Hd); auto.
      exists d. split; [exact E|]. split; auto. intros o Ho. rewrite Hd by auto. now rewrite L2.
    - eexists. split; [reflexivity|]. split; [now rewrite map_length|]. intros o Ho.
      rewrite nth_indep with (d' := Ropp 0) by (rewrite map_length; lia). rewrite map_nth. unfold bias_fn. ring. }
  cbn [obind].
  destruct (arr2_same Rmult d (bn_inv (bn_eps p) (bn_var p)) c) as (e & -> & Le & He); auto.
  { now rewrite bn_inv_length. }
  cbn [obind]. destruct (arr2_same Rmult e (bn_w p) c) as (f & -> & Lf & Hf); auto.
  cbn [obind]. destruct (arr2_same Rplus f (bn_b p) c) as (g & -> & Lg & Hg); auto.
  exists g. split; [reflexivity|]. split; auto. intros o Ho.
  rewrite Hg, Hf, He, Hd by auto. rewrite bn_inv_nth by lia. unfold bn_affine, Rdiv. ring.
Qed.

Lemma bias_fn_full c b o : length b = c -> (o < c)%nat -> bias_fn (Some b) o = nth o b 0.
Proof.
  intros H Ho. unfold bias_fn. destruct (Nat.eqb_spec (length b) 1); auto. now replace o with 0%nat by lia.
Qed.

(** scaling the weights of an output channel scales the layer *)
Lemma conv_affine a x w w' (b b' : nat -> R) (f : nat -> R) idx :
  (2 <= length (tshape w))%nat -> tshape w' = tshape w ->
  (forall o i k, valid (tshape w) (o :: i :: k) -> tget w' (o :: i :: k) = tget w (o :: i :: k) * f o) ->
  valid (tshape (conv a x w b)) idx ->
  tget (conv a x w' b') idx = (tget (conv a x w b) idx - b (nth 1 idx 0%nat)) * f (nth 1 idx 0%nat) + b' (nth 1 idx 0%nat).
Proof.
  intros Hr Hs Hw V. unfold conv in *. cbn [tshape] in V. rewrite Hs. cbn [tget].
  destruct (tshape w) as [|co [|ip ks]] eqn:Esh; simpl in Hr; try lia. cbn [nth skipn] in *.
  inversion V as [|n ? idx' ? Hn V']; subst. inversion V' as [|o ? pos ? Ho V'']; subst. cbn [nth].
  match goal with |- _ + ?A = (_ + ?B - _) * _ + _ => assert (A = B * f o) as -> end; [|ring].
  rewrite <- lsum_scal_r. apply lsum_ext. intros i Hi. rewrite <- lsum_scal_r. apply lsum_ext. intros k Hk.
  apply in_seq in Hi. apply indices_valid in Hk.
  rewrite Hw; [ring|]. constructor; [exact Ho|]. constructor; [lia|exact Hk].
Qed.

Lemma deconv_affine a os x w w' (b b' : nat -> R) (f : nat -> R) idx :
  (2 <= length (tshape w))%nat -> tshape w' = tshape w -> ca_groups a = 1%nat ->
  (forall i o k, valid (tshape w) (i :: o :: k) -> tget w' (i :: o :: k) = tget w (i :: o :: k) * f o) ->
  valid (tshape (deconv a os x w b)) idx ->
  tget (deconv a os x w' b') idx = (tget (deconv a os x w b) idx - b (nth 1 idx 0%nat)) * f (nth 1 idx 0%nat) + b' (nth 1 idx 0%nat).
Proof.
  intros Hr Hs Hg Hw V. unfold deconv in *. cbn [tshape] in V. rewrite Hs. cbn [tget]. rewrite Hg in *.
  destruct (tshape w) as [|ci [|op ks]] eqn:Esh; simpl in Hr; try lia. cbn [nth skipn] in *.
  inversion V as [|n ? idx' ? Hn V']; subst. inversion V' as [|o ? pos ? Ho V'']; subst. cbn [nth].
  rewrite Nat.mul_1_r in Ho. rewrite (Nat.div_small o op) by exact Ho. rewrite (Nat.mod_small o op) by exact Ho.
  rewrite Nat.div_1_r. cbn [Nat.mul Nat.add].
  match goal with |- _ + ?A = (_ + ?B - _) * _ + _ => assert (A = B * f o) as -> end; [|ring].
  rewrite <- lsum_scal_r. apply lsum_ext. intros i Hi. rewrite <- lsum_scal_r. apply lsum_ext. intros k Hk.
  rewrite <- lsum_scal_r. apply lsum_ext. intros q Hq.
  apply in_seq in Hi. apply indices_valid in Hk. destruct (hits _ _ _ _ _ _); [|ring].
  rewrite Hw; [ring|]. constructor; [lia|]. constructor; [exact Ho|exact Hk].
Qed.

Lemma fc_affine x w w' (b b' : nat -> R) (f : nat -> R) idx :
  length (tshape w) = 2%nat -> tshape w' = tshape w -> length (tshape x) = 2%nat ->
  (forall o i, valid (tshape w) [o; i] -> tget w' [o; i] = tget w [o; i] * f o) ->
  valid (tshape (fc x w b)) idx ->
  tget (fc x w' b') idx = (tget (fc x w b) idx - b (nth 1 idx 0%nat)) * f (nth 1 idx 0%nat) + b' (nth 1 idx 0%nat).
Proof.
  intros Hr Hs Hx Hw V. unfold fc in *. cbn [tshape] in V. rewrite Hs. cbn [tget].
  destruct (tshape w) as [|co [|ip [|]]] eqn:Esh; simpl in Hr; try lia. cbn [nth] in *.
  destruct (tshape x) as [|n0 [|c0 [|]]] eqn:Ex; simpl in Hx; try lia. cbn [removelast app] in V.
  inversion V as [|n ? idx' ? Hn V']; subst. inversion V' as [|o ? pos ? Ho V'']; subst. inversion V''; subst.
  cbn [nth last removelast].
  match goal with |- _ + ?A = (_ + ?B - _) * _ + _ => assert (A = B * f o) as -> end; [|ring].
  rewrite <- lsum_scal_r. apply lsum_ext. intros i Hi. apply in_seq in Hi.
  rewrite Hw; [ring|]. constructor; [exact Ho|]. constructor; [lia|constructor].
Qed.

Lemma bn_fused_act_none a : bn_fused_act ANone a = a.
Proof. destruct a; reflexivity. Qed.

(** where the fold is exact *)
Definition fold_domain (l : layer) (x w : tensor R) : Prop :=
  match l with
  | LConv _ => (2 <= length (tshape w))%nat
  | LDeconv a _ => (2 <= length (tshape w))%nat /\ ca_groups a = 1%nat
  | LFc => length (tshape w) = 2%nat /\ length (tshape x) = 2%nat
  end.

Lemma valid_channel l x w b c idx : fold_domain l x w -> layer_channels l w = c ->
  valid (tshape (run_layer l ANone x w b)) idx -> (nth 1 idx 0 < c)%nat.
Proof.
  intros D <- V. unfold run_layer, tmap in V. cbn [tshape] in V. destruct l; cbn [fold_domain layer_channels] in *.
  - apply (valid_nth _ _ 1) in V; [exact V|cbn; lia].
  - apply (valid_nth _ _ 1) in V; [exact V|cbn; lia].
  - unfold fc in V. cbn [tshape] in V. destruct D as [_ D].
    destruct (tshape x) as [|n0 [|c0 [|]]]; simpl in D; try lia.
    apply (valid_nth _ _ 1) in V; [exact V|cbn; lia].
Qed.

Lemma fuse_conv_bn_correct l x w b bn_act p : 
  fold_domain l x w -> bn_ok (layer_channels l w) p -> bias_ok (layer_channels l w) b ->
  exists w' b' act',
    fuse_conv_fc_bn l w b ANone bn_act p = Some (Some (w', b', act')) /\
    tshape w' = tshape w /\ length b' = layer_channels l w /\
    teq (run_layer l act' x w' (bias_fn (Some b'))) (run_bn p bn_act (run_layer l ANone x w (bias_fn b))).
Proof.
  intros D Hp Hb. set (c := layer_channels l w) in *.
  assert (bn_fusable ANone bn_act = true) as Hf by (destruct bn_act; reflexivity).
  unfold fuse_conv_fc_bn. rewrite Hf.
  destruct (fuse_bn_weight_ok p c w (is_deconv l) Hp) as (w' & E1 & Sw & Hw).
  { destruct l; cbn in *; [lia|lia|lia]. }
  { unfold c. destruct l; cbn in *; auto. destruct D as [_ D]. rewrite D. lia. }
  destruct (fuse_bn_bias_ok p c b Hp Hb) as (b' & E2 & Lb & Hb').
  rewrite E1, E2. cbn [obind]. exists w', b', bn_act. rewrite bn_fused_act_none.
  split; [reflexivity|]. split; [exact Sw|]. split; [exact Lb|].
  set (f := fun o => nth o (bn_w p) 0 / sqrt (nth o (bn_var p) 0 + bn_eps p)) in *.
  assert (forall idx, valid (tshape (run_layer l ANone x w (bias_fn b))) idx ->
     tget (run_layer l ANone x w' (bias_fn (Some b'))) idx =
     (tget (run_layer l ANone x w (bias_fn b)) idx - bias_fn b (nth 1 idx 0%nat)) * f (nth 1 idx 0%nat)
     + bias_fn (Some b') (nth 1 idx 0%nat)) as Haff.
  { intros idx V. unfold run_layer, tmap in V |- *. cbn [tget tshape act_fn] in *. destruct l; cbn [is_deconv] in Hw.
    - apply conv_affine; auto. intros o i k Vk. apply (Hw _ Vk).
    - destruct D. apply deconv_affine; auto. intros i o k Vk. apply (Hw _ Vk).
    - destruct D. apply fc_affine; auto. intros o i Vk. apply (Hw _ Vk). }
  split.
  - unfold run_bn, run_layer, tmap, batch_norm. cbn [tshape].
    destruct l; cbn [tshape conv deconv fc]; rewrite ?Sw; reflexivity.
  - intros idx V.
    assert (valid (tshape (run_layer l ANone x w (bias_fn b))) idx) as V'.
    { unfold run_layer, tmap in V |- *. cbn [tshape] in *. destruct l; cbn [tshape conv deconv fc] in *; rewrite ?Sw in V; exact V. }
    change (act_fn bn_act (tget (run_layer l ANone x w' (bias_fn (Some b'))) idx) =
            tget (run_bn p bn_act (run_layer l ANone x w (bias_fn b))) idx).
    unfold run_bn, tmap, batch_norm. cbn [tget]. f_equal. rewrite Haff by exact V'.
    set (o := nth 1 idx 0%nat). pose proof (valid_channel _ _ _ _ c _ D eq_refl V') as Ho. fold o in Ho.
    rewrite (bias_fn_full c) by auto. rewrite Hb' by auto. unfold bn_affine, f.
    pose proof (sqrt_ne _ (bn_ok_pos _ _ _ Hp Ho)). field. auto.
Qed.

(** ** Where the fold is wrong *)

Definition bn_unit (w b : list R) : bn_params := mkBn 0 w b (map (fun _ => 0) w) (map (fun _ => 1) w).
Lemma bn_unit_ok w b : length b = length w -> bn_ok (length w) (bn_unit w b).
Proof.
  intro H. unfold bn_ok, bn_unit. cbn. rewrite !map_length. repeat split; auto.
  apply Forall_forall. intros v Hv. apply in_map_iff in Hv. destruct Hv as (? & <- & _). lra.
Qed.
Lemma sqrt_1_0 : sqrt (1 + 0) = 1.
Proof. rewrite Rplus_0_r. apply sqrt_1. Qed.

(** the layer has a ReLU of its own: it moves behind the batch-norm *)
Lemma fuse_conv_bn_relu_refuted :
  exists l x w b layer_act bn_act p w' b' act',
    fold_domain l x w /\ bn_ok (layer_channels l w) p /\ bias_ok (layer_channels l w) b /\
    fuse_conv_fc_bn l w b layer_act bn_act p = Some (Some (w', b', act')) /\
    ~ teq (run_layer l act' x w' (bias_fn (Some b'))) (run_bn p bn_act (run_layer l layer_act x w (bias_fn b))).
Proof.
  exists LFc, (mkT [1; 1]%nat (fun _ => 0)), (mkT [1; 1]%nat (fun _ => 1)), None, ARelu, ANone, (bn_unit [1] [-1]).
  eexists _, _, _. split; [cbn; auto|]. split; [apply (bn_unit_ok [1] [-1]); reflexivity|]. split; [exact I|].
  split; [reflexivity|]. intros [_ H]. specialize (H [0; 0]%nat).
  assert (valid [1; 1]%nat [0; 0]%nat) as V by (repeat constructor). specialize (H V). revert H.
  unfold run_layer, run_bn, tmap, batch_norm, fc, bn_affine. cbn [tget tshape nth last removelast act_fn bias_fn].
  cbn [bn_fused_act activ_eqb negb andb act_fn length Nat.eqb map seq bn_unit bn_eps bn_w bn_b bn_mean bn_var nth bn_inv].
  unfold lsum. cbn. rewrite sqrt_1_0. unfold Rmax. repeat destruct Rle_dec; lra.
Qed.

(** grouped transposed convolution: the weight's axis 1 counts channels per group *)
Lemma fuse_deconv_group_refuted :
  exists a os x w p w' b' act',
    ca_groups a = 2%nat /\ bn_ok (layer_channels (LDeconv a os) w) p /\
    fuse_conv_fc_bn (LDeconv a os) w None ANone ANone p = Some (Some (w', b', act')) /\
    tshape w' <> tshape w /\
    ~ teq (run_layer (LDeconv a os) act' x w' (bias_fn (Some b'))) (run_bn p ANone (run_layer (LDeconv a os) ANone x w (bias_fn None))).
Proof.
  exists (mkCA [1] [1] [0] [0] 2)%nat, [1]%nat, (mkT [1; 2; 1]%nat (fun _ => 1)), (mkT [2; 1; 1]%nat (fun _ => 1)), (bn_unit [2; 3] [0; 0]).
  eexists _, _, _. split; [reflexivity|]. split; [apply (bn_unit_ok [2; 3] [0; 0]); reflexivity|].
  split; [reflexivity|]. split; [discriminate|]. intros [H _]. discriminate H.
Qed.

(** fully connected layer on a 3-D operand: the batch-norm's channel axis 1 is not the layer's output axis *)
Lemma fuse_fc_3d_refuted :
  exists x w p w' b' act',
    tshape x = [1; 2; 2]%nat /\ tshape w = [2; 2]%nat /\
    bn_ok (nth 1 (tshape (run_layer LFc ANone x w (bias_fn None))) 0%nat) p /\
    fuse_conv_fc_bn LFc w None ANone ANone p = Some (Some (w', b', act')) /\
    ~ teq (run_layer LFc act' x w' (bias_fn (Some b'))) (run_bn p ANone (run_layer LFc ANone x w (bias_fn None))).
Proof.
  exists (mkT [1; 2; 2]%nat (fun _ => 1)), (mkT [2; 2]%nat (fun _ => 1)), (bn_unit [2; 3] [0; 0]).
  eexists _, _, _. split; [reflexivity|]. split; [reflexivity|].
  split; [apply (bn_unit_ok [2; 3] [0; 0]); reflexivity|].
  split; [reflexivity|]. intros [_ H]. specialize (H [0; 1; 0]%nat).
  assert (valid [1; 2; 2]%nat [0; 1; 0]%nat) as V by (repeat constructor). specialize (H V). revert H.
  unfold run_layer, run_bn, tmap, batch_norm, fc, bn_affine. cbn -[Rplus Rmult sqrt Rdiv Rminus].
  unfold lsum. cbn -[Rplus Rmult sqrt Rdiv Rminus]. rewrite sqrt_1_0. lra.
Qed.

(** and when the two sizes differ numpy raises *)
Lemma fuse_fc_3d_raises :
  exists x w p,
    bn_ok (nth 1 (tshape (run_layer LFc ANone x w (bias_fn None))) 0%nat) p /\
    fuse_conv_fc_bn LFc w None ANone ANone p = None.
Proof.
  exists (mkT [1; 3; 2]%nat (fun _ => 1)), (mkT [2; 2]%nat (fun _ => 1)), (bn_unit [2; 3; 4] [0; 0; 0]).
  split; [apply (bn_unit_ok [2; 3; 4] [0; 0; 0]); reflexivity|]. reflexivity.
Qed.

(* ------------------------------------------------------------------ *)
(** * Batch-norm before the convolution *)

(** shapes of a grouped convolution *)
Definition conv_ok (a : conv_attr) (x w : tensor R) : Prop :=
  (2 <= length (tshape w))%nat /\ length (tshape x) = length (tshape w) /\
  (0 < ca_groups a)%nat /\ (0 < nth 0 (tshape w) 0)%nat /\ (0 < nth 1 (tshape w) 0)%nat /\
  (nth 0 (tshape w) 0 mod ca_groups a = 0)%nat /\ (nth 1 (tshape x) 0 = nth 1 (tshape w) 0 * ca_groups a)%nat.
(** no padding, positive strides, kernel no larger than the operand *)
Fixpoint no_pad (dims stride dil pb pe ks : list nat) : Prop :=
  match dims, stride, dil, pb, pe, ks with
  | d :: dims', s :: stride', l :: dil', a :: pb', b :: pe', k :: ks' =>
      (a = 0 /\ b = 0 /\ 0 < s /\ 0 < k /\ l * (k - 1) + 1 <= d)%nat /\ no_pad dims' stride' dil' pb' pe' ks'
  | [], [], [], [], [], [] => True
  | _, _, _, _, _, _ => False
  end.

Lemma no_pad_tap dims stride dil pb pe ks pos k :
  no_pad dims stride dil pb pe ks -> valid (out_dims dims stride dil pb pe ks) pos -> valid ks k ->
  exists q, tap dims stride dil pb pos k = Some q /\ valid dims q.
Proof.
  revert stride dil pb pe ks pos k. induction dims as [|d dims IH]; intros [|s stride] [|l dil] [|a pb] [|b pe] [|k0 ks] pos k H V Vk;
    simpl in H; try contradiction.
  - exists []. split; [destruct pos, k; reflexivity|constructor].
  - destruct H as ((-> & -> & Hs & Hk & Hd) & H). cbn [out_dims] in V.
    inversion V as [|o ? pos' ? Ho V']; subst. inversion Vk as [|t ? k' ? Ht Vk']; subst.
    destruct (IH _ _ _ _ _ _ _ H V' Vk') as (q & E & Vq). cbn [tap]. rewrite E.
    assert (o * s + t * l < d)%nat as L.
    { unfold out_dim in Ho. assert (o * s <= d - (l * (k0 - 1) + 1))%nat.
      { assert (o <= (d + 0 + 0 - (l * (k0 - 1) + 1)) / s)%nat as Ho' by lia.
        pose proof (Nat.mul_div_le (d + 0 + 0 - (l * (k0 - 1) + 1)) s) as M. nia. }
      assert (t * l <= l * (k0 - 1))%nat by nia. lia. }
    replace (o * s + t * l - 0)%nat with (o * s + t * l)%nat by lia.
    destruct (Nat.ltb_spec (o * s + t * l) d); [|lia]. cbn. eexists. split; [reflexivity|]. constructor; auto.
Qed.

Lemma bdim_inv a b n : bdim a b = Some n -> a = b \/ a = 1%nat \/ b = 1%nat.
Proof.
  unfold bdim. destruct (Nat.eqb_spec a b), (Nat.eqb_spec a 1), (Nat.eqb_spec b 1); auto. discriminate.
Qed.

Lemma obind_some {A B} (o : option A) (f : A -> option B) b : obind o f = Some b -> exists a, o = Some a /\ f a = Some b.
Proof. destruct o; cbn; [eauto|discriminate]. Qed.

Lemma rev_fold_ok a x w b bn_act p w' b' quant :
  conv_ok a x w -> bn_ok (nth 1 (tshape x) 0%nat) p ->
  (match b with None => True | Some l => length l = nth 0 (tshape w) 0%nat end) ->
  no_pad (skipn 2 (tshape x)) (ca_stride a) (ca_dil a) (ca_pad a) (ca_pad_end a) (skipn 2 (tshape w)) ->
  fuse_bn_conv quant (ca_groups a) w b bn_act p = Some (Some (w', b')) ->
  tshape w' = tshape w /\
  ((b = None \/ nth 0 (tshape w) 0 <> 1 \/ nth 1 (tshape x) 0 = 1)%nat -> length b' = nth 0 (tshape w) 0%nat) /\
  teq (conv a x w' (fun o => nth o b' 0)) (conv a (run_bn p bn_act x) w (bias_fn b)).
Proof.
  intros (R1 & R2 & Hg & Hco & Hip & Hmod & Hcin) Hp Hb Hnp HF.
  pose proof Hp as (P1 & P2 & P3 & P4 & P5).
  unfold fuse_bn_conv in HF. destruct bn_act; cbn [activ_eqb] in HF; try discriminate.
  destruct quant; cbn [orb] in HF; [discriminate|].
  set (cin := nth 1 (tshape x) 0%nat) in *. set (cout := nth 0 (tshape w) 0%nat) in *.
  set (ipg := nth 1 (tshape w) 0%nat) in *.
  destruct ((ipg =? 1)%nat && (cout =? ca_groups a)%nat && (1 <? ca_groups a)%nat) eqn:Eskip; [discriminate|].
  apply obind_some in HF. destruct HF as (w0 & EW & HF).
  apply obind_some in HF. destruct HF as (b0 & EB & HF). injection HF as -> ->.
  unfold fuse_rev_bn_weight in EW.
  destruct (arr2_same Rmult (bn_w p) (bn_inv (bn_eps p) (bn_var p)) cin) as (s & Es & Ls & Hs); auto.
  { now rewrite bn_inv_length. }
  rewrite Es in EW. cbn [obind] in EW.
  unfold fuse_rev_bn_bias in EB. fold cout ipg in EB.
  destruct (arr2_same Rmult (bn_mean p) (bn_inv (bn_eps p) (bn_var p)) cin) as (m1 & Em1 & Lm1 & Hm1); auto.
  { now rewrite bn_inv_length. }
  rewrite Em1 in EB. cbn [obind] in EB.
  destruct (arr2_same Rmult m1 (bn_w p) cin) as (m2 & Em2 & Lm2 & Hm2); auto.
  rewrite Em2 in EB. cbn [obind] in EB.
  destruct (arr2_same Rminus (bn_b p) m2 cin) as (fb & Ef & Lf & Hf); auto.
  rewrite Ef in EB. cbn [obind] in EB.
  rewrite Lf, P3 in EB.
  (* the number of groups is one *)
  assert (ipg = cin) as Hic.
  { assert (ipg = cin \/ ipg = 1%nat \/ cin = 1%nat) as [E|[E|E]]; auto.
    - unfold mul_axis in EW. fold ipg in EW. rewrite Ls in EW. destruct (bdim ipg cin) eqn:Eb; [|discriminate].
      eapply bdim_inv; eauto.
    - destruct (Nat.eq_dec cin 1) as [E1|E1]; [congruence|]. exfalso.
      assert (cin = ca_groups a) as Ecg by nia.
      rewrite E in EB. cbn [Nat.eqb] in EB. destruct (Nat.ltb_spec 1 cin) as [L|L]; [|nia]. cbn [andb] in EB.
      apply obind_some in EB. destruct EB as (off & Eo & _). unfold arr2 in Eo.
      rewrite map_length, seq_length, Lf in Eo. destruct (bdim cout cin) eqn:Eb; [|discriminate].
      rewrite E in Eskip. cbn [Nat.eqb andb] in Eskip.
      destruct (Nat.ltb_spec 1 (ca_groups a)); [|lia]. rewrite andb_true_r in Eskip. apply Nat.eqb_neq in Eskip.
      apply bdim_inv in Eb. apply Nat.mod_divides in Hmod; [|lia]. destruct Hmod as [c Hc].
      destruct Eb as [Eb|[Eb|Eb]]; [congruence| |congruence].
      rewrite Eb in Hc. destruct c; nia.
    - nia. }
  assert (ca_groups a = 1%nat) as G1 by nia.
  destruct (mul_axis_same 1 s w) as (w1 & Ew1 & Sw & Hw); [lia|fold ipg; congruence|].
  rewrite Ew1 in EW. injection EW as ->.
  split; [exact Sw|].
  (* the offset *)
  set (off := fun o => lsum (seq 0 ipg) (fun i => wsum w o i * nth i fb 0)) in *.
  assert (exists l, (if (ipg =? 1)%nat && (1 <? cin)%nat
                     then arr2 Rmult (map (fun o => wsum w o 0) (seq 0 cout)) fb
                     else if (ipg =? cin)%nat then Some (map off (seq 0 cout)) else None) = Some l /\
                    l = map off (seq 0 cout)) as (ol & Eol & Eoff).
  { rewrite Hic. destruct (Nat.eqb_spec cin 1) as [E|E].
    - rewrite E. cbn. eauto.
    - cbn [andb]. rewrite Nat.eqb_refl. eauto. }
  rewrite Eol in EB. cbn [obind] in EB. subst ol.
  assert (((b = None \/ cout <> 1 \/ cin = 1)%nat -> length b' = cout) /\
          forall o, (o < cout)%nat -> nth o b' 0 = bias_fn b o + off o) as [Lb Hb'].
  { destruct b as [l|].
    - unfold arr2 in EB. rewrite map_length, seq_length in EB.
      destruct (bdim (length (repeat_bias cin l)) cout) as [n|] eqn:Eb; [|discriminate]. injection EB as <-.
      rewrite map_length, seq_length.
      unfold repeat_bias in Eb |- *. destruct (Nat.eqb_spec (length l) cin) as [E|E]; cbn [negb andb] in *.
      + rewrite Hb, bdim_same in Eb. injection Eb as <-. split; [auto|]. intros o Ho.
        rewrite nth_map_seq by auto. rewrite Hb. unfold bias_fn. rewrite Hb.
        destruct (Nat.eqb_spec cout 1) as [E1|E1].
        * replace o with 0%nat by lia. rewrite nth_map_seq by lia. reflexivity.
        * rewrite nth_map_seq by lia. reflexivity.
      + destruct (Nat.eqb_spec (length l) 1) as [E1|E1].
        * rewrite repeat_length in Eb |- *. assert (cout = 1%nat) as C1 by congruence.
          split; [intros [|[|]]; [discriminate|lia|congruence]|].
          intros o Ho. replace o with 0%nat by lia. rewrite C1 in Eb. unfold bdim in Eb.
          assert (0 < cin)%nat as Hc0 by nia.
          assert (0 < n)%nat by (destruct (cin =? 1)%nat; cbn [Nat.eqb] in Eb; injection Eb as Ei; rewrite <- Ei; exact Hc0).
          rewrite nth_map_seq by auto. rewrite C1. cbn [Nat.eqb]. rewrite nth_map_seq by lia.
          unfold bias_fn. rewrite E1. cbn [Nat.eqb]. f_equal.
          destruct (cin =? 1)%nat; apply repeat_nth; lia.
        * rewrite Hb, bdim_same in Eb. injection Eb as <-. split; [auto|]. intros o Ho.
          rewrite nth_map_seq by auto. rewrite Hb. unfold bias_fn. rewrite Hb.
          destruct (Nat.eqb_spec cout 1) as [E2|E2]; [congruence|]. rewrite nth_map_seq by lia. reflexivity.
    - injection EB as <-. rewrite map_length, seq_length. split; [auto|]. intros o Ho. rewrite nth_map_seq by auto.
      unfold bias_fn. ring. }
  split; [exact Lb|].
  split.
  - unfold conv. cbn [tshape]. rewrite Sw. reflexivity.
  - intros idx V. unfold conv in V |- *. cbn [tshape tget] in *. rewrite Sw in *. fold cout ipg in V |- *.
    change (tshape (run_bn p ANone x)) with (tshape x). rewrite G1. rewrite Nat.div_1_r.
    inversion V as [|n ? idx' ? Hn V']; subst idx. inversion V' as [|o ? pos ? Ho Vp]; subst idx'.
    rewrite Hb' by exact Ho. rewrite (Nat.div_small o cout) by exact Ho. cbn [Nat.mul Nat.add].
    match goal with |- _ + ?a + ?b = _ + ?c => assert (a + b = c) end; [|lra].
    unfold off. rewrite <- lsum_plus. apply lsum_ext. intros i Hi. apply in_seq in Hi.
    unfold wsum. rewrite <- lsum_scal_r, <- lsum_plus. apply lsum_ext. intros k Hk. apply indices_valid in Hk.
    destruct (no_pad_tap _ _ _ _ _ _ pos k Hnp Vp Hk) as (q & Eq & Vq). rewrite Eq. cbn [read0].
    assert (valid (tshape w) (o :: i :: k)) as Vw.
    { unfold cout, ipg in *. destruct (tshape w) as [|? [|? ?]]; cbn in *; try lia.
      constructor; [exact Ho|]. constructor; [lia|exact Hk]. }
    rewrite Hw by exact Vw. cbn [nth]. rewrite Hs by lia. rewrite Hf by lia. rewrite Hm2, Hm1 by lia.
    rewrite !bn_inv_nth by lia.
    unfold run_bn, tmap, batch_norm. cbn [tget act_fn nth]. unfold bn_affine.
    assert (sqrt (nth i (bn_var p) 0 + bn_eps p) <> 0) by (apply sqrt_ne; eapply bn_ok_pos; eauto; lia).
    field. auto.
Qed.

(** zero padding reads zeros after the batch-norm but a shifted value after the fold *)
Lemma rev_fold_padding_refuted :
  exists a x w p w' b',
    conv_ok a x w /\ bn_ok (nth 1 (tshape x) 0%nat) p /\
    fuse_bn_conv false (ca_groups a) w None ANone p = Some (Some (w', b')) /\
    ~ teq (conv a x w' (bias_fn (Some b'))) (conv a (run_bn p ANone x) w (bias_fn None)).
Proof.
  exists (mkCA [1] [1] [1] [1] 1)%nat, (mkT [1; 1; 1]%nat (fun _ => 0)), (mkT [1; 1; 3]%nat (fun _ => 1)), (bn_unit [1] [1]).
  eexists _, _. split; [repeat split; cbn; lia|]. split; [apply (bn_unit_ok [1] [1]); reflexivity|].
  split; [reflexivity|]. intros [_ H]. specialize (H [0; 0; 0]%nat).
  assert (valid [1; 1; 1]%nat [0; 0; 0]%nat) as V by (repeat constructor). specialize (H V). revert H.
  unfold run_bn, tmap, batch_norm, conv, bn_affine, wsum. cbn -[Rplus Rmult sqrt Rdiv Rminus].
  unfold lsum. cbn -[Rplus Rmult sqrt Rdiv Rminus]. rewrite !sqrt_1_0. lra.
Qed.

(** one output channel and several input channels: the bias gets one entry per input channel *)
Lemma rev_fold_bias_refuted :
  exists a x w l p w' b',
    conv_ok a x w /\ bn_ok (nth 1 (tshape x) 0%nat) p /\ length l = nth 0 (tshape w) 0%nat /\
    no_pad (skipn 2 (tshape x)) (ca_stride a) (ca_dil a) (ca_pad a) (ca_pad_end a) (skipn 2 (tshape w)) /\
    fuse_bn_conv false (ca_groups a) w (Some l) ANone p = Some (Some (w', b')) /\
    length b' <> nth 0 (tshape w) 0%nat.
Proof.
  exists (mkCA [1] [1] [0] [0] 1)%nat, (mkT [1; 2; 1]%nat (fun _ => 0)), (mkT [1; 2; 1]%nat (fun _ => 1)), [0], (bn_unit [1; 1] [1; 1]).
  eexists _, _. split; [repeat split; cbn; lia|]. split; [apply (bn_unit_ok [1; 1] [1; 1]); reflexivity|].
  split; [reflexivity|]. split; [repeat split; cbn; lia|].
  split; [reflexivity|]. cbn. discriminate.
Qed.

(** depthwise convolution with several outputs per channel: numpy raises *)
Lemma rev_fold_multiplier_raises :
  exists a x w p,
    conv_ok a x w /\ bn_ok (nth 1 (tshape x) 0%nat) p /\ fuse_bn_conv false (ca_groups a) w None ANone p = None.
Proof.
  exists (mkCA [1] [1] [0] [0] 2)%nat, (mkT [1; 2; 1]%nat (fun _ => 0)), (mkT [4; 1; 1]%nat (fun _ => 1)), (bn_unit [1; 1] [1; 1]).
  split; [repeat split; cbn; lia|]. split; [apply (bn_unit_ok [1; 1] [1; 1]); reflexivity|]. reflexivity.
Qed.
