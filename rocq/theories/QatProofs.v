(** Proofs about the QAT module for a transposed convolution with batch normalisation (C98). *)
From Coq Require Import List Arith Bool Reals Lia Lra.
From Verif Require Import Tensor ConvSpec FuseModel FuseProofs EqModel QatSpec QatModel.
Import ListNotations.
Local Open Scope R_scope.

Definition good_scale (p : bn_params) : Prop := Forall (fun g => g <> 0) (bn_w p).
(** one group, [C] output channels *)
Definition qat_ok (C : nat) (a : conv_attr) (p : bn_params) (w : tensor R) (b : option (list R)) : Prop :=
  (2 <= length (tshape w))%nat /\ ca_groups a = 1%nat /\ nth 1 (tshape w) 0%nat = C /\ bn_ok C p /\
  match b with Some v => length v = C | None => True end.
Definition sc (p : bn_params) (c : nat) : R := nth c (bn_w p) 0 / sqrt (nth c (bn_var p) 0 + bn_eps p).

Lemma nth_map0 (f : R -> R) l i : (i < length l)%nat -> nth i (map f l) 0 = f (nth i l 0).
Proof. intro H. rewrite (nth_indep _ 0 (f 0)) by (now rewrite map_length). apply map_nth. Qed.
Lemma std_pos C p c : bn_ok C p -> (c < C)%nat -> 0 < sqrt (nth c (bn_var p) 0 + bn_eps p).
Proof. intros (_ & _ & _ & L & F) Hc. apply sqrt_lt_R0. rewrite Forall_forall in F. apply (F (nth c (bn_var p) 0)), nth_In. lia. Qed.
Lemma scale_ok C p : bn_ok C p -> exists s, scale_factor p = Some s /\ arr2 Rmult (bn_w p) (bn_inv (bn_eps p) (bn_var p)) = Some s /\
  length s = C /\ forall c, (c < C)%nat -> nth c s 0 = sc p c.
Proof.
  intros (P1 & P2 & P3 & P4 & P5). unfold scale_factor.
  destruct (arr2_same Rdiv (bn_w p) (map (fun v => sqrt (v + bn_eps p)) (bn_var p)) C P1) as (s & -> & Ls & Hs); [now rewrite map_length|].
  destruct (arr2_same Rmult (bn_w p) (bn_inv (bn_eps p) (bn_var p)) C P1) as (s' & -> & Ls' & Hs'); [unfold bn_inv; now rewrite map_length|].
  assert (forall c, (c < C)%nat -> nth c s 0 = sc p c) as Q.
  { intros c Hc. rewrite Hs by exact Hc. unfold sc. rewrite (nth_map0 (fun v => sqrt (v + bn_eps p))) by lia. reflexivity. }
  exists s. split; [reflexivity|]. split; [|split; [exact Ls|exact Q]]. f_equal. apply (nth_ext _ _ 0 0); [lia|].
  intros c Hc. rewrite Ls' in Hc. rewrite Q, Hs' by exact Hc. unfold bn_inv, sc.
  rewrite (nth_map0 (fun v => 1 / sqrt (v + bn_eps p))) by lia. unfold Rdiv. ring.
Qed.
Lemma sc_nonzero C p c : bn_ok C p -> good_scale p -> (c < C)%nat -> sc p c <> 0.
Proof.
  intros B G Hc E. pose proof (std_pos C p c B Hc) as S. unfold sc in E. unfold good_scale in G. rewrite Forall_forall in G.
  destruct B as (P1 & _). assert (nth c (bn_w p) 0 <> 0) as N by (apply G, nth_In; lia).
  apply N. replace (nth c (bn_w p) 0) with (nth c (bn_w p) 0 / sqrt (nth c (bn_var p) 0 + bn_eps p) * sqrt (nth c (bn_var p) 0 + bn_eps p)) by (field; lra).
  rewrite E. ring.
Qed.
Lemma div_ok C s y : length s = C -> nth 1 (tshape y) 0%nat = C -> (2 <= length (tshape y))%nat -> (forall c, (c < C)%nat -> nth c s 0 <> 0) ->
  exists t, div_channels s y = Some t /\ tshape t = tshape y /\ forall idx, valid (tshape y) idx -> tget t idx = tget y idx / nth (nth 1 idx 0%nat) s 0.
Proof.
  intros Ls Sy Hr Hn. unfold div_channels.
  replace (forallb _ s) with true.
  2:{ symmetry. apply forallb_forall. intros v Hv. destruct (In_nth s v 0 Hv) as (c & Hc & <-). destruct (Req_EM_T _ _) as [E|_]; [|reflexivity]. destruct (Hn c); [lia|exact E]. }
  destruct (mul_axis_same 1 (map Rinv s) y) as (t & -> & St & Ht); [lia|rewrite map_length; lia|].
  exists t. split; [reflexivity|]. split; [exact St|]. intros idx V. rewrite Ht by exact V.
  rewrite nth_map0; [reflexivity|]. rewrite Ls, <- Sy. apply (valid_nth _ _ 1 V). lia.
Qed.
Lemma add_ok C v y : length v = C -> nth 1 (tshape y) 0%nat = C -> (2 <= length (tshape y))%nat ->
  exists t, add_channels v y = Some t /\ tshape t = tshape y /\ forall idx, valid (tshape y) idx -> tget t idx = tget y idx + nth (nth 1 idx 0%nat) v 0.
Proof.
  intros Lv Sy Hr. unfold add_channels. rewrite Lv, Sy, bdim_same. eexists. split; [reflexivity|].
  assert (upd (tshape y) 1 C = tshape y) as E by (rewrite <- Sy; apply upd_same; lia). cbn [tshape tget]. rewrite E. split; [reflexivity|].
  intros idx V. pose proof (valid_length _ _ V) as L. assert (nth 1 idx 0 < C)%nat as H1 by (rewrite <- Sy; apply (valid_nth _ _ 1 V); lia).
  destruct (Nat.eqb_spec C 1) as [E1|E1].
  - assert (nth 1 idx 0%nat = 0%nat) as E0 by lia. assert (upd idx 1 0 = idx) as -> by (transitivity (upd idx 1 (nth 1 idx 0%nat)); [now rewrite E0 | apply upd_same; lia]). rewrite E0. reflexivity.
  - f_equal. f_equal. apply upd_same. lia.
Qed.

Definition bias_at (b : option (list R)) (o : nat) : R := match b with Some v => nth o v 0 | None => 0 end.
(** transposed convolution without bias *)
Definition core (a : conv_attr) (os : list nat) (x w : tensor R) : tensor R := deconv a os x w (fun _ => 0).
Lemma deconv_core a os x w f idx : valid (tshape (core a os x w)) idx -> tget (deconv a os x w f) idx = f (nth 1 idx 0%nat) + tget (core a os x w) idx.
Proof.
  intro V. unfold core, deconv in *. cbn [tshape tget] in *. inversion V as [|n d r sh Hn Vr]; subst. inversion Vr as [|o d' pos sh' Ho Vp]; subst. cbn [nth]. ring.
Qed.
Lemma nth_repeat0 n i : nth i (repeat 0 n) 0 = 0.
Proof. revert i. induction n; intros [|i]; cbn; auto. Qed.

Lemma forward_pre fq tr C a os p w b x : qat_ok C a p w b -> good_scale p -> (forall t, tshape (fq t) = tshape t) ->
  exists s sw y, scale_factor p = Some s /\ arr2 Rmult (bn_w p) (bn_inv (bn_eps p) (bn_var p)) = Some s /\ mul_axis 1 s w = Some sw /\ tshape sw = tshape w /\
    (forall idx, valid (tshape w) idx -> tget sw idx = tget w idx * sc p (nth 1 idx 0%nat)) /\
    qat_forward fq tr a os C p w b x = Some (torch_batch_norm tr p y) /\
    tshape y = tshape (core a os x w) /\
    forall idx, valid (tshape y) idx -> (nth 1 idx 0 < C)%nat /\ tget y idx = tget (core a os x (fq sw)) idx / sc p (nth 1 idx 0%nat) + bias_at b (nth 1 idx 0%nat).
Proof.
  intros (Hr & G1 & HC & Hp & Hb) Hg Hfq.
  destruct (scale_ok C p Hp) as (s & Es & Es' & Ls & Hs).
  destruct (mul_axis_same 1 s w) as (sw & Esw & Ssw & Hsw); [lia|lia|].
  assert (Sc : tshape (torch_deconv a os x (fq sw) (Some (repeat 0 C))) = tshape (core a os x w)).
  { unfold torch_deconv, core, deconv. cbn [tshape]. rewrite Hfq, Ssw. reflexivity. }
  assert (Sc' : tshape (core a os x (fq sw)) = tshape (core a os x w)).
  { unfold core, deconv. cbn [tshape]. rewrite Hfq, Ssw. reflexivity. }
  set (D := torch_deconv a os x (fq sw) (Some (repeat 0 C))) in *.
  assert (C1 : nth 1 (tshape D) 0%nat = C) by (rewrite Sc; unfold core, deconv; cbn [tshape nth]; rewrite G1; lia).
  assert (CR : (2 <= length (tshape D))%nat) by (rewrite Sc; unfold core, deconv; cbn [tshape length]; lia).
  destruct (div_ok C s D Ls C1 CR) as (t & Et & St & Ht).
  { intros c Hc. rewrite Hs by exact Hc. now apply (sc_nonzero C). }
  assert (Q : exists y, (match b with Some v => add_channels v t | None => Some t end) = Some y /\ tshape y = tshape D /\
            forall idx, valid (tshape D) idx -> tget y idx = tget t idx + bias_at b (nth 1 idx 0%nat)).
  { destruct b as [v|].
    - rewrite <- St in C1, CR. destruct (add_ok C v t Hb C1 CR) as (y & Ey & Sy & Hy). exists y. rewrite <- St. auto.
    - exists t. split; [reflexivity|]. split; [exact St|]. intros idx _. cbn [bias_at]. ring. }
  destruct Q as (y & Ey & Sy & Hy).
  exists s, sw, y. split; [exact Es|]. split; [exact Es'|]. split; [exact Esw|]. split; [exact Ssw|]. split; [|split; [|split]].
  - intros idx V. rewrite Hsw by exact V. rewrite Hs; [reflexivity|]. rewrite <- HC. apply (valid_nth _ _ 1 V). lia.
  - unfold qat_forward. rewrite Es. cbn [obind]. rewrite Esw. cbn [obind].
    assert ((match b with Some v => length v | None => C end) = C) as -> by (destruct b; auto).
    unfold checked_deconv. rewrite repeat_length, Hfq, Ssw, HC, G1, Nat.mul_1_r, Nat.eqb_refl. cbn [obind]. fold D. rewrite Et. cbn [obind]. rewrite Ey. cbn [obind].
    destruct Hp as (_ & _ & Hm & _). rewrite Hm, Sy, C1, Nat.eqb_refl. reflexivity.
  - rewrite Sy. exact Sc.
  - intros idx V. rewrite Sy in V. assert (H1 : (nth 1 idx 0 < C)%nat) by (rewrite <- C1; apply (valid_nth _ _ 1 V); lia). split; [exact H1|].
    rewrite Hy, Ht by exact V. rewrite Hs by exact H1. f_equal. f_equal. unfold D, torch_deconv. rewrite deconv_core; [|rewrite Sc', <- Sc; exact V].
    rewrite nth_repeat0. ring.
Qed.

Theorem transform_ok fq C a os p w b x : qat_ok C a p w b -> good_scale p -> (forall t, tshape (fq t) = tshape t) ->
  exists y z, qat_forward fq false a os C p w b x = Some y /\ qat_transformed fq a os p w b x = Some z /\ teq y z.
Proof.
  intros Hok Hg Hfq. destruct (forward_pre fq false C a os p w b x Hok Hg Hfq) as (s & sw & y & Es & Es' & Esw & Ssw & Hsw & Ef & Sy & Hy).
  destruct Hok as (Hr & G1 & HC & Hp & Hb). pose proof Hp as (P1 & P2 & P3 & P4 & P5).
  set (b0 := or_else b (length (bn_mean p)) 0).
  assert (L0 : length b0 = C) by (unfold b0, or_else; destruct b; [exact Hb|rewrite repeat_length; exact P3]).
  assert (B0 : forall o, nth o b0 0 = bias_at b o) by (intro o; unfold b0, or_else, bias_at; destruct b; [reflexivity|apply nth_repeat0]).
  destruct (arr2_same Rminus b0 (bn_mean p) C L0 P3) as (d1 & E1 & L1 & H1).
  destruct (arr2_same Rmult d1 (bn_inv (bn_eps p) (bn_var p)) C L1) as (d2 & E2 & L2 & H2); [now rewrite bn_inv_length|].
  destruct (arr2_same Rmult d2 (bn_w p) C L2 P1) as (d3 & E3 & L3 & H3).
  destruct (arr2_same Rplus d3 (bn_b p) C L3 P2) as (d4 & E4 & L4 & H4).
  assert (EF : fuse_conv_bn_weights w b (bn_mean p) (bn_var p) (bn_eps p) (Some (bn_w p)) (Some (bn_b p)) true = Some (sw, d4)).
  { unfold fuse_conv_bn_weights. fold b0. cbn [or_else]. rewrite Es'. cbn [obind]. rewrite Esw. cbn [obind]. rewrite E1. cbn [obind]. rewrite E2. cbn [obind].
    rewrite E3. cbn [obind]. rewrite E4. reflexivity. }
  exists (torch_batch_norm false p y), (torch_deconv a os x (fq sw) (Some d4)). split; [exact Ef|]. split.
  - unfold qat_transformed. rewrite EF. cbn [obind fst snd]. unfold checked_deconv. rewrite L4, Hfq, Ssw, HC, G1, Nat.mul_1_r, Nat.eqb_refl. reflexivity.
  - assert (Sc' : tshape (core a os x (fq sw)) = tshape (core a os x w)) by (unfold core, deconv; cbn [tshape]; rewrite Hfq, Ssw; reflexivity).
    assert (Sd : tshape (torch_deconv a os x (fq sw) (Some d4)) = tshape (core a os x w)) by (unfold torch_deconv, core, deconv; cbn [tshape]; rewrite Hfq, Ssw; reflexivity).
    split; [cbn [torch_batch_norm batch_norm tshape]; congruence|].
    intros idx V. cbn [torch_batch_norm batch_norm tshape tget] in *. destruct (Hy idx V) as [Hc ->].
    unfold torch_deconv. rewrite deconv_core by (rewrite Sc', <- Sy; exact V). set (c := nth 1 idx 0%nat) in *.
    rewrite H4, H3, H2, H1, bn_inv_nth, B0 by lia. unfold bn_affine, sc.
    pose proof (std_pos C p c Hp Hc) as S. assert (nth c (bn_w p) 0 <> 0) as N by (unfold good_scale in Hg; rewrite Forall_forall in Hg; apply Hg, nth_In; lia).
    field. split; [lra|exact N].
Qed.

Lemma channel_ext y z c : teq y z -> channel y c = channel z c.
Proof.
  intros [S H]. unfold channel. rewrite <- S. apply map_ext_in. intros idx Hi. apply filter_In in Hi. apply H, indices_valid, Hi.
Qed.
Lemma bn_teq tr p y z : teq y z -> teq (torch_batch_norm tr p y) (torch_batch_norm tr p z).
Proof.
  intros E. pose proof E as [S H]. split; [exact S|]. intros idx V. cbn [torch_batch_norm batch_norm tshape tget] in *. rewrite !(channel_ext y z) by exact E. now rewrite H.
Qed.
(** a fake quantizer that changes nothing *)
Theorem exact_ok fq tr C a os p w b x : qat_ok C a p w b -> good_scale p -> (forall t, teq (fq t) t) ->
  nth 1 (tshape x) 0%nat = nth 0 (tshape w) 0%nat ->
  exists y, qat_forward fq tr a os C p w b x = Some y /\ teq y (torch_batch_norm tr p (torch_deconv a os x w b)).
Proof.
  intros Hok Hg Hfq Hx. destruct (forward_pre fq tr C a os p w b x Hok Hg (fun t => proj1 (Hfq t))) as (s & sw & y & Es & Es' & Esw & Ssw & Hsw & Ef & Sy & Hy).
  destruct Hok as (Hr & G1 & HC & Hp & Hb).
  eexists. split; [exact Ef|]. apply bn_teq. split; [exact Sy|]. intros idx V. destruct (Hy idx V) as [Hc ->]. rewrite Sy in V.
  unfold torch_deconv. rewrite deconv_core by exact V. change (match b with Some v => nth (nth 1 idx 0%nat) v 0 | None => 0 end) with (bias_at b (nth 1 idx 0%nat)).
  pose proof (sc_nonzero C p _ Hp Hg Hc) as N. set (k := sc p (nth 1 idx 0%nat)) in *.
  enough (tget (core a os x (fq sw)) idx = k * tget (core a os x w) idx) as -> by (field; exact N).
  unfold core, deconv in V |- *. cbn [tshape tget] in V |- *. destruct (Hfq sw) as [Sf Hf]. rewrite Sf, Ssw.
  inversion V as [|n d r sh Hn Vr]; subst. inversion Vr as [|o d' pos sh' Ho Vp]; subst. cbn [nth] in Hc, k. rewrite G1 in *. rewrite Nat.div_1_r, Nat.mul_1_r in *.
  rewrite Rmult_plus_distr_l, Rmult_0_r. f_equal. rewrite <- lsum_scal. apply lsum_ext. intros i Hi. apply in_seq in Hi.
  rewrite <- lsum_scal. apply lsum_ext. intros t Ht. apply indices_valid in Ht. rewrite <- lsum_scal. apply lsum_ext. intros q Hq.
  destruct (hits _ _ _ _ _ _); [|ring].
  set (C := nth 1 (tshape w) 0%nat) in *. rewrite Nat.div_small, Nat.mod_small by exact Ho. cbn [Nat.mul Nat.add].
  assert (W : valid (tshape w) (i :: o :: t)).
  { destruct (tshape w) as [|w0 [|w1 ws]]; cbn [length] in Hr; try lia. unfold C in Ho. cbn [nth skipn] in *. constructor; [lia|]. constructor; [lia|exact Ht]. }
  rewrite Hf by (rewrite Sf, Ssw; exact W). rewrite Hsw by exact W. cbn [nth]. fold k. ring.
Qed.

(** several groups: the module cannot run *)
Theorem groups_raise fq tr G opg a os p w b x : (1 < G)%nat -> (0 < opg)%nat -> (2 <= length (tshape w))%nat -> ca_groups a = G -> nth 1 (tshape w) 0%nat = opg ->
  bn_ok (opg * G) p -> match b with Some v => length v = (opg * G)%nat | None => True end -> (forall t, tshape (fq t) = tshape t) ->
  qat_forward fq tr a os (opg * G) p w b x = None.
Proof.
  intros HG Ho Hr Ga Hw Hp Hb Hfq. unfold qat_forward. destruct (scale_ok _ p Hp) as (s & -> & _ & Ls & _). cbn [obind].
  unfold mul_axis. rewrite Hw, Ls. unfold bdim.
  destruct (Nat.eqb_spec opg (opg * G)) as [E|E]; [exfalso; nia|]. destruct (Nat.eqb_spec opg 1) as [E1|E1].
  - cbn [obind]. unfold checked_deconv. rewrite Hfq. cbn [tshape]. rewrite upd_nth_eq by lia. rewrite repeat_length, Ga.
    replace (match b with Some v => length v | None => (opg * G)%nat end) with (opg * G)%nat by (destruct b; auto).
    destruct (Nat.eqb_spec (opg * G) (opg * G * G)) as [E2|E2]; [exfalso; nia|]. reflexivity.
  - destruct (Nat.eqb_spec (opg * G) 1); [exfalso; nia|]. reflexivity.
Qed.
(** a zero [bn.weight]: the module divides by zero, the transformed one does not *)
Theorem zero_gamma fq tr C a os p w b x : qat_ok C a p w b -> ~ good_scale p -> (forall t, tshape (fq t) = tshape t) ->
  qat_forward fq tr a os C p w b x = None.
Proof.
  intros (Hr & G1 & HC & Hp & Hb) Hg Hfq. unfold qat_forward. destruct (scale_ok _ p Hp) as (s & -> & _ & Ls & Hs). cbn [obind].
  destruct (mul_axis_same 1 s w) as (sw & -> & Ssw & _); [lia|lia|]. cbn [obind].
  destruct (checked_deconv _ _ _ _ _) as [y|]; [|reflexivity]. cbn [obind].
  unfold div_channels. replace (forallb _ s) with false; [reflexivity|]. symmetry.
  destruct (forallb _ s) eqn:E; [|reflexivity]. exfalso. apply Hg. unfold good_scale. rewrite Forall_forall. intros g Hi Eg. subst g.
  rewrite forallb_forall in E. destruct (In_nth _ _ 0 Hi) as (c & Hc & Ec). destruct Hp as (P1 & _). assert (c < C)%nat as Hc' by lia.
  assert (In (nth c s 0) s) as Hin by (apply nth_In; lia). specialize (E _ Hin). rewrite Hs in E by exact Hc'. unfold sc in E. rewrite Ec in E.
  destruct (Req_EM_T _ _) as [_|N]; [discriminate|]. apply N. unfold Rdiv. ring.
Qed.

(** * Mode *)
Lemma mode_frozen init cs : let m := fold_left mode_step cs (mode_init init) in m_frozen m = true -> m_bn m = false.
Proof.
  cbn zeta. assert (forall cs m, (m_frozen m = true -> m_bn m = false) -> let m' := fold_left mode_step cs m in m_frozen m' = true -> m_bn m' = false) as Q.
  { clear. induction cs as [|c cs IH]; intros m H; [exact H|]. cbn [fold_left]. apply IH. destruct c as [b| |]; cbn; [|reflexivity|discriminate].
    intro F. rewrite F. auto. }
  apply Q. destruct init; cbn; congruence.
Qed.
(** [train] or [eval] after the last [update_bn_stats] *)
Definition not_update (c : mode_call) : bool := match c with CUpdate => false | _ => true end.
Lemma mode_follows init cs b r : forallb not_update r = true -> 
  let m := fold_left mode_step r (mode_step (fold_left mode_step cs (mode_init init)) (CTrain b)) in m_frozen m = false -> m_bn m = m_training m.
Proof.
  intros Hr. cbn zeta. assert (forall r m, forallb not_update r = true -> (m_frozen m = false -> m_bn m = m_training m) -> let m' := fold_left mode_step r m in m_frozen m' = false -> m_bn m' = m_training m') as Q.
  { clear. induction r as [|c r IH]; intros m Hr H; [exact H|]. cbn [fold_left]. cbn [forallb] in Hr. apply andb_prop in Hr. destruct Hr as [Hc Hr]. apply IH; [exact Hr|].
    destruct c as [b| |]; cbn; [|discriminate|discriminate]. intro F. now rewrite F. }
  apply Q; [exact Hr|]. cbn. intro F. now rewrite F.
Qed.
(** what the transformed module computes when [bn.weight] may be zero *)
Theorem transformed_ok fq C a os p w b x : qat_ok C a p w b -> (forall t, tshape (fq t) = tshape t) -> exists z, qat_transformed fq a os p w b x = Some z.
Proof.
  intros (Hr & G1 & HC & Hp & Hb) Hfq. pose proof Hp as (P1 & P2 & P3 & P4 & P5).
  destruct (scale_ok C p Hp) as (s & _ & Es & Ls & _). destruct (mul_axis_same 1 s w) as (sw & Esw & Ssw & _); [lia|lia|].
  set (b0 := or_else b (length (bn_mean p)) 0).
  assert (L0 : length b0 = C) by (unfold b0, or_else; destruct b; [exact Hb|rewrite repeat_length; exact P3]).
  destruct (arr2_same Rminus b0 (bn_mean p) C L0 P3) as (d1 & E1 & L1 & _).
  destruct (arr2_same Rmult d1 (bn_inv (bn_eps p) (bn_var p)) C L1) as (d2 & E2 & L2 & _); [now rewrite bn_inv_length|].
  destruct (arr2_same Rmult d2 (bn_w p) C L2 P1) as (d3 & E3 & L3 & _).
  destruct (arr2_same Rplus d3 (bn_b p) C L3 P2) as (d4 & E4 & L4 & _).
  unfold qat_transformed, fuse_conv_bn_weights. fold b0. cbn [or_else]. rewrite Es. cbn [obind]. rewrite Esw. cbn [obind]. rewrite E1. cbn [obind]. rewrite E2. cbn [obind].
  rewrite E3. cbn [obind]. rewrite E4. cbn [obind fst snd]. unfold checked_deconv. rewrite L4, Hfq, Ssw, HC, G1, Nat.mul_1_r, Nat.eqb_refl. eexists. reflexivity.
Qed.
Theorem zero_gamma_refuted fq tr C a os p w b x : qat_ok C a p w b -> ~ good_scale p -> (forall t, tshape (fq t) = tshape t) ->
  qat_forward fq tr a os C p w b x = None /\ exists z, qat_transformed fq a os p w b x = Some z.
Proof. intros. split; [now apply zero_gamma | now apply (transformed_ok fq C)]. Qed.
