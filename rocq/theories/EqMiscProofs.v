(** Proofs about high-bias absorption and batch-norm folding for quantization (C45, C46),
    counterexamples for C43-C46. *)
From Coq Require Import List Arith ZArith Bool Reals Lia Lra.
From Verif Require Import Tensor ConvSpec QuantSpec FuseModel FuseProofs QuantModel QuantProofs LlmProofs EqModel EqProofs.
Import ListNotations.
Local Open Scope R_scope.

(* ------------------------------------------------------------------ *)
(** * C45 *)

(** what is absorbed of channel [c] *)
Definition absorbed (gamma beta : list R) (c : nat) : R := Rmax 0 (nth c beta 0 - 3 * Rabs (nth c gamma 0)).

Lemma absorb_c_ok gamma beta C : length gamma = C -> length beta = C ->
  exists c, absorb_c gamma beta = Some c /\ length c = C /\ forall i, (i < C)%nat -> nth i c 0 = absorbed gamma beta i.
Proof.
  intros H1 H2. unfold absorb_c. destruct (arr2_same (fun b g => b - 3 * Rabs g) beta gamma C H2 H1) as (r & -> & L & H).
  cbn [obind]. eexists. split; [reflexivity|]. rewrite map_length. split; [exact L|]. intros i Hi.
  set (F := fun v => if Rlt_dec v 0 then 0 else v).
  rewrite (nth_indep _ 0 (F 0)) by (rewrite map_length; lia). rewrite map_nth. unfold F, absorbed. rewrite H by exact Hi.
  destruct (Rlt_dec _ _); [rewrite Rmax_left by lra|rewrite Rmax_right by lra]; reflexivity.
Qed.

(** the correction of the second bias: the second convolution applied to the constant image *)
Lemma bias_absorb_ok gamma beta b1 w2 b2 G b1' b2' C :
  length gamma = C -> length beta = C -> length b1 = C -> length b2 = nth 0 (tshape w2) 0%nat ->
  (0 < G)%nat -> (0 < nth 0 (tshape w2) 0)%nat -> (nth 0 (tshape w2) 0 mod G = 0)%nat -> C = (nth 1 (tshape w2) 0 * G)%nat ->
  bias_absorb gamma beta b1 w2 b2 = Some (b1', b2') ->
  length b1' = C /\ (forall c, (c < C)%nat -> nth c b1' 0 = nth c b1 0 - absorbed gamma beta c) /\
  forall o, (o < nth 0 (tshape w2) 0)%nat ->
    nth o b2' 0 = nth o b2 0 + lsum (seq 0 (nth 1 (tshape w2) 0%nat)) (fun i =>
                    wsum w2 o i * absorbed gamma beta (o / (nth 0 (tshape w2) 0 / G) * nth 1 (tshape w2) 0 + i)%nat).
Proof.
  intros Hg Hb Hb1 Hb2 HG Hco Hmod HC H. unfold bias_absorb in H.
  destruct (absorb_c_ok gamma beta C Hg Hb) as (c & Ec & Lc & Hc). rewrite Ec in H. cbn [obind] in H.
  set (cout := nth 0 (tshape w2) 0%nat) in *. set (ipg := nth 1 (tshape w2) 0%nat) in *.
  apply obind_inv in H. destruct H as (bc & Ebc & H). apply obind_inv in H. destruct H as (cur & Ecur & H).
  apply obind_inv in H. destruct H as (pre & Epre & H). injection H as <- <-.
  destruct (arr2_same Rminus b1 c C Hb1 Lc) as (r & Er & Lr & Hr). rewrite Er in Epre. injection Epre as <-.
  split; [exact Lr|]. split; [intros i Hi; rewrite Hr, Hc by exact Hi; reflexivity|].
  assert (Hbc : length bc = cout /\ forall o, (o < cout)%nat -> nth o bc 0 =
            lsum (seq 0 ipg) (fun i => wsum w2 o i * absorbed gamma beta (o / (cout / G) * ipg + i)%nat)).
  { destruct (ipg =? 1)%nat eqn:Ei.
    - apply Nat.eqb_eq in Ei. rewrite Ei in *. unfold arr2 in Ebc. rewrite map_length, seq_length, Lc in Ebc.
      destruct (bdim cout C) as [n|] eqn:Eb; [|discriminate]. injection Ebc as <-. rewrite map_length, seq_length.
      assert (HQ : (cout = n /\ (C = cout \/ C = 1))%nat).
      { unfold bdim in Eb. destruct (Nat.eqb_spec cout C); [injection Eb as <-; lia|].
        destruct (Nat.eqb_spec cout 1) as [E1|E1].
        - exfalso. rewrite E1 in *. assert (G = 1)%nat by (destruct G as [|[|G]]; [lia|reflexivity|rewrite Nat.mod_small in Hmod; lia]). lia.
        - destruct (Nat.eqb_spec C 1); [|discriminate]. injection Eb as <-. lia. }
      destruct HQ as [<- HQ]. split; [reflexivity|]. intros o Ho. rewrite nth_map_seq by exact Ho.
      cbn [seq]. unfold lsum. cbn [map fold_right]. rewrite Rplus_0_r.
      destruct (Nat.eqb_spec cout 1) as [E1|E1].
      + rewrite nth_map_seq by lia. replace o with 0%nat by lia. f_equal.
        destruct (Nat.eqb_spec C 1); rewrite Hc by lia; f_equal; rewrite ?E1; destruct G as [|[|G]]; try lia; reflexivity.
      + rewrite nth_map_seq by exact Ho. f_equal.
        destruct (Nat.eqb_spec C 1) as [E2|E2].
        * rewrite Hc by lia. f_equal. assert (G = 1)%nat by lia. subst G. rewrite Nat.div_1_r, Nat.div_small by exact Ho. reflexivity.
        * rewrite Hc by lia. f_equal. assert (G = cout)%nat by lia. subst G. rewrite Nat.div_same by lia. rewrite Nat.div_1_r. lia.
    - destruct (Nat.eqb_spec ipg (length c)) as [E|E]; [|discriminate]. injection Ebc as <-. rewrite map_length, seq_length.
      split; [reflexivity|]. intros o Ho. rewrite nth_map_seq by exact Ho. apply lsum_ext. intros i Hi. apply in_seq in Hi.
      assert (G = 1)%nat by (destruct G as [|[|G]]; [lia|reflexivity|apply Nat.eqb_neq in Ei; nia]). subst G.
      rewrite Nat.div_1_r, Nat.div_small by exact Ho. cbn [Nat.mul Nat.add]. rewrite Hc by lia. reflexivity. }
  destruct Hbc as [Lbc Hbc].
  destruct (arr2_same Rplus b2 bc cout Hb2 Lbc) as (r2 & Er2 & Lr2 & Hr2). rewrite Er2 in Ecur. injection Ecur as <-.
  intros o Ho. rewrite Hr2, Hbc by exact Ho. reflexivity.
Qed.

Theorem bias_absorb_keeps a1 a2 w1 b1 act1 w2 b2 act2 gamma beta b1' b2' x :
  let l1 := mkCL (KConv a1) w1 (Some b1) act1 in
  let l2 := mkCL (KConv a2) w2 (Some b2) act2 in
  let C := nth 0 (tshape w1) 0%nat in
  length gamma = C -> length beta = C -> length b1 = C -> length b2 = nth 0 (tshape w2) 0%nat ->
  conv_ok a2 (run1 l1 x) w2 ->
  no_pad (skipn 2 (tshape (run1 l1 x))) (ca_stride a2) (ca_dil a2) (ca_pad a2) (ca_pad_end a2) (skipn 2 (tshape w2)) ->
  (forall c y, 0 <= y -> act1 c y = y) ->
  (forall idx, valid (tshape (conv a1 x w1 (lbias (Some b1)))) idx ->
     absorbed gamma beta (nth 1 idx 0%nat) <= tget (conv a1 x w1 (lbias (Some b1))) idx) ->
  bias_absorb gamma beta b1 w2 b2 = Some (b1', b2') ->
  teq (run1 (mkCL (KConv a2) w2 (Some b2') act2) (run1 (mkCL (KConv a1) w1 (Some b1') act1) x)) (run1 l2 (run1 l1 x)).
Proof.
  intros l1 l2 C Hg Hb Hb1 Hb2 (R1 & R2 & HG & Hco & Hip & Hmod & Hcin) Hnp Hact Hge H.
  assert (HC : C = (nth 1 (tshape w2) 0 * ca_groups a2)%nat) by (rewrite <- Hcin; reflexivity).
  destruct (bias_absorb_ok gamma beta b1 w2 b2 (ca_groups a2) b1' b2' C) as (L1 & HB1 & HB2); try assumption.
  split; [reflexivity|]. intros idx V. unfold run1 at 1 3. unfold l2. cbn [cl_kind cl_w cl_b cl_act tget chan]. f_equal.
  set (y := run1 l1 x) in *. set (y' := run1 (mkCL (KConv a1) w1 (Some b1') act1) x) in *.
  assert (Hy : forall j, valid (tshape y) j -> tget y' j = tget y j - absorbed gamma beta (nth 1 j 0%nat)).
  { intros j Vj. assert (Vc : valid (tshape (conv a1 x w1 (lbias (Some b1)))) j) by exact Vj.
    pose proof (Hge j Vc) as Hj. assert (Ha : 0 <= absorbed gamma beta (nth 1 j 0%nat)) by apply Rmax_l.
    unfold y', y, run1. cbn [cl_kind cl_w cl_b cl_act l1 tget chan].
    assert (E : tget (conv a1 x w1 (lbias (Some b1'))) j = tget (conv a1 x w1 (lbias (Some b1))) j - absorbed gamma beta (nth 1 j 0%nat)).
    { unfold conv in Vc. cbn [tshape] in Vc. inversion Vc as [|n d r s Hn Vr]; subst j d s. inversion Vr as [|o d pos s Ho Vp]; subst r d s.
      unfold conv. cbn [tget nth lbias]. rewrite HB1 by exact Ho. ring. }
    rewrite !Hact; [exact E|lra|rewrite E; lra]. }
  assert (Hs : tshape y' = tshape y) by reflexivity.
  clearbody y'. clearbody y. unfold run1 in V. cbn [tshape cl_kind cl_w cl_b] in V. unfold conv in V. cbn [tshape] in V. rewrite Hs in V.
  inversion V as [|n d r s Hn Vr]; subst idx d s. inversion Vr as [|o d pos s Ho Vp]; subst r d s.
  unfold conv. cbn [tget lbias]. rewrite Hs, HB2 by exact Ho.
  set (cout := nth 0 (tshape w2) 0%nat) in *. set (ipg := nth 1 (tshape w2) 0%nat) in *.
  match goal with |- _ + ?a + ?b = _ + ?c => assert (a + b = c) end; [|lra].
  rewrite <- lsum_plus. apply lsum_ext. intros i Hi. apply in_seq in Hi.
  unfold wsum. rewrite <- lsum_scal_r, <- lsum_plus. apply lsum_ext. intros k Hk. apply indices_valid in Hk.
  destruct (no_pad_tap _ _ _ _ _ _ pos k Hnp Vp Hk) as (q & Eq & Vq). rewrite Eq. cbn [read0].
  rewrite Hy; [cbn [nth]; ring|].
  assert (Hch : (o / (cout / ca_groups a2) * ipg + i < nth 1 (tshape y) 0)%nat).
  { rewrite Hcin. fold ipg. set (opg := (cout / ca_groups a2)%nat).
    assert (cout = opg * ca_groups a2)%nat by (unfold opg; pose proof (Nat.div_mod cout (ca_groups a2) ltac:(lia)); lia).
    assert (o / opg < ca_groups a2)%nat by (apply Nat.div_lt_upper_bound; [intro Z; rewrite Z in *; lia|lia]). nia. }
  destruct (tshape y) as [|d0 [|d1 ds]] eqn:Ey; cbn [length] in R2; try (rewrite <- R2 in R1; cbn in R1; lia).
  cbn [skipn nth] in *. constructor; [exact Hn|]. constructor; assumption.
Qed.

(** defined for dense and depthwise second layers *)
Lemma bias_absorb_defined gamma beta b1 w2 b2 C :
  length gamma = C -> length beta = C -> length b1 = C -> length b2 = nth 0 (tshape w2) 0%nat ->
  nth 1 (tshape w2) 0%nat = C \/ (nth 1 (tshape w2) 0%nat = 1%nat /\ nth 0 (tshape w2) 0%nat = C) ->
  bias_absorb gamma beta b1 w2 b2 <> None.
Proof.
  intros Hg Hb Hb1 Hb2 HC. unfold bias_absorb.
  destruct (absorb_c_ok gamma beta C Hg Hb) as (c & -> & Lc & _). cbn [obind].
  set (cout := nth 0 (tshape w2) 0%nat) in *. set (ipg := nth 1 (tshape w2) 0%nat) in *.
  assert (HX : exists bc, (if (ipg =? 1)%nat
         then arr2 Rmult (map (fun o => wsum w2 o 0) (seq 0 cout)) c
         else if (ipg =? length c)%nat
              then Some (map (fun o => lsum (seq 0 ipg) (fun i => wsum w2 o i * nth i c 0)) (seq 0 cout))
              else None) = Some bc /\ length bc = cout).
  { destruct (Nat.eqb_spec ipg 1) as [E|E].
    - unfold arr2. rewrite map_length, seq_length, Lc. unfold bdim. destruct (Nat.eqb_spec cout C) as [E1|E1].
      + eexists. split; [reflexivity|]. rewrite map_length, seq_length. reflexivity.
      + destruct (Nat.eqb_spec cout 1); [exfalso; lia|]. destruct (Nat.eqb_spec C 1); [|exfalso; lia].
        eexists. split; [reflexivity|]. rewrite map_length, seq_length. reflexivity.
    - destruct (Nat.eqb_spec ipg (length c)); [|exfalso; lia]. eexists. split; [reflexivity|]. rewrite map_length, seq_length. reflexivity. }
  destruct HX as (bc & -> & Lbc). cbn [obind].
  destruct (arr2_same Rplus b2 bc cout Hb2 Lbc) as (r2 & -> & _ & _). cbn [obind].
  destruct (arr2_same Rminus b1 c C Hb1 Lc) as (r & -> & _ & _). discriminate.
Qed.

(** with any other number of groups the correction raises *)
Lemma bias_absorb_grouped gamma beta b1 w2 b2 G C :
  length gamma = C -> length beta = C -> C = (nth 1 (tshape w2) 0 * G)%nat -> (1 < G)%nat -> (1 < nth 1 (tshape w2) 0)%nat ->
  bias_absorb gamma beta b1 w2 b2 = None.
Proof.
  intros Hg Hb HC HG Hi. unfold bias_absorb.
  destruct (absorb_c_ok gamma beta C Hg Hb) as (c & -> & Lc & _). cbn [obind].
  destruct (Nat.eqb_spec (nth 1 (tshape w2) 0%nat) 1); [lia|]. destruct (Nat.eqb_spec (nth 1 (tshape w2) 0%nat) (length c)); [nia|]. reflexivity.
Qed.

(* ------------------------------------------------------------------ *)
(** * C46 *)

(** the parameters of a batch norm whose weight or bias may be absent *)
Definition bn_of (rm rv : list R) (eps : R) (bw bb : option (list R)) : bn_params :=
  mkBn eps (match bw with Some l => l | None => repeat 1 (length rm) end)
       (match bb with Some l => l | None => repeat 0 (length rm) end) rm rv.

Lemma run_layer_bias l act x w b b' : (forall o, b o = b' o) -> teq (run_layer l act x w b) (run_layer l act x w b').
Proof.
  intro H. unfold run_layer, tmap. split; [destruct l; reflexivity|]. intros idx _. cbn [tget]. f_equal.
  destruct l; cbn [conv deconv fc tget]; rewrite ?H; try reflexivity;
    destruct idx as [|n [|o pos]]; try reflexivity; rewrite H; reflexivity.
Qed.
Lemma run_bn_teq p act t u : teq t u -> teq (run_bn p act t) (run_bn p act u).
Proof.
  intros [Hs H]. split; [exact Hs|]. intros idx V. unfold run_bn, tmap, batch_norm. cbn [tget]. rewrite H by exact V. reflexivity.
Qed.
Lemma nth_repeat_same {A} (a : A) n i : nth i (repeat a n) a = a.
Proof. revert i. induction n; intros [|i]; cbn; auto. Qed.
Lemma bias_fn_zero n o : bias_fn (Some (repeat 0 n)) o = 0.
Proof. unfold bias_fn. destruct (_ =? _)%nat; apply nth_repeat_same. Qed.

Theorem conv_bn_fold_correct l x w b rm rv eps bw bb : l <> LFc -> fold_domain l x w ->
  let p := bn_of rm rv eps bw bb in
  bn_ok (layer_channels l w) p -> match b with Some v => length v = layer_channels l w | None => True end ->
  exists w' b', fuse_conv_bn_weights w b rm rv eps bw bb (is_deconv l) = Some (w', b') /\
    tshape w' = tshape w /\ length b' = layer_channels l w /\
    teq (run_layer l ANone x w' (bias_fn (Some b'))) (run_bn p ANone (run_layer l ANone x w (bias_fn b))).
Proof.
  intros Hl D p Hp Hb. set (c := layer_channels l w) in *.
  set (b0 := or_else b (length rm) 0).
  assert (Hrm : length rm = c) by (destruct Hp as (_ & _ & H & _); exact H).
  assert (Hb0 : length b0 = c) by (unfold b0, or_else; destruct b; [exact Hb|rewrite repeat_length; exact Hrm]).
  destruct (fuse_conv_bn_correct l x w (Some b0) ANone p D Hp) as (w' & b' & act' & E & Sw & Lb & T); [left; exact Hb0|].
  unfold fuse_conv_fc_bn in E. cbn [bn_fusable activ_eqb orb] in E.
  apply obind_inv in E. destruct E as (w0 & Ew & E). apply obind_inv in E. destruct E as (b1 & Eb & E).
  injection E as E1 E2 E3. subst w0 b1. cbn in E3. subst act'.
  exists w', b'. split; [|split; [exact Sw|split; [exact Lb|]]].
  - unfold fuse_conv_bn_weights. unfold fuse_bn_weight in Ew. apply obind_inv in Ew. destruct Ew as (s & Es & Ew).
    unfold p in Es, Ew. cbn [bn_of bn_w bn_var bn_eps] in Es, Ew. 
    fold b0. unfold or_else. rewrite Es. cbn [obind]. rewrite Ew. cbn [obind].
    unfold fuse_bn_bias in Eb. unfold p in Eb. cbn [bn_of bn_w bn_var bn_eps bn_mean bn_b] in Eb.
    assert (Hrep : repeat_bias (length rm) b0 = b0) by (unfold repeat_bias; rewrite Hb0, Hrm, Nat.eqb_refl; reflexivity).
    rewrite Hrep in Eb.
    apply obind_inv in Eb. destruct Eb as (d1 & Ed1 & Eb). rewrite Ed1. cbn [obind].
    apply obind_inv in Eb. destruct Eb as (d2 & Ed2 & Eb). rewrite Ed2. cbn [obind].
    apply obind_inv in Eb. destruct Eb as (d3 & Ed3 & Eb). rewrite Ed3. cbn [obind]. rewrite Eb. reflexivity.
  - eapply teq_trans; [exact T|]. apply run_bn_teq. apply run_layer_bias. intro o. unfold b0, or_else.
    destruct b; [reflexivity|apply bias_fn_zero].
Qed.

Theorem bn_conv_fold_correct a x w b rm rv eps bw bb :
  let p := bn_of rm rv eps bw bb in
  conv_ok a x w -> ca_groups a = 1%nat -> bn_ok (nth 1 (tshape x) 0%nat) p ->
  match b with Some v => length v = nth 0 (tshape w) 0%nat | None => True end ->
  no_pad (skipn 2 (tshape x)) (ca_stride a) (ca_dil a) (ca_pad a) (ca_pad_end a) (skipn 2 (tshape w)) ->
  exists w' b', fuse_bn_conv_weights w b rm rv eps bw bb = Some (w', b') /\
    tshape w' = tshape w /\ length b' = nth 0 (tshape w) 0%nat /\
    teq (conv a x w' (bias_fn (Some b'))) (conv a (run_bn p ANone x) w (bias_fn b)).
Proof.
  intros p Hok HG Hp Hb Hnp. pose proof Hok as (R1 & R2 & Hg & Hco & Hip & Hmod & Hcin).
  pose proof Hp as (P1 & P2 & P3 & P4 & P5). rewrite HG, Nat.mul_1_r in Hcin.
  unfold p in P1, P2, P3, P4, P5. cbn [bn_of bn_w bn_b bn_mean bn_var bn_eps] in P1, P2, P3, P4, P5.
  set (cin := nth 1 (tshape x) 0%nat) in *. set (cout := nth 0 (tshape w) 0%nat) in *. set (ipg := nth 1 (tshape w) 0%nat) in *.
  set (b0 := or_else b cout 0).
  assert (Hb0 : length b0 = cout) by (unfold b0, or_else; destruct b; [exact Hb|apply repeat_length]).
  set (g := match bw with Some l => l | None => repeat 1 (length rm) end) in *.
  set (be := match bb with Some l => l | None => repeat 0 (length rm) end) in *.
  destruct (arr2_same Rmult rm (bn_inv eps rv) cin) as (m1 & Em1 & Lm1 & _); [exact P3|rewrite bn_inv_length; exact P4|].
  destruct (arr2_same Rmult m1 g cin) as (m2 & Em2 & Lm2 & _); [exact Lm1|exact P1|].
  destruct (arr2_same Rminus be m2 cin) as (fb & Ef & Lf & _); [exact P2|exact Lm2|].
  destruct (arr2_same Rmult g (bn_inv eps rv) cin) as (s & Es & Ls & _); [exact P1|rewrite bn_inv_length; exact P4|].
  destruct (mul_axis_same 1 s w) as (w' & Ew & Sw & _); [lia|fold ipg; congruence|].
  set (off := map (fun o => lsum (seq 0 ipg) (fun i => wsum w o i * nth i fb 0)) (seq 0 cout)).
  assert (Lo : length off = cout) by (unfold off; rewrite map_length, seq_length; reflexivity).
  destruct (arr2_same Rplus b0 off cout Hb0 Lo) as (b' & Eb & Lb & _).
  assert (Hcond : (ipg =? 1)%nat && (1 <? cin)%nat = false) by (rewrite Hcin; destruct (Nat.eqb_spec ipg 1) as [E|E]; [rewrite E; reflexivity|reflexivity]).
  assert (HF : fuse_bn_conv_weights w b rm rv eps bw bb = Some (w', b')).
  { unfold fuse_bn_conv_weights. fold cout ipg. fold b0. unfold or_else. fold g be. rewrite Em1. cbn [obind]. rewrite Em2. cbn [obind].
    rewrite Ef. cbn [obind]. rewrite P3, Hcond, Lf, Hcin, Nat.eqb_refl. cbn [obind].
    rewrite Es. cbn [obind]. rewrite Ew. cbn [obind]. fold off. rewrite Eb. reflexivity. }
  exists w', b'. split; [exact HF|]. split; [exact Sw|]. split; [exact Lb|].
  (* the exporter's folding of the layer without bias, and the bias added on both sides *)
  assert (HX : fuse_bn_conv false (ca_groups a) w None ANone p = Some (Some (w', off))).
  { unfold fuse_bn_conv. cbn [activ_eqb orb]. rewrite HG. fold cout ipg. rewrite andb_false_r.
    unfold fuse_rev_bn_weight, fuse_rev_bn_bias, p. cbn [bn_of bn_w bn_b bn_mean bn_var bn_eps]. fold g be cout ipg.
    rewrite Es. cbn [obind]. rewrite Ew. cbn [obind]. rewrite Em1. cbn [obind]. rewrite Em2. cbn [obind]. rewrite Ef. cbn [obind].
    rewrite P3, Hcond, Lf, Hcin, Nat.eqb_refl. reflexivity. }
  destruct (rev_fold_ok a x w None ANone p w' off false Hok Hp I Hnp HX) as (_ & _ & [_ T]).
  split; [unfold conv; cbn [tshape]; rewrite Sw; reflexivity|].
  intros idx V. specialize (T idx V). unfold conv in V, T |- *. cbn [tshape tget] in V, T |- *.
  inversion V as [|n d r sh Hn Vr]; subst idx d sh. inversion Vr as [|o d pos sh Ho Vp]; subst r d sh.
  rewrite Sw in Ho. fold cout in Ho.
  assert (HB : bias_fn (Some b') o = bias_fn b o + nth o off 0).
  { unfold bias_fn at 1. rewrite Lb. replace (if (cout =? 1)%nat then nth 0 b' 0 else nth o b' 0) with (nth o b' 0)
      by (destruct (Nat.eqb_spec cout 1); [replace o with 0%nat by lia|]; reflexivity).
    destruct (arr2_same Rplus b0 off cout Hb0 Lo) as (b2 & Eb2 & _ & Hb2). rewrite Eb2 in Eb. injection Eb as <-. rewrite Hb2 by exact Ho. f_equal.
    unfold b0, or_else, bias_fn. destruct b as [v|]; [|apply nth_repeat_same]. rewrite Hb.
    destruct (Nat.eqb_spec cout 1); [replace o with 0%nat by lia|]; reflexivity. }
  rewrite HB. cbn [bias_fn] in T. lra.
Qed.

(** ** Where it is wrong *)

(** a transposed convolution with groups: raises, or gives a weight of another shape *)
Lemma mul_axis_shape ax v w : mul_axis ax v w =
  match bdim (nth ax (tshape w) 0%nat) (length v) with
  | Some n => Some (mkT (upd (tshape w) ax n) (fun idx => let i := nth ax idx 0%nat in
           tget w (upd idx ax (if (nth ax (tshape w) 0 =? 1)%nat then 0%nat else i)) * nth (if (length v =? 1)%nat then 0%nat else i) v 0))
  | None => None
  end.
Proof. reflexivity. Qed.

Lemma deconv_groups_wrong w b rm rv eps bw bb w' b' G :
  (1 < G)%nat -> (0 < nth 1 (tshape w) 0)%nat -> (2 <= length (tshape w))%nat ->
  bn_ok (nth 1 (tshape w) 0 * G)%nat (bn_of rm rv eps bw bb) ->
  fuse_conv_bn_weights w b rm rv eps bw bb true = Some (w', b') -> nth 1 (tshape w) 0%nat = 1%nat /\ tshape w' <> tshape w.
Proof.
  intros HG Ho HL Hp H. unfold fuse_conv_bn_weights in H. apply obind_inv in H. destruct H as (s & Es & H).
  destruct Hp as (P1 & P2 & P3 & P4 & _). cbn [bn_of bn_w bn_b bn_mean bn_var] in P1, P2, P3, P4.
  destruct (arr2_same Rmult (or_else bw (length rm) 1) (bn_inv eps rv) (nth 1 (tshape w) 0 * G)%nat) as (s' & Es' & Ls & _);
    [exact P1|rewrite bn_inv_length; exact P4|]. rewrite Es in Es'. injection Es' as <-.
  apply obind_inv in H. destruct H as (w0 & Ew & H).
  apply obind_inv in H. destruct H as (d1 & _ & H). apply obind_inv in H. destruct H as (d2 & _ & H).
  apply obind_inv in H. destruct H as (d3 & _ & H). apply obind_inv in H. destruct H as (d4 & _ & H). injection H as -> _.
  rewrite mul_axis_shape, Ls in Ew. set (opg := nth 1 (tshape w) 0%nat) in *.
  unfold bdim in Ew. destruct (Nat.eqb_spec opg (opg * G)); [nia|]. destruct (Nat.eqb_spec opg 1) as [E|E].
  - split; [exact E|]. injection Ew as <-. cbn [tshape]. destruct (tshape w) as [|d [|d' r]]; cbn [length] in HL; try lia.
    cbn [upd]. intro HE. injection HE as HE. unfold opg in *. cbn [nth] in *. nia.
  - destruct (Nat.eqb_spec (opg * G) 1); [nia|discriminate].
Qed.

(** a depthwise convolution behind a batch norm: the weight gets a second channel axis *)
Lemma bn_dw_wrong w b rm rv eps bw bb w' b' :
  nth 1 (tshape w) 0%nat = 1%nat -> (1 < length rm)%nat -> (2 <= length (tshape w))%nat ->
  bn_ok (length rm) (bn_of rm rv eps bw bb) ->
  fuse_bn_conv_weights w b rm rv eps bw bb = Some (w', b') ->
  tshape w' <> tshape w /\ nth 1 (tshape w') 0%nat = length rm.
Proof.
  intros Hi HC HL Hp H. unfold fuse_bn_conv_weights in H.
  destruct Hp as (P1 & P2 & P3 & P4 & _). cbn [bn_of bn_w bn_b bn_mean bn_var] in P1, P2, P3, P4.
  apply obind_inv in H. destruct H as (m1 & _ & H). apply obind_inv in H. destruct H as (m2 & _ & H).
  apply obind_inv in H. destruct H as (fb & _ & H). apply obind_inv in H. destruct H as (off & _ & H).
  apply obind_inv in H. destruct H as (s & Es & H). apply obind_inv in H. destruct H as (w0 & Ew & H).
  apply obind_inv in H. destruct H as (d4 & _ & H). injection H as -> _.
  destruct (arr2_same Rmult (or_else bw (length rm) 1) (bn_inv eps rv) (length rm)) as (s' & Es' & Ls & _);
    [exact P1|rewrite bn_inv_length; exact P4|]. rewrite Es in Es'. injection Es' as <-.
  rewrite mul_axis_shape, Ls, Hi in Ew. unfold bdim in Ew. destruct (Nat.eqb_spec 1 (length rm)); [lia|]. cbn [Nat.eqb] in Ew.
  injection Ew as <-. cbn [tshape]. destruct (tshape w) as [|d [|d' r]]; cbn [length] in HL; try lia. cbn [upd nth].
  cbn [nth] in Hi. split; [intro HE; injection HE as HE; lia|reflexivity].
Qed.

(** any other grouped convolution behind a batch norm: raises *)
Lemma bn_grouped_raises w b rm rv eps bw bb G :
  length rm = (nth 1 (tshape w) 0 * G)%nat -> (1 < G)%nat -> (1 < nth 1 (tshape w) 0)%nat ->
  bn_ok (length rm) (bn_of rm rv eps bw bb) -> fuse_bn_conv_weights w b rm rv eps bw bb = None.
Proof.
  intros HC HG Hi Hp. destruct (fuse_bn_conv_weights w b rm rv eps bw bb) as [[w' b']|] eqn:H; [exfalso|reflexivity].
  unfold fuse_bn_conv_weights in H. destruct Hp as (P1 & P2 & P3 & P4 & _). cbn [bn_of bn_w bn_b bn_mean bn_var] in P1, P2, P3, P4.
  apply obind_inv in H. destruct H as (m1 & Em1 & H). apply obind_inv in H. destruct H as (m2 & Em2 & H).
  apply obind_inv in H. destruct H as (fb & Efb & H). apply obind_inv in H. destruct H as (off & Eoff & H).
  destruct (arr2_same Rmult rm (bn_inv eps rv) (length rm)) as (r1 & E1 & L1 & _); [reflexivity|rewrite bn_inv_length; exact P4|].
  rewrite E1 in Em1. injection Em1 as ->.
  destruct (arr2_same Rmult m1 (or_else bw (length rm) 1) (length rm)) as (r2 & E2 & L2 & _); [exact L1|exact P1|].
  rewrite E2 in Em2. injection Em2 as ->.
  destruct (arr2_same Rminus (or_else bb (length rm) 0) m2 (length rm)) as (r3 & E3 & L3 & _); [exact P2|exact L2|].
  rewrite E3 in Efb. injection Efb as ->.
  destruct (Nat.eqb_spec (nth 1 (tshape w) 0%nat) 1); [lia|]. cbn [andb] in Eoff.
  destruct (Nat.eqb_spec (nth 1 (tshape w) 0%nat) (length fb)); [nia|discriminate].
Qed.

(* ------------------------------------------------------------------ *)
(** * Counterexamples *)

Definition kt (sh : list nat) (v : R) : tensor R := mkT sh (fun _ => v).
Definition relu_act : nat -> R -> R := fun _ y => Rmax 0 y.
Definition id_act : nat -> R -> R := fun _ y => y.
Lemma relu_homog : pos_homog relu_act.
Proof. intros c t y Ht. unfold relu_act. replace 0 with (t * 0) at 1 by ring. rewrite <- RmaxRmult by lra. reflexivity. Qed.
Lemma id_homog : pos_homog id_act.
Proof. intros c t y Ht. reflexivity. Qed.

Lemma eq_scale_value thr r1 r2 q : 0 < q -> q * q = r1 * r2 -> thr <= r1 + r2 -> s_min * q <= r1 <= s_max * q ->
  eq_scale thr r1 r2 = Some (r1 / q).
Proof.
  intros Hq E Ht [Hlo Hhi]. unfold eq_scale. destruct (Rlt_dec _ _); [lra|].
  destruct (Req_EM_T _ _); [nra|]. rewrite <- E, sqrt_square by lra. f_equal.
  assert (H1 : s_min <= r1 / q) by (apply Rmult_le_reg_r with q; [exact Hq|]; unfold Rdiv; rewrite Rmult_assoc, Rinv_l, Rmult_1_r by lra; exact Hlo).
  assert (H2 : r1 / q <= s_max) by (apply Rmult_le_reg_r with q; [exact Hq|]; unfold Rdiv; rewrite Rmult_assoc, Rinv_l, Rmult_1_r by lra; exact Hhi).
  rewrite Rmax_right, Rmin_right by assumption. reflexivity.
Qed.
Lemma scale_1_1 : eq_scale (1 / 2) (Rabs 1) (Rabs 1) = Some 1.
Proof. rewrite Rabs_R1, (eq_scale_value _ _ _ 1); [f_equal; field|lra|lra|lra|unfold s_min, s_max; lra]. Qed.
Lemma scale_4_1 : eq_scale (1 / 2) (Rabs 4) (Rabs 1) = Some 2.
Proof. rewrite (Rabs_pos_eq 4), Rabs_R1, (eq_scale_value _ _ _ 2) by lra || (unfold s_min, s_max; lra). f_equal. field. Qed.
Lemma scale_1_4 : eq_scale (1 / 2) (Rabs 1) (Rabs 4) = Some (1 / 2).
Proof. rewrite (Rabs_pos_eq 4), Rabs_R1, (eq_scale_value _ _ _ 2) by lra || (unfold s_min, s_max; lra). f_equal. Qed.

Ltac eval_equalize := unfold equalize; cbn -[Rabs eq_scale Rmult Rdiv Rmax rows_absmax]; unfold rows_absmax;
  cbn -[Rabs eq_scale Rmult Rdiv Rmax].

(** a channel without weights in front of a channel with large ones: the scale is nan *)
Lemma equalize_zero_channel w1 b1 w2 thr : tshape w1 = [1; 1]%nat -> tshape w2 = [1; 1]%nat ->
  tget w1 [0; 0]%nat = 0 -> thr <= Rabs (tget w2 [0; 0]%nat) -> weight_equal w1 b1 w2 1 thr = None.
Proof.
  intros S1 S2 H1 H2. unfold weight_equal, equalize. rewrite S1, S2. cbn -[Rabs eq_scale Rmult Rdiv Rmax rows_absmax]. unfold rows_absmax.
  cbn -[Rabs eq_scale Rmult Rdiv Rmax]. rewrite S1, S2. cbn -[Rabs eq_scale Rmult Rdiv Rmax]. rewrite H1, Rabs_R0.
  unfold eq_scale. destruct (Rlt_dec _ _); [lra|]. destruct (Req_EM_T _ _); [|lra]. destruct (Req_EM_T 0 0); [reflexivity|lra].
Qed.

(** a 1-D convolution followed by a linear layer on the last axis, as many channels as positions *)
Definition cl_w1 : tensor R := mkT [2; 1; 1]%nat (fun idx => match idx with O :: _ => 4 | _ => 1 end).
Definition unit_attr (n : nat) : conv_attr := mkCA (repeat 1%nat n) (repeat 1%nat n) (repeat 0%nat n) (repeat 0%nat n) 1.
Definition cl_l1 : clayer := mkCL (KConv (unit_attr 1)) cl_w1 None relu_act.
Definition cl_l2 : clayer := mkCL KLinear (kt [1; 2]%nat 1) None id_act.
Definition cl_x : tensor R := mkT [1; 1; 2]%nat (fun idx => match idx with [_; _; O] => 1 | _ => 0 end).
Lemma conv_linear_changes : exists w1 b1 w2,
  weight_equal (cl_w cl_l1) (cl_b cl_l1) (cl_w cl_l2) (cl_groups cl_l2) (1 / 2) = Some (w1, b1, w2) /\
  tget (run_net [mkCL (cl_kind cl_l1) w1 b1 (cl_act cl_l1); mkCL (cl_kind cl_l2) w2 (cl_b cl_l2) (cl_act cl_l2)] cl_x) [0; 1; 0]%nat = 2 /\
  tget (run_net [cl_l1; cl_l2] cl_x) [0; 1; 0]%nat = 1.
Proof.
  assert (E : equalize (cl_w cl_l1) (cl_w cl_l2) (cl_groups cl_l2) (1 / 2) = Some [2; 1]).
  { unfold cl_l1, cl_l2, cl_w1. eval_equalize. rewrite scale_4_1, scale_1_1. reflexivity. }
  unfold weight_equal. rewrite E. cbn [obind]. do 3 eexists. split; [reflexivity|].
  unfold run_net, run1, cl_l1, cl_l2, cl_w1, id_act, relu_act. cbn -[Rmult Rdiv Rmax Rplus]. split.
  - unfold lsum. cbn -[Rmult Rdiv Rmax Rplus]. rewrite !Rmax_right by lra. lra.
  - unfold lsum. cbn -[Rmult Rdiv Rmax Rplus]. rewrite !Rmax_right by lra. lra.
Qed.

(** two groups of two channels: the scale of one channel is computed from the range of another *)
Definition g_w2 : tensor R := mkT [2; 2; 1]%nat (fun idx => match idx with O :: S O :: _ => 4 | _ => 1 end).
Lemma grouped_unbalanced : exists w1 b1 w2,
  weight_equal (kt [4; 1; 1]%nat 1) None g_w2 2 (1 / 2) = Some (w1, b1, w2) /\
  out_range (kt [4; 1; 1]%nat 1) 1 1 /\ in_range 2 g_w2 1 4 /\
  forall r, ~ (out_range w1 1 r /\ in_range 2 w2 1 r).
Proof.
  assert (E : equalize (kt [4; 1; 1]%nat 1) g_w2 2 (1 / 2) = Some [1; 1; 1 / 2; 1]).
  { unfold g_w2. eval_equalize. rewrite scale_1_4, scale_1_1. reflexivity. }
  unfold weight_equal. rewrite E. cbn [obind]. do 3 eexists. split; [reflexivity|].
  assert (K1 : forall k, valid [4; 1; 1]%nat k -> nth 0 k 0%nat = 1%nat -> k = [1; 0; 0]%nat).
  { intros k V Hk. inversion V as [|a d r s Ha Vr]; subst. inversion Vr as [|b d r' s Hb Vr']; subst. inversion Vr' as [|c d r s Hc V0]; subst. inversion V0; subst.
    cbn [nth] in Hk. subst a. repeat f_equal; lia. }
  assert (K2 : forall k, valid [2; 2; 1]%nat k -> (nth 0 k 0 * 2 + nth 1 k 0)%nat = 1%nat -> k = [0; 1; 0]%nat).
  { intros k V Hk. inversion V as [|a d r s Ha Vr]; subst. inversion Vr as [|b d r' s Hb Vr']; subst. inversion Vr' as [|c d r s Hc V0]; subst. inversion V0; subst.
    cbn [nth] in Hk. assert (a = 0%nat) by lia. assert (b = 1%nat) by lia. assert (c = 0%nat) by lia. subst. reflexivity. }
  split; [|split].
  - split; [exists [1; 0; 0]%nat|]; cbn [kt tshape tget].
    + split; [split; [repeat constructor|reflexivity]|apply Rabs_R1].
    + intros k _. rewrite Rabs_R1. lra.
  - split; [exists [0; 1; 0]%nat|].
    + split; [split; [repeat constructor|reflexivity]|]. cbn [g_w2 tget]. apply Rabs_pos_eq. lra.
    + intros k [V Hk]. cbn [g_w2 tshape nth] in V, Hk. change (2 / 2)%nat with 1%nat in Hk. rewrite Nat.div_1_r in Hk. apply (K2 k V) in Hk. subst k.
      cbn [g_w2 tget]. rewrite Rabs_pos_eq by lra. lra.
  - intros r [[(k & [V Hk] & Er) _] [_ Hmax]]. cbn [tshape] in V. apply (K1 k V) in Hk. subst k. cbn -[Rabs Rmult Rdiv] in Er.
    assert (Hv : valid [2; 2; 1]%nat [0; 1; 0]%nat) by repeat constructor.
    specialize (Hmax [0; 1; 0]%nat (conj Hv eq_refl)). cbn -[Rabs Rmult Rdiv] in Hmax.
    rewrite <- Er in Hmax. replace (1 / 1) with 1 in Hmax by field. rewrite Rmult_1_r, Rabs_R1, Rabs_pos_eq in Hmax by lra. lra.
Qed.

(** absorption in front of a padded convolution *)
Definition pad1_attr : conv_attr := mkCA [1; 1]%nat [1; 1]%nat [1; 1]%nat [1; 1]%nat 1.
Lemma absorb_padding_changes :
  let w := kt [1; 1; 1; 1]%nat 1 in
  let x := kt [1; 1; 1; 1]%nat 20 in
  (forall idx, valid (tshape (conv (unit_attr 2) x w (lbias (Some [0])))) idx ->
     absorbed [1] [13] (nth 1 idx 0%nat) <= tget (conv (unit_attr 2) x w (lbias (Some [0]))) idx) /\
  exists b1 b2, bias_absorb [1] [13] [0] w [0] = Some (b1, b2) /\
  ~ teq (run1 (mkCL (KConv pad1_attr) w (Some b2) id_act) (run1 (mkCL (KConv (unit_attr 2)) w (Some b1) relu_act) x))
        (run1 (mkCL (KConv pad1_attr) w (Some [0]) id_act) (run1 (mkCL (KConv (unit_attr 2)) w (Some [0]) relu_act) x)).
Proof.
  intros w x. split.
  - intros idx V. unfold conv in V. cbn in V.
    inversion V as [|n d r s Hn Vr]; subst idx d s. inversion Vr as [|o d r2 s Ho Vr2]; subst r d s.
    inversion Vr2 as [|h d r3 s Hh Vr3]; subst r2 d s. inversion Vr3 as [|v d r4 s Hv Vr4]; subst r3 d s. inversion Vr4; subst.
    assert (n = 0%nat) by lia. assert (o = 0%nat) by lia. assert (h = 0%nat) by lia. assert (v = 0%nat) by lia. subst.
    unfold absorbed, conv, lsum. cbn -[Rmult Rmax Rplus Rabs]. rewrite Rabs_R1, Rmax_right by lra. lra.
  - unfold bias_absorb, absorb_c. cbn -[Rmult Rmax Rplus Rabs Rminus Rlt_dec]. rewrite Rabs_R1. destruct (Rlt_dec _ _); [lra|].
    do 2 eexists. split; [reflexivity|]. intros [_ H]. specialize (H [0; 0; 0; 0]%nat).
    cbn -[Rmult Rmax Rplus Rabs Rminus valid] in H. unfold lsum in H. cbn -[Rmult Rmax Rplus Rabs Rminus valid] in H.
    unfold id_act in H. assert (HV : valid [1; 1; 3; 3]%nat [0; 0; 0; 0]%nat) by (repeat constructor; lia). specialize (H HV). unfold wsum, lsum in H. cbn in H. lra.
Qed.

(** absorption after equalization: the stored batch norm no longer describes the channel *)
Lemma absorb_after_equalization_changes :
  let a := unit_attr 2 in
  let w1 := kt [1; 1; 1; 1]%nat 4 in
  let w2 := kt [1; 1; 1; 1]%nat 1 in
  let x := kt [1; 1; 1; 1]%nat (- (1 / 2)) in
  tget (conv a x w1 (lbias (Some [13]))) [0; 0; 0; 0]%nat = 11 /\ absorbed [1] [13] 0 = 10 /\
  exists w1' b1' w2' b2', cle_hba (1 / 2) [1] [13] w1 [13] w2 [0] 1 = Some (w1', b1', w2', b2') /\
  tget (run1 (mkCL (KConv a) w2 (Some [0]) id_act) (run1 (mkCL (KConv a) w1 (Some [13]) relu_act) x)) [0; 0; 0; 0]%nat = 11 /\
  tget (run1 (mkCL (KConv a) w2' (Some b2') id_act) (run1 (mkCL (KConv a) w1' (Some b1') relu_act) x)) [0; 0; 0; 0]%nat = 20.
Proof.
  intros a w1 w2 x. split; [|split].
  - unfold conv, lsum. cbn -[Rmult Rmax Rplus]. lra.
  - unfold absorbed. cbn [nth]. rewrite Rabs_R1, Rmax_right by lra. lra.
  - assert (E : equalize w1 w2 1 (1 / 2) = Some [2]).
    { unfold w1, w2, kt. eval_equalize. rewrite scale_4_1. reflexivity. }
    unfold cle_hba, weight_equal. rewrite E. cbn -[Rmult Rmax Rplus Rabs Rminus Rlt_dec Rdiv bias_absorb].
    unfold bias_absorb, absorb_c. cbn -[Rmult Rmax Rplus Rabs Rminus Rlt_dec Rdiv]. rewrite Rabs_R1. destruct (Rlt_dec _ _); [lra|].
    do 4 eexists. split; [reflexivity|]. unfold run1, wsum, lsum, id_act, relu_act. cbn -[Rmult Rmax Rplus Rminus Rdiv]. unfold lsum. cbn -[Rmult Rmax Rplus Rminus Rdiv]. split.
    + rewrite !Rmax_right by lra. lra.
    + rewrite Rmax_left by lra. lra.
Qed.

(** batch norm in front of a padded convolution *)
Lemma inv_one : 1 / sqrt (1 + 0) = 1.
Proof. rewrite sqrt_1_0. field. Qed.
Lemma bn_conv_padding_changes :
  let w := kt [1; 1; 1; 1]%nat 1 in
  let x := kt [1; 1; 1; 1]%nat 2 in
  exists w' b', fuse_bn_conv_weights w None [0] [1] 0 None (Some [5]) = Some (w', b') /\
    tget (conv pad1_attr x w' (bias_fn (Some b'))) [0; 0; 0; 0]%nat = 5 /\
    tget (conv pad1_attr (run_bn (bn_of [0] [1] 0 None (Some [5])) ANone x) w (bias_fn None)) [0; 0; 0; 0]%nat = 0.
Proof.
  intros w x. unfold fuse_bn_conv_weights. cbn -[Rmult Rdiv Rplus Rminus sqrt]. do 2 eexists. split; [reflexivity|].
  unfold conv, bias_fn, lsum, wsum. cbn -[Rmult Rdiv Rplus Rminus sqrt]. rewrite inv_one. unfold lsum. cbn -[Rmult Rdiv Rplus Rminus sqrt].
  rewrite ?inv_one. split; lra.
Qed.

(** depthwise, two channels *)
Lemma bn_dw_witness : exists w' b',
  fuse_bn_conv_weights (kt [2; 1; 1; 1]%nat 1) None [0; 0] [1; 1] 0 None None = Some (w', b') /\ tshape w' = [2; 2; 1; 1]%nat.
Proof. unfold fuse_bn_conv_weights. cbn -[Rmult Rdiv Rplus Rminus sqrt]. do 2 eexists. split; reflexivity. Qed.
(** transposed, two groups of one output channel *)
Lemma deconv_groups_witness : exists w' b',
  fuse_conv_bn_weights (kt [2; 1; 1; 1]%nat 1) None [0; 0] [1; 1] 0 None None true = Some (w', b') /\ tshape w' = [2; 2; 1; 1]%nat.
Proof. unfold fuse_conv_bn_weights. cbn -[Rmult Rdiv Rplus Rminus sqrt]. do 2 eexists. split; reflexivity. Qed.
Lemma zero_filter_witness : exists w1 b1 w2 thr,
  nth 0 (tshape w1) 0%nat = nth 1 (tshape w2) 0%nat /\ (0 < prod (tshape w1))%nat /\ (0 < prod (tshape w2))%nat /\
  weight_equal w1 b1 w2 1 thr = None.
Proof.
  exists (kt [1; 1]%nat 0), None, (kt [1; 1]%nat 1), (1 / 2). repeat split; try (cbn; lia).
  apply equalize_zero_channel; try reflexivity. cbn [kt tget]. rewrite Rabs_R1. lra.
Qed.
