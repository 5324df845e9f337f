(** Batch-norm compensation (C41) and where shrinking differs from masking (C39). *)
From Coq Require Import List Arith ZArith Bool Reals Lra Lia Permutation.
From Verif Require Import Tensor ConvSpec FuseModel FuseProofs QuantModel QuantProofs QModModel QModProofs PruneModel SetOrderProofs SetTermProofs OrderProofs ShrinkModel ShrinkProofs.
Import ListNotations.
Local Open Scope R_scope.

Lemma lsum_split {A} (p : A -> bool) l f : lsum l f = lsum (filter (fun x => negb (p x)) l) f + lsum (filter p l) f.
Proof.
  rewrite !lsum_filter, <- lsum_plus. apply lsum_ext. intros x _. destruct (p x); cbn [negb]; ring.
Qed.
Lemma compl_nil n : exists l, complementary_list n [] = Some l /\ length l = n.
Proof.
  destruct (complementary_list_correct n []) as (l & E & P & _). exists l. split; trivial.
  rewrite (Permutation_length P), kept_unfold. rewrite (filter_ext _ (fun _ => true)) by reflexivity.
  rewrite filter_true, seq_length. reflexivity.
Qed.

Lemma bn_cut p (x xs : tensor R) ri bn : (2 <= length (tshape x))%nat -> length (bn_w p) = nth 1 (tshape x) 0%nat ->
  shrink_layer ri ri (PlBn p) = Some bn -> teq xs (restrict ri x) ->
  kept_out (kept_list (nth 1 (tshape x) 0%nat) ri) (run_pl bn xs) (run_pl (PlBn p) x).
Proof.
  intros L2 HL E Hx. pose proof (bn_restrict p x xs ri bn L2 HL E Hx) as (S & G). split; [exact S|].
  intros idx V. rewrite (G idx V). cbn [gather tget mask_layer run_pl run_bn tmap batch_norm bn_eps bn_w bn_b bn_mean bn_var act_fn].
  rewrite S in V. cbn [gather tshape] in V.
  assert (L1 : (1 < length idx)%nat).
  { rewrite (valid_length _ _ V), upd_length. cbn [mask_layer run_pl run_bn tmap batch_norm tshape]. exact L2. }
  pose proof (valid_nth _ _ 1 V) as Q. rewrite upd_length in Q. cbn [mask_layer run_pl run_bn tmap batch_norm tshape] in Q.
  specialize (Q L2). rewrite upd_nth_eq in Q by exact L2. pose proof (kept_list_nth _ _ _ Q) as (N1 & N2).
  rewrite upd_nth_eq by exact L1. rewrite !lmask_nth by exact N2. reflexivity.
Qed.

(** the position reads no padding, or the removed channels are zero behind the activation *)
Definition pad_free (a : conv_attr) (dims ks pos : list nat) : Prop :=
  forall k, valid ks k -> tap dims (ca_stride a) (ca_dil a) (ca_pad a) pos k <> None.

Lemma compensate_correct act p ri a (w : tensor R) b (x : tensor R) cout cin ks :
  tshape w = cout :: cin :: ks -> spatial_ok a (tshape x) ks -> nth 1 (tshape x) 0%nat = cin ->
  length (bn_w p) = cin -> ca_groups a = 1%nat -> is_dw_conv a w = false ->
  (forall c, In c ri -> (c < cin)%nat -> nth c (bn_w p) 0 = 0) ->
  exists bn cv, shrink_bn_conv act p ri a w b = Some (bn, cv) /\
    let before := run_pl (PlConv a w b) (tmap act (run_pl (PlBn p) x)) in
    let after := run_pl cv (tmap act (run_pl bn (restrict ri x))) in
    tshape after = tshape before /\
    forall n o pos, valid (tshape before) (n :: o :: pos) ->
      (pad_free a (skipn 2 (tshape x)) ks pos \/ (forall c, In c ri -> (c < cin)%nat -> act (nth c (bn_b p) 0) = 0)) ->
      tget after (n :: o :: pos) = tget before (n :: o :: pos).
Proof.
  intros Hw Sp Hc HL HG Hdw Hz. unfold shrink_bn_conv. rewrite HL.
  destruct (compl_some cin ri) as (keep & EK). rewrite EK. cbn [obind].
  destruct (layer_some ri ri (PlBn p) (tshape x)) as (bn & EB); [split; [apply Sp|split; [congruence|reflexivity]]|].
  rewrite EB. cbn [obind]. set (b' := if (cin =? length keep)%nat then b else compensate act p ri a w b).
  unfold shrink_conv. rewrite Hdw, HG, Hw. cbn [nth Nat.eqb]. rewrite EK. cbn [obind].
  destruct (compl_nil cout) as (lo & -> & Llo). cbn [obind]. rewrite Llo, Nat.eqb_refl.
  set (w1 := if (cin =? length keep)%nat then w else gather 1 keep w).
  assert (C1 : teq w1 (gather 1 (kept_list cin ri) w))
    by (apply cut_ok; [exact EK|rewrite Hw; reflexivity|rewrite Hw; cbn; lia]).
  set (K := kept_list cin ri) in *.
  assert (S1 : tshape w1 = cout :: length K :: ks) by (rewrite (proj1 C1); cbn [gather tshape]; rewrite Hw; reflexivity).
  exists bn, (PlConv a w1 b'). split; [reflexivity|]. cbn zeta.
  set (z := tmap act (run_pl (PlBn p) x)). set (zs := tmap act (run_pl bn (restrict ri x))).
  pose proof Sp as (L2 & Lk & Ls & Ld & Lp & Le).
  assert (Z : teq zs (gather 1 K z)).
  { pose proof (bn_cut p x _ ri bn L2 ltac:(congruence) EB (teq_refl _)) as (S & G). rewrite Hc in S, G. split; [exact S|].
    intros idx V. unfold zs, z. cbn [tmap tget gather]. rewrite (G idx V). reflexivity. }
  assert (L2z : (2 <= length (tshape z))%nat) by exact L2.
  destruct (gather1_shape _ _ _ Z L2z) as (T0 & T1 & T2 & T3).
  split. { cbn [run_pl conv tshape]. rewrite S1, Hw, T2, T0. reflexivity. }
  intros n o pos V Hp. cbn [run_pl conv tshape] in V. rewrite Hw in V. cbn [nth] in V.
  inversion V as [|n' d r s Hn V1]; subst n' d r s. inversion V1 as [|o' d r s Ho V2]; subst o' d r s.
  assert (LP : length pos = length (skipn 2 (tshape x))).
  { rewrite (valid_length _ _ V2). apply out_dims_length; trivial. }
  unfold run_pl, conv. cbn [tget]. rewrite S1, Hw, T2, HG. cbn [nth]. rewrite Nat.div_1_r, (Nat.div_small o) by exact Ho.
  cbn [Nat.mul Nat.add]. change (skipn 2 (cout :: length K :: ks)) with ks. change (skipn 2 (cout :: cin :: ks)) with ks.
  change (skipn 2 (tshape z)) with (skipn 2 (tshape x)). set (dims := skipn 2 (tshape x)) in *.
  set (F := fun i => lsum (indices ks) (fun k => tget w (o :: i :: k) * read0 z n i (tap dims (ca_stride a) (ca_dil a) (ca_pad a) pos k))).
  change (lsum (seq 0 cin) (fun i => lsum (indices ks) (fun k => tget w (o :: i :: k) * read0 z n i (tap dims (ca_stride a) (ca_dil a) (ca_pad a) pos k))))
    with (lsum (seq 0 cin) F).
  assert (EL : lsum (seq 0 (length K)) (fun i => lsum (indices ks) (fun k => tget w1 (o :: i :: k) *
      read0 zs n i (tap dims (ca_stride a) (ca_dil a) (ca_pad a) pos k))) = lsum (kept cin ri) F).
  { rewrite <- (lsum_perm _ _ F (kept_list_perm cin ri)). fold K. rewrite (lsum_nth K). apply lsum_ext. intros i Hi. apply in_seq in Hi.
    unfold F. apply lsum_ext. intros k Hk. apply indices_valid in Hk.
    rewrite (teq_upd_valid 1 w w1 K C1) by (rewrite S1; constructor; [exact Ho|constructor; [lia|exact Hk]]). cbn [upd nth]. f_equal.
    destruct tap as [q|] eqn:T; [|reflexivity]. cbn [read0].
    apply (gather1_get K z zs); trivial; [lia|]. apply (tap_valid _ _ _ _ _ _ _ Ls Ld Lp LP ltac:(rewrite (valid_length _ _ Hk); exact Lk) T). }
  rewrite EL, (lsum_split (fun i => nmem i ri) (seq 0 cin) F), <- kept_unfold.
  assert (ER : lsum (filter (fun i => nmem i ri) (seq 0 cin)) F = compensation act p w ri o).
  { unfold compensation. rewrite Hw. cbn [nth]. change (skipn 2 (cout :: cin :: ks)) with ks. apply lsum_ext. intros i Hi.
    apply filter_In in Hi. destruct Hi as (Hi & Hr). apply in_seq in Hi. apply nmem_In in Hr. unfold F.
    assert (ZV : forall q, tget z (n :: i :: q) = act (nth i (bn_b p) 0)).
    { intro q. unfold z. cbn [tmap tget run_pl run_bn batch_norm nth act_fn]. f_equal. unfold bn_affine. rewrite Hz by (trivial; lia). ring. }
    rewrite <- lsum_scal_r. apply lsum_ext. intros k Hk. apply indices_valid in Hk. f_equal.
    destruct Hp as [Hp|Hp].
    - specialize (Hp k Hk). destruct tap as [q|]; [|congruence]. cbn [read0]. apply ZV.
    - destruct tap as [q|]; cbn [read0]; [apply ZV|]. rewrite Hp by (trivial; lia). reflexivity. }
  rewrite ER. unfold b'. destruct (Nat.eqb_spec cin (length keep)) as [EQ|EQ].
  - assert (E0 : filter (fun i => nmem i ri) (seq 0 cin) = []).
    { destruct (filter (fun i => nmem i ri) (seq 0 cin)) as [|c l] eqn:EF; trivial. exfalso.
      assert (I : In c (filter (fun i => nmem i ri) (seq 0 cin))) by (rewrite EF; left; reflexivity).
      apply filter_In in I. destruct I as (I1 & I2). apply nmem_In in I2. apply in_seq in I1.
      assert (KS : In c K). { unfold K, kept_list. rewrite EK, <- EQ, Nat.eqb_refl. apply in_seq. lia. }
      apply kept_list_In in KS. tauto. }
    unfold compensation. rewrite Hw. cbn [nth]. rewrite E0. change (lsum (@nil nat) _) with 0. rewrite Rplus_0_r. reflexivity.
  - unfold compensate. rewrite HG, Hw. cbn [Nat.eqb nth lbias]. rewrite nth_map_seq by exact Ho.
    destruct b as [b|]; cbn [lbias]; ring.
Qed.

(* ------------------------------------------------------------------ *)
(** * Witnesses *)

(** compensation on a padded border: a 1x3 kernel over one pixel; channel 0 is the constant 1 *)
Definition cw_bn : bn_params := mkBn 1 [0; 1] [1; 0] [0; 0] [0; 0].
Definition cw_conv : conv_attr := mkCA [1%nat; 1%nat] [1%nat; 1%nat] [0%nat; 1%nat] [0%nat; 1%nat] 1.
Definition cw_w : tensor R := mkT [1; 2; 1; 3]%nat (fun idx => if (nth 1 idx 0 =? 0)%nat then 1 else 0).
Definition cw_x : tensor R := mkT [1; 2; 1; 1]%nat (fun _ => 0).
Lemma compensate_border : exists bn cv, shrink_bn_conv (act_fn ARelu) cw_bn [0%nat] cw_conv cw_w None = Some (bn, cv) /\
  tget (run_pl (PlConv cw_conv cw_w None) (tmap (act_fn ARelu) (run_pl (PlBn cw_bn) cw_x))) [0; 0; 0; 0]%nat = 1 /\
  tget (run_pl cv (tmap (act_fn ARelu) (run_pl bn (restrict [0%nat] cw_x)))) [0; 0; 0; 0]%nat = 3.
Proof.
  unfold shrink_bn_conv, shrink_layer, shrink_conv, cw_bn, cw_conv, is_dw_conv. cbn [bn_w length ca_groups cw_w tshape nth Nat.eqb Nat.mul Nat.add andb].
  replace (complementary_list 2 [0%nat]) with (Some [1%nat]) by (vm_compute; reflexivity).
  replace (complementary_list 1 []) with (Some [0%nat]) by (vm_compute; reflexivity).
  cbn [obind length Nat.eqb]. do 2 eexists. split; [reflexivity|].
  assert (R1 : Rmax 0 1 = 1) by (apply Rmax_right; lra).
  split.
  - cbv -[Rplus Rmult Rminus Rdiv Ropp Rinv Rmax sqrt IZR INR].
    replace ((0 - 0) / sqrt (0 + 1) * 0 + 1) with 1 by ring. rewrite R1. ring.
  - cbv -[Rplus Rmult Rminus Rdiv Ropp Rinv Rmax sqrt IZR INR restrict]. rewrite R1. ring.
Qed.

(** flatten: nine channels of three, 7 and 8 kept; the kept channels are stored as 8, 7 *)
Definition fw_ri : list nat := [0; 1; 2; 3; 4; 5; 6]%nat.
Definition fw_w : tensor R := mkT [1; 27]%nat (fun idx => if (nth 1 idx 0 =? 21)%nat then 1 else 0).
Definition fw_x : tensor R := mkT [1; 9; 3]%nat (fun idx => if (nth 1 idx 0 =? 7)%nat && (nth 2 idx 0 =? 0)%nat then 1 else 0).
Definition fw_net : pnet := [(PlFlatten, (fw_ri, flat 3 fw_ri)); (PlLinear fw_w None, (flat 3 fw_ri, []))].
Lemma flatten_order : exists ls, shrink_net fw_net = Some ls /\
  tget (run_pls (mask_net fw_net) fw_x) [0; 0]%nat = 1 /\ tget (run_pls ls (restrict fw_ri fw_x)) [0; 0]%nat = 0.
Proof.
  unfold fw_net, fw_ri. cbn [shrink_net shrink_layer obind fw_w tshape nth].
  replace (complementary_list 27 (flat 3 [0; 1; 2; 3; 4; 5; 6]%nat)) with (Some [21; 22; 23; 24; 25; 26]%nat) by (vm_compute; reflexivity).
  replace (complementary_list 1 []) with (Some [0%nat]) by (vm_compute; reflexivity).
  cbn [obind length Nat.eqb]. eexists. split; [reflexivity|].
  assert (EK : kept_list 9 [0; 1; 2; 3; 4; 5; 6]%nat = [8; 7]%nat) by (vm_compute; reflexivity).
  split.
  - cbv -[Rplus Rmult Rminus Rdiv Ropp Rinv Rmax sqrt IZR INR]. ring.
  - unfold restrict. cbn [fw_x tshape nth]. rewrite EK. cbv -[Rplus Rmult Rminus Rdiv Ropp Rinv Rmax sqrt IZR INR]. ring.
Qed.

(** grouped convolution: two groups of eight, 7 and 8 kept, one of each group; stored as 8, 7 *)
Definition gw_ri : list nat := [0; 1; 2; 3; 4; 5; 6; 9; 10; 11; 12; 13; 14; 15]%nat.
Definition gw_a : conv_attr := mkCA [1%nat; 1%nat] [1%nat; 1%nat] [0%nat; 0%nat] [0%nat; 0%nat] 2.
Definition gw_w : tensor R := mkT [2; 8; 1; 1]%nat (fun idx => if (nth 0 idx 0 =? 0)%nat && (nth 1 idx 0 =? 7)%nat then 1 else 0).
Definition gw_x : tensor R := mkT [1; 16; 1; 1]%nat (fun idx => if (nth 1 idx 0 =? 7)%nat then 1 else 0).
Definition gw_net : pnet := [(PlConv gw_a gw_w None, (gw_ri, []))].
Lemma group_order : exists ls, shrink_net gw_net = Some ls /\
  tget (run_pls (mask_net gw_net) gw_x) [0; 0; 0; 0]%nat = 1 /\ tget (run_pls ls (restrict gw_ri gw_x)) [0; 0; 0; 0]%nat = 0.
Proof.
  assert (EK : kept_list 16 gw_ri = [8; 7]%nat) by (vm_compute; reflexivity).
  assert (E0 : group_keep gw_ri 2 8 0 = Some [7%nat]) by (vm_compute; reflexivity).
  assert (E1 : group_keep gw_ri 2 8 1 = Some [0%nat]) by (vm_compute; reflexivity).
  unfold gw_net. cbn [shrink_net shrink_layer obind]. unfold shrink_conv, is_dw_conv, shrink_group_in.
  cbn [gw_a gw_w tshape nth ca_groups Nat.eqb Nat.mul Nat.add andb seq map]. rewrite E0, E1.
  replace (complementary_list 2 []) with (Some [0; 1]%nat) by (vm_compute; reflexivity).
  change (16 =? 16 - length gw_ri)%nat with false.
  cbn [oall obind length Nat.eqb forallb nth andb]. eexists. split; [reflexivity|]. split.
  - cbv -[Rplus Rmult Rminus Rdiv Ropp Rinv Rmax sqrt IZR INR]. ring.
  - unfold restrict. change (nth 1 (tshape gw_x) 0%nat) with 16%nat. rewrite EK. cbv -[Rplus Rmult Rminus Rdiv Ropp Rinv Rmax sqrt IZR INR]. ring.
Qed.

(** layer norm over two channels, channel 0 (zero in the masked network) removed *)
Lemma layer_norm_differs :
  let x := mkT [1; 2]%nat (fun idx => match nth 1 idx 0%nat with 0%nat => 0 | _ => 2 end) in
  let vec l := mkT [length l] (fun idx => nth (nth 0 idx 0%nat) l 0) in
  exists g b, ln_shrink [0%nat] [1; 1] [0; 0] = Some (g, b) /\
    let '(gm, bm) := ln_mask [0%nat] [1; 1] [0; 0] in
    tget (layernorm_spec [2%nat] (vec gm) (vec bm) 0 x) [0; 1]%nat = 1 /\
    tget (layernorm_spec [1%nat] (vec g) (vec b) 0 (restrict [0%nat] x)) [0; 0]%nat = 0.
Proof.
  cbn zeta. unfold ln_shrink. cbn [length]. replace (complementary_list 2 [0%nat]) with (Some [1%nat]) by (vm_compute; reflexivity).
  cbn [obind]. do 2 eexists. split; [reflexivity|]. unfold ln_mask.
  assert (EK : kept_list 2 [0%nat] = [1%nat]) by (vm_compute; reflexivity).
  split.
  - cbv -[Rplus Rmult Rminus Rdiv Ropp Rinv Rmax sqrt IZR INR pow].
    replace (INR 2) with 2 by (cbn; ring).
    match goal with |- context [sqrt ?e] => replace e with 1 by field end. rewrite sqrt_1. field.
  - unfold layernorm_spec, expect, restrict. cbn [tshape nth]. rewrite EK. cbv -[Rplus Rmult Rminus Rdiv Ropp Rinv Rmax sqrt IZR INR pow].
    match goal with |- context [(2 - ?e)] => replace (2 - e) with 0 by (cbn; field) end.
    unfold Rdiv. ring.
Qed.

Lemma flatten_refuted : exists w ri x ls,
  let net := [(PlFlatten, (ri, flat 3 ri)); (PlLinear w None, (flat 3 ri, []))] in
  tshape w = [1; 27]%nat /\ tshape x = [1; 9; 3]%nat /\ Forall (fun c => (c < 9)%nat) ri /\
  shrink_net net = Some ls /\
  tget (run_pls (mask_net net) x) [0; 0]%nat = 1 /\ tget (run_pls ls (restrict ri x)) [0; 0]%nat = 0.
Proof.
  destruct flatten_order as (ls & E & H1 & H2). exists fw_w, fw_ri, fw_x, ls. cbn zeta.
  split; [reflexivity|]. split; [reflexivity|]. split; [unfold fw_ri; repeat (constructor; [lia|]); constructor|]. auto.
Qed.
Lemma groups_refuted : exists a w ri x ls,
  let net := [(PlConv a w None, (ri, []))] in
  ca_groups a = 2%nat /\ tshape w = [2; 8; 1; 1]%nat /\ tshape x = [1; 16; 1; 1]%nat /\
  (exists per, ri = concat (map (fun g => map (fun x => 8 * g + x)%nat (per g)) (seq 0 2)) /\
               forall g, (g < 2)%nat -> length (per g) = 7%nat /\ Forall (fun c => (c < 8)%nat) (per g)) /\
  shrink_net net = Some ls /\
  tget (run_pls (mask_net net) x) [0; 0; 0; 0]%nat = 1 /\ tget (run_pls ls (restrict ri x)) [0; 0; 0; 0]%nat = 0.
Proof.
  destruct group_order as (ls & E & H1 & H2). exists gw_a, gw_w, gw_ri, gw_x, ls. cbn zeta.
  split; [reflexivity|]. split; [reflexivity|]. split; [reflexivity|]. split; [|auto].
  exists (fun g => match g with 0%nat => [0; 1; 2; 3; 4; 5; 6]%nat | _ => [1; 2; 3; 4; 5; 6; 7]%nat end). split; [reflexivity|].
  intros g Hg. destruct g as [|g]; (split; [reflexivity|]); repeat (constructor; [lia|]); constructor.
Qed.
Lemma border_refuted : exists p a w x bn cv,
  (forall c, In c [0%nat] -> nth c (bn_w p) 0 = 0) /\ ca_groups a = 1%nat /\
  shrink_bn_conv (act_fn ARelu) p [0%nat] a w None = Some (bn, cv) /\
  tget (run_pl (PlConv a w None) (tmap (act_fn ARelu) (run_pl (PlBn p) x))) [0; 0; 0; 0]%nat = 1 /\
  tget (run_pl cv (tmap (act_fn ARelu) (run_pl bn (restrict [0%nat] x)))) [0; 0; 0; 0]%nat = 3.
Proof.
  destruct compensate_border as (bn & cv & E & H1 & H2). exists cw_bn, cw_conv, cw_w, cw_x, bn, cv.
  split; [intros c [<-|[]]; reflexivity|]. auto.
Qed.
