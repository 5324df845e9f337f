(** Error bound for the floating-point size computation of [ReshapeModifier.apply_mask]. *)
From Coq Require Import List Arith Bool ZArith Reals Lia Lra SpecFloat.
From Flocq Require Import Core.Core IEEE754.BinarySingleNaN.
Require Import Flocq.Prop.Relative.
From Verif Require Import PruneModel.
Local Open Scope R_scope.

Local Notation prec := 53%Z.
Local Notation emax := 1024%Z.
Local Lemma Hprec : FLX.Prec_gt_0 prec. Proof. reflexivity. Qed.
Local Lemma Hmax : Prec_lt_emax prec emax. Proof. reflexivity. Qed.
Local Notation bf := (binary_float prec emax).
Local Notation rnd := (round radix2 (SpecFloat.fexp prec emax) ZnearestE).
Local Notation Bm := (Bmult (prec := prec) (emax := emax) (prec_gt_0_ := Hprec) (prec_lt_emax_ := Hmax) mode_NE).
Local Notation Bd := (Bdiv (prec := prec) (emax := emax) (prec_gt_0_ := Hprec) (prec_lt_emax_ := Hmax) mode_NE).
Local Existing Instance Hprec.
Local Existing Instance Hmax.

Lemma rne_equiv s m l : SpecFloat.round_nearest_even m l = choice_mode mode_NE s m l.
Proof.
  case l; [reflexivity|intro c]. case c; [|reflexivity..].
  simpl. unfold Round.cond_incr. now case Z.even.
Qed.
Lemma bra_equiv sx mx ex lx :
  SpecFloat.binary_round_aux prec emax sx mx ex lx = binary_round_aux prec emax mode_NE sx mx ex lx.
Proof.
  unfold SpecFloat.binary_round_aux, binary_round_aux.
  set (mrse' := SpecFloat.shr_fexp _ _ _ _ _). case mrse'; intros mrs' e'; simpl.
  now rewrite (rne_equiv sx).
Qed.
Lemma br_equiv s m e : SpecFloat.binary_round prec emax s m e = binary_round prec emax mode_NE s m e.
Proof.
  unfold SpecFloat.binary_round, binary_round, shl_align_fexp.
  set (mez := SpecFloat.shl_align _ _ _). case mez as [mz ez]. apply bra_equiv.
Qed.
Lemma bn_equiv m e szero :
  SpecFloat.binary_normalize prec emax m e szero
  = B2SF (binary_normalize prec emax Hprec Hmax mode_NE m e szero).
Proof.
  case m as [|p|p]; [reflexivity|..]; simpl; rewrite B2SF_SF2B; apply br_equiv.
Qed.
Lemma mul_equiv (x y : bf) : SFmul prec emax (B2SF x) (B2SF y) = B2SF (Bm x y).
Proof.
  destruct x as [sx|sx| |sx mx ex Bx], y as [sy|sy| |sy my ey By]; try reflexivity.
  simpl. rewrite B2SF_SF2B. apply bra_equiv.
Qed.
Lemma div_equiv (x y : bf) : SFdiv prec emax (B2SF x) (B2SF y) = B2SF (Bd x y).
Proof.
  destruct x as [sx|sx| |sx mx ex Bx], y as [sy|sy| |sy my ey By]; try reflexivity.
  simpl. rewrite B2SF_SF2B.
  destruct (SpecFloat.SFdiv_core_binary _ _ _ _ _ _) as [[mz ez] lz]. apply bra_equiv.
Qed.

(** small integers are exact *)
Lemma fof_exact n : (Z.of_nat n < 2 ^ 53)%Z ->
  exists b : bf, fof n = B2SF b /\ B2R b = INR n /\ is_finite b = true.
Proof.
  intro L. unfold fof. exists (binary_normalize prec emax Hprec Hmax mode_NE (Z.of_nat n) 0 false).
  split; [apply bn_equiv|].
  pose proof (binary_normalize_correct prec emax Hprec Hmax mode_NE (Z.of_nat n) 0 false) as C.
  cbv zeta in C.
  assert (E : F2R (Float radix2 (Z.of_nat n) 0) = INR n).
  { unfold F2R. simpl. rewrite Rmult_1_r, INR_IZR_INZ. reflexivity. }
  assert (G : rnd (INR n) = INR n).
  { destruct (Nat.eq_dec n 0) as [->|Hn]; [simpl; apply round_0, valid_rnd_N|].
    apply round_generic; [apply valid_rnd_N|]. rewrite <- E.
    apply generic_format_F2R. intros _. unfold cexp. rewrite E.
    assert (M : (mag radix2 (INR n) <= 53)%Z).
    { apply mag_le_bpow; [apply not_0_INR; auto|]. rewrite Rabs_pos_eq by apply pos_INR.
      rewrite INR_IZR_INZ. apply (IZR_lt _ (2 ^ 53)), L. }
    unfold SpecFloat.fexp, SpecFloat.emin. lia. }
  rewrite E in C. change (round_mode mode_NE) with ZnearestE in C. rewrite G in C.
  rewrite Rlt_bool_true in C.
  - destruct C as (A & B & _). auto.
  - rewrite Rabs_pos_eq by apply pos_INR. rewrite INR_IZR_INZ.
    apply Rlt_trans with (bpow radix2 53).
    + apply (IZR_lt _ (2 ^ 53)), L.
    + apply bpow_lt. reflexivity.
Qed.

(** rounding error, for numbers that are zero or not tiny *)
Lemma rnd_error x : x = 0 \/ bpow radix2 (-1000) <= Rabs x ->
  exists eps, Rabs eps <= bpow radix2 (-53) /\ rnd x = x * (1 + eps).
Proof.
  intros [->|H].
  - exists 0. rewrite Rabs_R0. split; [apply bpow_ge_0|]. rewrite round_0 by apply valid_rnd_N. ring.
  - destruct (relative_error_N_FLT_ex radix2 (-1074) 53 Hprec (fun t => negb (Z.even t)) x) as (eps & He & E).
    + eapply Rle_trans; [|exact H]. apply bpow_le. lia.
    + exists eps. split; [|exact E]. eapply Rle_trans; [exact He|].
      change (/ 2) with (bpow radix2 (-1)). rewrite <- bpow_plus. apply bpow_le. lia.
Qed.

Lemma ftrunc_floor (b : bf) : 0 <= B2R b -> ftrunc (B2SF b) = Z.to_nat (Zfloor (B2R b)).
Proof.
  destruct b as [s|s| |s m e Bx]; simpl; intro H; try (now rewrite Zfloor_IZR).
  destruct s.
  - exfalso. unfold F2R in H. simpl in H. assert (0 < IZR (Z.pos m) * bpow radix2 e).
    { apply Rmult_lt_0_compat; [now apply IZR_lt|apply bpow_gt_0]. }
    change (Z.neg m) with (- Z.pos m)%Z in H. rewrite opp_IZR in H. lra.
  - f_equal. unfold F2R. cbn [Fnum Fexp cond_Zopp]. destruct (0 <=? e)%Z eqn:E.
    + apply Z.leb_le in E. rewrite <- IZR_Zpower by auto. rewrite <- mult_IZR, Zfloor_IZR. reflexivity.
    + apply Z.leb_gt in E. replace (bpow radix2 e) with (/ IZR (2 ^ (- e))).
      * symmetry. apply Zfloor_div. assert (0 < 2 ^ (- e))%Z by (apply Z.pow_pos_nonneg; lia). lia.
      * rewrite <- (Z.opp_involutive e) at 2. rewrite bpow_opp. f_equal.
        rewrite <- (IZR_Zpower radix2) by lia. reflexivity.
Qed.

(** [int(out * (pruned / n))] is the exact quotient or one less *)
Lemma size_product out pruned n t :
  (0 < n)%nat -> (pruned <= n)%nat -> (out * pruned = t * n)%nat -> (Z.of_nat out < 2 ^ 51)%Z ->
  (Z.of_nat n < 2 ^ 53)%Z ->
  let r := ftrunc (SFmul 53 1024 (fof out) (fsparsity pruned n)) in r = t \/ S r = t.
Proof.
  intros Hn Hp Ht Lo Ln. cbv zeta. unfold fsparsity.
  destruct (fof_exact out) as (bo & -> & Ro & Fo); [lia|].
  destruct (fof_exact pruned) as (bp & -> & Rp & Fp); [lia|].
  destruct (fof_exact n) as (bn & -> & Rn & Fn); [lia|].
  rewrite div_equiv, mul_equiv.
  assert (Pn : 0 < INR n) by (apply lt_0_INR; auto).
  assert (Nn : INR n <> 0) by lra.
  assert (Qx : 0 <= INR pruned / INR n <= 1).
  { split; [apply Rmult_le_pos; [apply pos_INR|left; now apply Rinv_0_lt_compat]|].
    apply (Rmult_le_reg_r (INR n)); auto. unfold Rdiv. rewrite Rmult_assoc, Rinv_l by auto.
    rewrite Rmult_1_l, Rmult_1_r. apply le_INR, Hp. }
  assert (Bn : INR n <= bpow radix2 53).
  { rewrite INR_IZR_INZ. apply (IZR_le _ (2 ^ 53)). lia. }
  assert (U : bpow radix2 (-53) <= / 16).
  { change (/ 16) with (bpow radix2 (-4)). apply bpow_le. lia. }
  assert (Big : bpow radix2 52 <= bpow radix2 emax) by (apply bpow_le; lia).
  assert (S52 : 4 <= bpow radix2 52).
  { change 4 with (bpow radix2 2). apply bpow_le. lia. }
  (* the quotient *)
  assert (Lo1 : INR pruned / INR n = 0 \/ bpow radix2 (-53) <= INR pruned / INR n).
  { destruct (Nat.eq_dec pruned 0) as [->|H0]; [left; simpl; unfold Rdiv; ring|right].
    change (-53)%Z with (- (53))%Z. rewrite bpow_opp. apply Rle_trans with (/ INR n).
    - apply Rinv_le; auto.
    - rewrite <- (Rmult_1_l (/ INR n)). apply Rmult_le_compat_r; [left; now apply Rinv_0_lt_compat|].
      apply (le_INR 1). lia. }
  destruct (rnd_error (INR pruned / INR n)) as (e1 & E1 & Q1).
  { destruct Lo1 as [->|H]; auto. right. rewrite Rabs_pos_eq by lra.
    eapply Rle_trans; [|exact H]. apply bpow_le. lia. }
  pose proof (Bdiv_correct prec emax Hprec Hmax mode_NE bp bn) as CD.
  rewrite Rp, Rn in CD. specialize (CD Nn). change (round_mode mode_NE) with ZnearestE in CD.
  apply Rabs_le_inv in E1.
  rewrite Q1 in CD. rewrite Rlt_bool_true in CD.
  2:{ rewrite Rabs_pos_eq; [|apply Rmult_le_pos; lra].
      apply Rle_lt_trans with (1 * 2); [apply Rmult_le_compat; lra|lra]. }
  destruct CD as (RD & FD & _).
  (* the product *)
  pose proof (Bmult_correct prec emax Hprec Hmax mode_NE bo (Bd bp bn)) as CM.
  change (round_mode mode_NE) with ZnearestE in CM. rewrite Ro, RD in CM.
  assert (Ex : INR out * (INR pruned / INR n * (1 + e1)) = INR t * (1 + e1)).
  { assert (Q : INR out * INR pruned = INR t * INR n) by (rewrite <- !mult_INR; f_equal; exact Ht).
    replace (INR out * (INR pruned / INR n * (1 + e1))) with (INR out * INR pruned / INR n * (1 + e1))
      by (field; auto).
    rewrite Q. field. auto. }
  rewrite Ex in CM.
  assert (Bt : INR t <= bpow radix2 51).
  { apply Rle_trans with (INR out).
    - apply le_INR. nia.
    - rewrite INR_IZR_INZ. apply (IZR_le _ (2 ^ 51)). lia. }
  destruct (rnd_error (INR t * (1 + e1))) as (e2 & E2 & Q2).
  { destruct (Nat.eq_dec t 0) as [->|H0]; [left; simpl; ring|right].
    assert (1 <= INR t) by (apply (le_INR 1); lia).
    rewrite Rabs_pos_eq by (apply Rmult_le_pos; lra).
    apply Rle_trans with (bpow radix2 (-1)); [apply bpow_le; lia|]. change (bpow radix2 (-1)) with (/ 2).
    apply Rle_trans with (1 * (/ 2)); [lra|]. apply Rmult_le_compat; lra. }
  apply Rabs_le_inv in E2. rewrite Q2 in CM.
  assert (Pt : 0 <= INR t) by apply pos_INR.
  rewrite Rlt_bool_true in CM.
  2:{ rewrite Rabs_pos_eq by (apply Rmult_le_pos; [apply Rmult_le_pos; lra|lra]).
      apply Rle_lt_trans with (bpow radix2 51 * 2 * 2).
      - apply Rmult_le_compat; try lra; [apply Rmult_le_pos; lra|]. apply Rmult_le_compat; lra.
      - replace (bpow radix2 51 * 2 * 2) with (bpow radix2 53).
        + apply bpow_lt. lia.
        + replace 53%Z with (51 + 1 + 1)%Z by lia. rewrite !bpow_plus. change (bpow radix2 1) with 2. ring. }
  destruct CM as (RM & _ & _).
  rewrite ftrunc_floor by (rewrite RM; apply Rmult_le_pos; [apply Rmult_le_pos; lra|lra]).
  rewrite RM.
  (* error below one *)
  assert (Er : Rabs (INR t * (1 + e1) * (1 + e2) - INR t) < 1).
  { replace (INR t * (1 + e1) * (1 + e2) - INR t) with (INR t * (e1 + e2 + e1 * e2)) by ring.
    set (u := bpow radix2 (-53)) in *.
    assert (Pu : 0 < u) by apply bpow_gt_0.
    assert (A : Rabs (e1 + e2 + e1 * e2) <= 3 * u).
    { assert (Rabs e1 <= u) by (apply Rabs_le; lra). assert (Rabs e2 <= u) by (apply Rabs_le; lra).
      assert (Rabs (e1 * e2) <= u).
      { rewrite Rabs_mult. apply Rle_trans with (u * 1); [|lra].
        apply Rmult_le_compat; try apply Rabs_pos; lra. }
      eapply Rle_trans; [apply Rabs_triang|]. 
      assert (Rabs (e1 + e2) <= Rabs e1 + Rabs e2) by apply Rabs_triang. lra. }
    rewrite Rabs_mult, (Rabs_pos_eq (INR t)) by auto.
    apply Rle_lt_trans with (bpow radix2 51 * (3 * u)).
    - apply Rmult_le_compat; auto. apply Rabs_pos.
    - replace (bpow radix2 51 * (3 * u)) with (3 * (bpow radix2 51 * u)) by ring.
      unfold u. rewrite <- bpow_plus. change (bpow radix2 (51 + -53)) with (/ 4). lra. }
  apply Rabs_def2 in Er.
  set (p := INR t * (1 + e1) * (1 + e2)) in *.
  assert (Pp : 0 <= p) by (unfold p; apply Rmult_le_pos; [apply Rmult_le_pos; lra|lra]).
  assert (F1 : (0 <= Zfloor p)%Z) by (apply Zfloor_lub; auto).
  pose proof (Zfloor_lb p) as F2. pose proof (Zfloor_ub p) as F3.
  rewrite INR_IZR_INZ in Er.
  assert (Z1 : (Z.of_nat t - 2 < Zfloor p)%Z) by (apply lt_IZR; rewrite minus_IZR; lra).
  assert (Z2 : (Zfloor p < Z.of_nat t + 1)%Z) by (apply lt_IZR; rewrite plus_IZR; lra).
  lia.
Qed.

Lemma view_size_bound out pruned n t :
  (0 < n)%nat -> (pruned <= n)%nat -> (out * pruned = t * n)%nat -> (Z.of_nat out < 2 ^ 51)%Z ->
  (Z.of_nat n < 2 ^ 53)%Z ->
  view_new_size out pruned n = (out - t)%nat \/ view_new_size out pruned n = S (out - t).
Proof.
  intros Hn Hp Ht Lo Ln. pose proof (size_product out pruned n t Hn Hp Ht Lo Ln) as H. cbv zeta in H.
  unfold view_new_size. assert (t <= out)%nat by nia.
  destruct H as [->|H]; [auto|]. rewrite <- H. right. lia.
Qed.
