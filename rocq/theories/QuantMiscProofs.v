(** Proofs about TFLite-like fake quantization (C47), KL calibration (C48) and the integer
    parameters of the 16-bit LSTM (C61). *)
From Coq Require Import List Arith ZArith Bool Reals Lia Lra.
From Verif Require Import Tensor ConvSpec QuantSpec FuseModel FuseMiscProofs PassAxesProofs QuantModel QuantProofs.
Import ListNotations.
Local Open Scope R_scope.

(* ------------------------------------------------------------------ *)
(** C47 *)

(** [u] lies strictly below (in magnitude) a tie, by at most the nudge *)
Definition below_tie (u : R) : Prop := exists n : Z, 0 < IZR n + 1 / 2 - Rabs u <= 1 / 1000000.
(** [u] is further than the nudge from every tie *)
Definition far_from_ties (u : R) : Prop := forall n : Z, 1 / 1000000 < Rabs (u - (IZR n + 1 / 2)).
Definition is_tie (u : R) : Prop := exists n : Z, u = IZR n + 1 / 2.

Lemma rha_pos u : 0 <= u -> rha u = Int_part (u + 1 / 2).
Proof. intro H. unfold rha. destruct (Rle_dec 0 u); [reflexivity|lra]. Qed.
Lemma rha_neg u : u < 0 -> rha u = (- Int_part (- u + 1 / 2))%Z.
Proof. intro H. unfold rha. destruct (Rle_dec 0 u); [lra|reflexivity]. Qed.

Lemma rne_nudged_pos v : 0 <= v -> ~ below_tie v -> rne (v + 1 / 1000000) = Int_part (v + 1 / 2).
Proof.
  intros Hv Hn. pose proof (Int_part_bound (v + 1 / 2)) as [H1 H2]. set (k := Int_part (v + 1 / 2)) in *.
  apply rne_unique. apply Rabs_def1; [|lra].
  destruct (Rlt_dec (v + 1 / 1000000 - IZR k) (1 / 2)); auto. exfalso. apply Hn. exists k.
  rewrite Rabs_pos_eq by lra. lra.
Qed.
Lemma rne_opp_unique x n : Rabs (- x - IZR n) < 1 / 2 -> rne x = (- n)%Z.
Proof.
  intro H. apply rne_unique. rewrite opp_IZR. rewrite <- Rabs_Ropp.
  replace (- (x - - IZR n)) with (- x - IZR n) by ring. exact H.
Qed.
Lemma rne_nudged u : ~ below_tie u -> rne (u + 1 / 1000000 * rsign u) = rha u.
Proof.
  intro Hn. unfold rsign. destruct (Rlt_dec 0 u); [|destruct (Rlt_dec u 0)].
  - rewrite Rmult_1_r, rha_pos by lra. apply rne_nudged_pos; [lra|exact Hn].
  - rewrite rha_neg by lra.
    assert (Hn' : ~ below_tie (- u)). { intros (k & H). apply Hn. exists k. rewrite Rabs_Ropp in H. exact H. }
    pose proof (Int_part_bound (- u + 1 / 2)) as [H1 H2]. set (k := Int_part (- u + 1 / 2)) in *.
    apply rne_opp_unique. apply Rabs_def1; [|lra].
    destruct (Rlt_dec (- (u + 1 / 1000000 * -1) - IZR k) (1 / 2)); auto. exfalso. apply Hn'. exists k.
    rewrite Rabs_pos_eq by lra. lra.
  - replace u with 0 by lra. replace (0 + 1 / 1000000 * 0) with 0 by ring.
    rewrite (rne_IZR 0). symmetry. apply (rha_IZR 0).
Qed.

Lemma tie_not_below u : is_tie u -> ~ below_tie u.
Proof.
  intros [n ->] [k [H1 H2]]. unfold Rabs in *. destruct (Rcase_abs (IZR n + 1 / 2)).
  - assert (E : IZR k + 1 / 2 - - (IZR n + 1 / 2) = IZR (k + n + 1)) by (rewrite !plus_IZR; lra).
    rewrite E in H1, H2. assert (0 < k + n + 1)%Z by (apply lt_IZR; lra). assert (k + n + 1 < 1)%Z by (apply lt_IZR; lra). lia.
  - assert (E : IZR k + 1 / 2 - (IZR n + 1 / 2) = IZR (k - n)) by (rewrite minus_IZR; lra).
    rewrite E in H1, H2. assert (0 < k - n)%Z by (apply lt_IZR; lra). assert (k - n < 1)%Z by (apply lt_IZR; lra). lia.
Qed.
Lemma far_not_below u : far_from_ties u -> ~ below_tie u.
Proof.
  intros H [k [H1 H2]]. unfold Rabs in H1, H2. destruct (Rcase_abs u).
  - specialize (H (- k - 1)%Z). rewrite minus_IZR, opp_IZR in H. rewrite Rabs_pos_eq in H; lra.
  - specialize (H k). rewrite Rabs_left1 in H; lra.
Qed.
Lemma far_rne_rha u : far_from_ties u -> rne u = rha u.
Proof.
  intro H. pose proof (Int_part_bound (u + 1 / 2)) as [H1 H2]. set (k := Int_part (u + 1 / 2)) in *.
  assert (A : rne u = k).
  { apply rne_unique. specialize (H (k - 1)%Z). rewrite minus_IZR in H.
    apply Rabs_def1; [lra|]. destruct (Rlt_dec (- (1 / 2)) (u - IZR k)); auto.
    exfalso. replace (u - (IZR k - 1 + 1 / 2)) with 0 in H by lra. rewrite Rabs_R0 in H. lra. }
  rewrite A. destruct (Rle_dec 0 u).
  - now rewrite rha_pos.
  - rewrite rha_neg by lra. rewrite (Int_part_unique (- u + 1 / 2) (- k)%Z); [lia|].
    specialize (H (k - 1)%Z). rewrite minus_IZR in H. rewrite opp_IZR. rewrite Rabs_pos_eq in H by lra. lra.
Qed.

Lemma rsign_scale s u : 0 < s -> rsign (s * u) = rsign u.
Proof.
  intro Hs. unfold rsign. destruct (Rlt_dec 0 u); [|destruct (Rlt_dec u 0)].
  - destruct (Rlt_dec 0 (s * u)); auto. exfalso. apply n. apply Rmult_lt_0_compat; lra.
  - assert (s * u < 0). { replace 0 with (s * 0) by ring. apply Rmult_lt_compat_l; lra. }
    destruct (Rlt_dec 0 (s * u)); [lra|]. destruct (Rlt_dec (s * u) 0); [reflexivity|lra].
  - replace u with 0 by lra. rewrite Rmult_0_r. destruct (Rlt_dec 0 0); [lra|]. reflexivity.
Qed.

Lemma nudged_div s x : 0 < s -> (x + s * (1 / 1000000) * rsign x) / s = x / s + 1 / 1000000 * rsign (x / s).
Proof.
  intro Hs. assert (E : rsign x = rsign (x / s)).
  { rewrite <- (rsign_scale s (x / s)) by exact Hs. f_equal. field. lra. }
  rewrite <- E. field. lra.
Qed.

Lemma nudge_scalar s X : tshape s = [1%nat] -> tshape X <> [] ->
  exists X', nudge s X = Some X' /\ tshape X' = tshape X /\
    forall idx, valid (tshape X) idx ->
      tget X' idx = tget X idx + tget s [0%nat] * (1 / 1000000) * rsign (tget X idx).
Proof.
  intros Hs HX. unfold nudge, binop. cbn [tshape tmap]. rewrite Hs, bshape_comm, bshape_one by exact HX.
  cbn [obind tshape]. rewrite bshape_self. eexists. split; [reflexivity|]. split; [reflexivity|].
  intros idx Hv. cbn [tget tmap]. rewrite (bidx_self _ _ Hv), (bidx_self _ _ Hv).
  rewrite bidx_one; [reflexivity|]. intros ->. inversion Hv. congruence.
Qed.

Lemma tflite_forward_ok qparams qlo qhi m X :
  tshape X <> [] -> fq_on m = true ->
  let m1 := if fq_obs m then let seen := fq_seen m ++ [X] in
              mkFQ (fq_obs m) (fq_on m) (fst (qparams seen)) (snd (qparams seen)) seen else m in
  tshape (fq_scale m1) = [1%nat] -> 0 < tget (fq_scale m1) [0%nat] ->
  exists Y, tflite_forward qparams None qlo qhi m X = Some (m1, Y) /\ tshape Y = tshape X /\
    forall idx, valid (tshape X) idx ->
      let s := tget (fq_scale m1) [0%nat] in
      let z := nth 0 (fq_zero m1) 0%Z in
      let x := tget X idx in
      (~ below_tie (x / s) -> tget Y idx = s * IZR (tflite_quant qlo qhi s z x - z)) /\
      (far_from_ties (x / s) -> tget Y idx = torch_fake_quant qlo qhi s z x).
Proof.
  intros HX Hon m1 Hsh Hpos. destruct m as [obs on sc ze seen]; cbn [fq_on fq_obs fq_seen] in *. subst on.
  assert (Hel : forall X' : tensor R, (forall idx, valid (tshape X) idx ->
      tget X' idx = tget X idx + tget (fq_scale m1) [0%nat] * (1 / 1000000) * rsign (tget X idx)) ->
    forall idx, valid (tshape X) idx ->
      let s := tget (fq_scale m1) [0%nat] in
      let z := nth 0 (fq_zero m1) 0%Z in
      let x := tget X idx in
      (~ below_tie (x / s) -> torch_fake_quant qlo qhi s z (tget X' idx) = s * IZR (tflite_quant qlo qhi s z x - z)) /\
      (far_from_ties (x / s) -> torch_fake_quant qlo qhi s z (tget X' idx) = torch_fake_quant qlo qhi s z x)).
  { intros X' HX' idx Hv s z x. rewrite (HX' idx Hv). fold s x.
    unfold torch_fake_quant, torch_quant, tflite_quant. rewrite nudged_div by exact Hpos. split; intro Hn.
    - now rewrite rne_nudged.
    - rewrite rne_nudged by (now apply far_not_below). now rewrite far_rne_rha. }
  destruct (nudge_scalar (fq_scale m1) X Hsh HX) as (X' & EX & HXs & HXv).
  unfold tflite_forward, super_forward. cbn [fq_obs fq_on].
  destruct obs; cbn [fq_obs fq_on set_fq set_obs fq_seen fq_scale fq_zero].
  - subst m1. cbn [fst snd] in *. destruct (qparams (seen ++ [X])) as [s z] eqn:Eq. cbn [fst snd fq_scale fq_zero] in *.
    cbn [obind fst snd fq_obs fq_on set_fq set_obs fq_seen fq_scale fq_zero].
    rewrite EX. cbn [obind fst snd fq_obs fq_on set_fq set_obs fq_seen fq_scale fq_zero].
    eexists. split; [reflexivity|]. split; [exact HXs|]. intros idx Hv. cbn [tget tmap]. apply Hel; auto.
  - subst m1. cbn [fst snd fq_scale fq_zero] in *. cbn [obind fst snd fq_obs fq_on set_fq set_obs fq_seen fq_scale fq_zero].
    rewrite EX. cbn [obind fst snd fq_obs fq_on set_fq set_obs fq_seen fq_scale fq_zero].
    eexists. split; [reflexivity|]. split; [exact HXs|]. intros idx Hv. cbn [tget tmap]. apply Hel; auto.
Qed.

(** ties are hit exactly *)
Lemma tie_example : is_tie (5 / 2) /\ rha (5 / 2) = 3%Z /\ rne (5 / 2) = 2%Z /\ rne (5 / 2 + 1 / 1000000 * rsign (5 / 2)) = 3%Z.
Proof.
  assert (H : is_tie (5 / 2)) by (exists 2%Z; lra).
  assert (E : rha (5 / 2) = 3%Z). { rewrite rha_pos by lra. apply Int_part_unique. lra. }
  split; [exact H|]. split; [exact E|]. split.
  - unfold rne. rewrite (Int_part_unique _ 2%Z) by lra. destruct (Rlt_dec _ _); [lra|]. destruct (Rlt_dec _ _); [lra|].
    reflexivity.
  - rewrite rne_nudged by (now apply tie_not_below). exact E.
Qed.

(** disabled: identity *)
Lemma tflite_forward_off qparams ax qlo qhi m X : fq_on m = false ->
  exists m', tflite_forward qparams ax qlo qhi m X = Some (m', X) /\ fq_obs m' = fq_obs m /\ fq_on m' = false /\
             fq_seen m' = if fq_obs m then fq_seen m ++ [X] else fq_seen m.
Proof.
  destruct m as [obs on sc ze seen]; cbn [fq_on]. intros ->. unfold tflite_forward, super_forward.
  destruct obs; cbn [fq_obs fq_on set_fq set_obs fq_seen fq_scale fq_zero obind fst snd].
  - destruct (qparams (seen ++ [X])). cbn [obind fst snd fq_on]. eauto.
  - eauto.
Qed.

(** per channel: the scale vector is broadcast along the last axis *)
Lemma per_channel_refuted :
  (exists m X, fq_on m = true /\ tshape (fq_scale m) = [nth 0 (tshape X) 0%nat] /\ length (fq_zero m) = nth 0 (tshape X) 0%nat /\
     tflite_forward (fun _ => (fq_scale m, fq_zero m)) (Some 0%nat) (-127) 127 m X = None) /\
  (exists m X m' Y, fq_on m = true /\ tshape (fq_scale m) = [nth 0 (tshape X) 0%nat] /\ length (fq_zero m) = nth 0 (tshape X) 0%nat /\
     tflite_forward (fun _ => (fq_scale m, fq_zero m)) (Some 0%nat) (-127) 127 m X = Some (m', Y) /\ tshape Y <> tshape X).
Proof.
  split.
  - exists (mkFQ false true (mkT [2%nat] (fun _ => 1)) [0%Z; 0%Z] []), (mkT [2; 3]%nat (fun _ => 1)). repeat split; reflexivity.
  - exists (mkFQ false true (mkT [2%nat] (fun _ => 1)) [0%Z; 0%Z] []), (mkT [2; 1]%nat (fun _ => 1)). eexists _, _.
    split; [reflexivity|]. split; [reflexivity|]. split; [reflexivity|].
    split; [cbv -[torch_fake_quant Rplus Rmult rsign Rdiv IZR]; reflexivity|]. cbn. discriminate.
Qed.

(* ------------------------------------------------------------------ *)
(** C48 *)

Lemma kl_fold_range kl l acc lo hi :
  (forall i, In i l -> (lo <= i <= hi)%nat) -> (lo <= fst acc <= hi)%nat ->
  (lo <= fst (fold_left (kl_step kl) l acc) <= hi)%nat.
Proof.
  revert acc. induction l as [|i l IH]; intros acc Hl Ha; [exact Ha|]. cbn [fold_left]. apply IH.
  - intros j Hj. apply Hl. now right.
  - unfold kl_step. destruct (_ && _); [|exact Ha]. cbn. apply Hl. now left.
Qed.

Lemma flt_trans a b c : flt a b = true -> flt b c = true -> flt a c = true.
Proof.
  destruct a as [|[]|x], b as [|[]|y], c as [|[]|z]; cbn; try congruence.
  destruct (Rlt_dec x y), (Rlt_dec y z), (Rlt_dec x z); try congruence; lra.
Qed.
Lemma flt_nlt_trans a b c : flt a b = true -> flt c b = false -> c <> FNan -> flt c a = false.
Proof.
  destruct a as [|[]|x], b as [|[]|y], c as [|[]|z]; cbn; try congruence.
  destruct (Rlt_dec x y), (Rlt_dec z y), (Rlt_dec z x); try congruence; lra.
Qed.

(** the accumulator holds a least admissible divergence seen so far *)
Lemma kl_fold_least kl l acc :
  let r := fold_left (kl_step kl) l acc in
  (snd r = snd acc \/ (flt (snd r) (snd acc) = true)) /\
  (forall i, In i l -> fne1 (kl i) = true -> flt (kl i) (snd r) = false) /\
  (r = acc \/ (In (fst r) l /\ snd r = kl (fst r) /\ fne1 (snd r) = true)).
Proof.
  revert acc. induction l as [|i l IH]; intros acc; cbn [fold_left].
  - cbn. repeat split; auto. intros i [].
  - destruct (IH (kl_step kl acc i)) as (A & B & C). set (r := fold_left (kl_step kl) l (kl_step kl acc i)) in *.
    cbn zeta. unfold kl_step in A, C. destruct (flt (kl i) (snd acc) && fne1 (kl i)) eqn:E.
    + apply andb_true_iff in E. destruct E as [E1 E2]. cbn [snd fst] in A. split; [|split].
      * right. destruct A as [A|A]; [rewrite A; exact E1|]. eapply flt_trans; eauto.
      * intros j [<-|Hj] Hne; [|now apply B]. destruct A as [A|A].
        -- rewrite A. destruct (kl i) as [|[]|x]; cbn; auto. destruct (Rlt_dec x x); [lra|reflexivity].
        -- destruct (flt (kl i) (snd r)) eqn:F; auto. exfalso.
           pose proof (flt_trans _ _ _ F A) as G. destruct (kl i) as [|[]|x]; cbn in G; try congruence.
           destruct (Rlt_dec x x); [lra|congruence].
      * right. destruct C as [C|(C1 & C2 & C3)].
        -- rewrite C. cbn. auto.
        -- split; [now right|auto].
    + split; [exact A|]. split.
      * intros j [<-|Hj] Hne; [|now apply B]. rewrite Hne, andb_true_r in E.
        destruct A as [A|A]; [now rewrite A|].
        destruct (kl i) as [|[]|x] eqn:Ek; try reflexivity.
        -- exfalso. destruct (snd acc) as [|[]|y]; cbn in E; try congruence.
           ++ destruct (snd r) as [|[]|]; cbn in A; congruence.
           ++ destruct (snd r) as [|[]|]; cbn in A; congruence.
        -- destruct (snd r) as [|[]|]; reflexivity.
        -- destruct (flt (FNum x) (snd r)) eqn:F; auto. pose proof (flt_trans _ _ _ F A). congruence.
      * destruct C as [C|(C1 & C2 & C3)]; [left; exact C|right]. split; [now right|auto].
Qed.

Lemma target_bins_Z : Z.of_nat target_bins = 128%Z.
Proof. reflexivity. Qed.
Lemma first_bins_Z : Z.of_nat first_bins = 2048%Z.
Proof. unfold first_bins. rewrite Z2Nat.id; lia. Qed.

Lemma compute_threshold_ok size kl m t : compute_threshold size kl m = Some t ->
  (target_bins <= t <= Nat.max target_bins m)%nat /\
  (forall i, (target_bins <= i <= m)%nat -> fne1 (kl i) = true -> (flt (kl i) (FInf false) = true) ->
     flt (kl i) (kl t) = false /\ flt (kl t) (FInf false) = true /\ fne1 (kl t) = true).
Proof.
  unfold compute_threshold. set (range := seq target_bins (m + 1 - target_bins)).
  destruct (forallb _ range); [|discriminate]. intro H. inversion H as [H1]. clear H.
  assert (Hr : forall i, In i range <-> (target_bins <= i <= m)%nat).
  { intro i. unfold range. rewrite in_seq. lia. }
  split.
  - apply kl_fold_range; cbn [fst]; [|lia]. intros i Hi. apply Hr in Hi. lia.
  - intros i Hi Hne Hlt.
    destruct (kl_fold_least kl range (target_bins, FInf false)) as (A & B & C).
    set (r := fold_left (kl_step kl) range (target_bins, FInf false)) in *. cbn [snd fst] in *.
    specialize (B i ltac:(now apply Hr) Hne).
    destruct C as [C|(C1 & C2 & C3)].
    + exfalso. rewrite C in B. cbn in B. congruence.
    + rewrite <- C2. split; [exact B|]. split; [|exact C3]. destruct A as [A|A]; [|exact A].
      rewrite A in *. cbn in B. congruence.
Qed.

Lemma compute_threshold_defined size kl m : (target_bins <= size)%nat -> (m <= size)%nat ->
  exists t, compute_threshold size kl m = Some t.
Proof.
  intros Hs Hm. unfold compute_threshold.
  assert (forallb (fun i => (i - 1 <? size)%nat && ((i =? m)%nat || (i <? size)%nat)) (seq target_bins (m + 1 - target_bins)) = true).
  { apply forallb_forall. intros i Hi. apply in_seq in Hi.
    apply andb_true_iff. pose proof target_bins_Z. split; [apply Nat.ltb_lt; lia|].
    apply orb_true_iff. destruct (Nat.eq_dec i m); [left; now apply Nat.eqb_eq|right; apply Nat.ltb_lt; lia]. }
  rewrite H. eauto.
Qed.

Lemma kl_range_ok mn mx bins kl1 kl2 : (first_bins <= bins)%nat -> mn <= mx ->
  exists a b, kl_range mn mx bins kl1 kl2 = Some (a, b) /\
    mn <= a /\ b <= mx /\ a + 128 * ((mx - mn) / INR bins) <= b.
Proof.
  intros Hb Hmm. pose proof target_bins_Z as HT. pose proof first_bins_Z as HF.
  unfold kl_range.
  destruct (compute_threshold_defined bins kl1 first_bins) as [r Er]; [lia|lia|]. rewrite Er. cbn [obind].
  destruct (compute_threshold_ok _ _ _ _ Er) as [Hr _].
  replace (Nat.min r bins) with r by lia.
  destruct (compute_threshold_defined r (kl2 r) r) as [l El]; [lia|lia|]. rewrite El. cbn [obind].
  destruct (compute_threshold_ok _ _ _ _ El) as [Hl _].
  eexists _, _. split; [reflexivity|].
  set (w := (mx - mn) / INR bins).
  assert (Hbins : 0 < INR bins) by (apply lt_0_INR; lia).
  assert (Hw : 0 <= w). { unfold w. apply Rmult_le_pos; [lra|]. left. now apply Rinv_0_lt_compat. }
  assert (Ewb : w * INR bins = mx - mn) by (unfold w; field; lra).
  rewrite minus_IZR, <- !INR_IZR_INZ.
  assert (H1 : INR l <= INR r) by (apply le_INR; lia).
  assert (H2 : INR r <= INR bins) by (apply le_INR; lia).
  assert (H3 : 128 <= INR l).
  { replace 128 with (INR target_bins). { apply le_INR; lia. } rewrite INR_IZR_INZ, HT. reflexivity. }
  split; [|split].
  - assert (0 <= w * (INR r - INR l)) by (apply Rmult_le_pos; lra). lra.
  - assert (w * INR r <= w * INR bins) by (apply Rmult_le_compat_l; lra). lra.
  - assert (w * 128 <= w * INR l) by (apply Rmult_le_compat_l; lra). lra.
Qed.

(** fewer than 2048 bins: the first search reads outside the histogram *)
Lemma kl_range_raises mn mx bins kl1 kl2 : (bins < first_bins)%nat -> kl_range mn mx bins kl1 kl2 = None.
Proof.
  intro H. unfold kl_range. replace (compute_threshold bins kl1 first_bins) with (@None nat); [reflexivity|].
  symmetry. unfold compute_threshold. pose proof target_bins_Z as HT. pose proof first_bins_Z as HF.
  match goal with |- (if forallb ?f ?l then _ else _) = _ => destruct (forallb f l) eqn:E end; [|reflexivity].
  exfalso. rewrite forallb_forall in E. specialize (E first_bins).
  rewrite in_seq in E. specialize (E ltac:(lia)). apply andb_true_iff in E. destruct E as [E _]. apply Nat.ltb_lt in E.
  lia.
Qed.

(* ------------------------------------------------------------------ *)
(** C61 *)

Lemma lstm_bias_ok ws xs b : 0 < ws -> 0 < xs ->
  fst (lstm_bias ws xs b) = ws * xs /\ length (snd (lstm_bias ws xs b)) = length b /\
  forall i, (i < length b)%nat ->
    Rabs (nth i b 0 - ws * xs * IZR (nth i (snd (lstm_bias ws xs b)) 0%Z)) <= ws * xs / 2.
Proof.
  intros Hw Hx. assert (Hs : 0 < ws * xs) by (apply Rmult_lt_0_compat; auto).
  cbn [lstm_bias fst snd]. split; [reflexivity|]. split; [apply map_length|]. intros i Hi.
  rewrite (nth_indep _ _ (rne (0 / (ws * xs)))) by (rewrite map_length; lia).
  rewrite (map_nth (fun v => rne (v / (ws * xs)))). set (v := nth i b 0). set (s := ws * xs) in *.
  pose proof (rne_half (v / s)) as Hh.
  replace (v - s * IZR (rne (v / s))) with (s * (v / s - IZR (rne (v / s)))) by (field; lra).
  rewrite Rabs_mult, (Rabs_pos_eq s) by lra. apply Rle_trans with (s * (1 / 2)); [|lra].
  apply Rmult_le_compat_l; lra.
Qed.

Lemma ceil_log2_ok x : 0 < x -> powerRZ 2 (ceil_log2 x - 1) < x <= powerRZ 2 (ceil_log2 x).
Proof.
  intro Hx. unfold ceil_log2. set (y := ln x / ln 2).
  assert (H2 : 0 < ln 2) by (rewrite <- ln_1; apply ln_increasing; lra).
  assert (Ex : x = Rpower 2 y). { unfold Rpower, y. replace (ln x / ln 2 * ln 2) with (ln x) by (field; lra). now rewrite exp_ln. }
  pose proof (Int_part_bound (- y)) as [Ha Hb].
  rewrite !powerRZ_Rpower by lra. rewrite minus_IZR, opp_IZR. rewrite Ex at 1 2. split.
  - apply Rpower_lt; lra.
  - apply Rle_Rpower; lra.
Qed.

Lemma cell_abs_max_pos s z : 0 < s -> 0 < cell_abs_max s z.
Proof.
  intro Hs. unfold cell_abs_max. destruct (Z.eq_dec z 127) as [->|Hz].
  - eapply Rlt_le_trans; [|apply Rmax_r]. apply Rabs_pos_lt. apply Rmult_integral_contrapositive_currified; [lra|].
    apply not_0_IZR. lia.
  - eapply Rlt_le_trans; [|apply Rmax_l]. apply Rabs_pos_lt. apply Rmult_integral_contrapositive_currified; [lra|].
    apply not_0_IZR. lia.
Qed.

(** The scale is a power of two not below 1/32768, covers the 8-bit range and is the smallest such. *)
Lemma cell_scale_ok s z : 0 < s ->
  exists k : Z, (0 <= k)%Z /\ cell_scale s z = powerRZ 2 k / 32768 /\
    (forall q, (-128 <= q <= 127)%Z -> Rabs (s * IZR (q - z)) <= 32768 * cell_scale s z) /\
    (k = 0%Z \/ exists q, (-128 <= q <= 127)%Z /\ 32768 * (powerRZ 2 (k - 1) / 32768) < Rabs (s * IZR (q - z))).
Proof.
  intro Hs. pose proof (cell_abs_max_pos s z Hs) as Hp. pose proof (ceil_log2_ok _ Hp) as [H1 H2].
  unfold cell_scale. set (c := ceil_log2 (cell_abs_max s z)) in *.
  exists (Z.max c 0). split; [lia|]. split; [reflexivity|]. split.
  - intros q Hq. replace (32768 * (powerRZ 2 (Z.max c 0) / 32768)) with (powerRZ 2 (Z.max c 0)) by field.
    apply Rle_trans with (cell_abs_max s z).
    + unfold cell_abs_max. rewrite !Rabs_mult, (Rabs_pos_eq s) by lra. rewrite RmaxRmult by lra.
      apply Rmult_le_compat_l; [lra|]. rewrite <- !abs_IZR.
      destruct (Z_le_gt_dec z q).
      * eapply Rle_trans; [|apply Rmax_l]. apply IZR_le. lia.
      * eapply Rle_trans; [|apply Rmax_r]. apply IZR_le. lia.
    + eapply Rle_trans; [exact H2|]. rewrite !powerRZ_Rpower by lra. apply Rle_Rpower; [lra|]. apply IZR_le. lia.
  - destruct (Z_le_gt_dec c 0); [left; lia|right]. rewrite Z.max_l by lia.
    replace (32768 * (powerRZ 2 (c - 1) / 32768)) with (powerRZ 2 (c - 1)) by field.
    unfold cell_abs_max, Rmax in H1. destruct (Rle_dec _ _).
    + exists (-128)%Z. split; [lia|exact H1].
    + exists 127%Z. split; [lia|exact H1].
Qed.
