(** Proofs about the lowering of quantized layers (C100). *)
From Coq Require Import List Arith ZArith Bool Reals Lia Lra.
From Flocq Require Import Core.
From Verif Require Import Tensor ConvSpec QuantSpec FuseModel QuantModel QuantProofs QLayerSpec EltSpec AtenEltModel AtenEltProofs QLayerModel.
Import ListNotations.
Local Open Scope R_scope.

Lemma rha_half x : Rabs (x - IZR (rha x)) <= 1 / 2.
Proof.
  unfold rha. destruct (Rle_dec 0 x).
  - pose proof (Int_part_bound (x + 1 / 2)). apply Rabs_le. lra.
  - pose proof (Int_part_bound (- x + 1 / 2)). rewrite opp_IZR. apply Rabs_le. lra.
Qed.
Lemma clampZ_close lo hi a b : (Z.abs (a - b) <= 1)%Z -> (Z.abs (clampZ lo hi a - clampZ lo hi b) <= 1)%Z.
Proof. unfold clampZ. lia. Qed.
Lemma close_round u v : Rabs (u - v) <= 1 / 2 -> (Z.abs (rha u - rne v) <= 1)%Z.
Proof.
  intro H. pose proof (rha_half u) as H1. pose proof (rne_half v) as H2.
  apply Rabs_between in H. apply Rabs_between in H1. apply Rabs_between in H2.
  assert (A : IZR (rha u - rne v) < IZR 2) by (rewrite minus_IZR; lra).
  assert (B : IZR (-2) < IZR (rha u - rne v)) by (rewrite minus_IZR; lra).
  apply lt_IZR in A. apply lt_IZR in B. lia.
Qed.

(** ** Rescaling *)
Lemma shift_spec v : 0 < v -> (32 <=? 127 + 31 - 32 - f32_exponent v)%Z = true <-> v < / 4294967296.
Proof.
  intro Hv. unfold f32_exponent. destruct (Rle_dec v 0); [lra|]. rewrite Z.leb_le.
  destruct (mag radix2 v) as [e He]. cbn [mag_val]. specialize (He ltac:(lra)). rewrite Rabs_pos_eq in He by lra.
  assert (P : / 4294967296 = bpow radix2 (-32)) by (cbn; lra). rewrite P. split.
  - intro H. eapply Rlt_le_trans; [apply He|]. apply bpow_le. lia.
  - intro H. assert (L : bpow radix2 (e - 1) < bpow radix2 (-32)) by lra. apply lt_bpow in L. lia.
Qed.
Lemma rescale_step fuel sx sw sy : 0 < sx * sw / sy ->
  rescale (S fuel) sx sw sy = if Rlt_dec (sx * sw / sy) (/ 4294967296) then rescale fuel sx (sw * 10) sy else Some sw.
Proof.
  intro H. cbn [rescale]. destruct (Rlt_dec _ _) as [L|L].
  - apply (shift_spec _ H) in L. now rewrite L.
  - destruct (32 <=? _)%Z eqn:E; [|reflexivity]. apply (shift_spec _ H) in E. contradiction.
Qed.
Lemma ratio_pos sx sw sy : 0 < sx -> 0 < sw -> 0 < sy -> 0 < sx * sw / sy.
Proof. intros. apply Rdiv_lt_0_compat; [now apply Rmult_lt_0_compat|assumption]. Qed.

Lemma rescale_sound fuel : forall sx sw sy r, 0 < sx -> 0 < sw -> 0 < sy -> rescale fuel sx sw sy = Some r ->
  exists k, r = 10 ^ k * sw /\ / 4294967296 <= sx * r / sy /\ (k <> 0%nat -> sx * r / sy < 10 / 4294967296).
Proof.
  induction fuel as [|fuel IH]; intros sx sw sy r Hx Hw Hy H; [discriminate|].
  rewrite rescale_step in H by now apply ratio_pos. destruct (Rlt_dec _ _) as [L|L].
  - apply IH in H; auto; [|lra]. destruct H as (k & -> & A & B). exists (S k). split; [cbn [pow]; ring|]. split; [exact A|].
    intros _. destruct k as [|k]; [|apply B; discriminate]. cbn [pow].
    replace (sx * (1 * (sw * 10)) / sy) with (10 * (sx * sw / sy)) by (field; lra). lra.
  - injection H as <-. exists 0%nat. cbn [pow]. split; [ring|]. split; [lra|congruence].
Qed.
Lemma pow10 n : INR n <= 10 ^ n.
Proof.
  induction n as [|n IH]; [cbn; lra|]. rewrite S_INR. cbn [pow].
  assert (1 <= 10 ^ n) by (apply pow_R1_Rle; lra). lra.
Qed.
Lemma rescale_mono fuel : forall sx sw sy r m, rescale fuel sx sw sy = Some r -> rescale (fuel + m) sx sw sy = Some r.
Proof.
  induction fuel as [|fuel IH]; intros sx sw sy r m H; [discriminate|]. cbn [rescale plus] in *.
  destruct (32 <=? _)%Z; auto.
Qed.
Lemma rescale_total sx sw sy : 0 < sx -> 0 < sw -> 0 < sy -> exists fuel r, rescale fuel sx sw sy = Some r.
Proof.
  intros Hx Hw Hy. pose proof (ratio_pos _ _ _ Hx Hw Hy) as P.
  assert (K : forall n sw, 0 < sw -> / 4294967296 <= 10 ^ n * (sx * sw / sy) -> exists fuel r, rescale fuel sx sw sy = Some r).
  { induction n as [|n IH]; intros s Hs H.
    - exists 1%nat, s. rewrite rescale_step by now apply ratio_pos. destruct (Rlt_dec _ _) as [L|L]; [cbn [pow] in H; lra|reflexivity].
    - destruct (Rlt_dec (sx * s / sy) (/ 4294967296)) as [L|L].
      + destruct (IH (s * 10)) as (fuel & r & E); [lra| |].
        * replace (sx * (s * 10) / sy) with (10 * (sx * s / sy)) by (field; lra). cbn [pow] in H. lra.
        * exists (S fuel), r. rewrite rescale_step by now apply ratio_pos. destruct (Rlt_dec _ _); [exact E|contradiction].
      + exists 1%nat, s. rewrite rescale_step by now apply ratio_pos. destruct (Rlt_dec _ _); [contradiction|reflexivity]. }
  assert (Ar : exists n, INR n * (sx * sw / sy) > 1).
  { set (p := sx * sw / sy) in *. assert (Ip : 0 < / p) by now apply Rinv_0_lt_compat.
    pose proof (archimed (/ p)) as [U _]. exists (Z.to_nat (up (/ p))). rewrite INR_IZR_INZ, Z2Nat.id.
    - apply Rmult_lt_compat_r with (r := p) in U; [|exact P]. rewrite Rinv_l in U by lra. lra.
    - apply le_IZR. lra. }
  destruct Ar as [n Hn].
  apply (K n sw Hw). pose proof (pow10 n) as Q10.
  assert (INR n * (sx * sw / sy) <= 10 ^ n * (sx * sw / sy)) by (apply Rmult_le_compat_r; lra). lra.
Qed.

(** ** Sums *)
Lemma zsum_map_IZR {A} (f : A -> Z) l : IZR (zsum (map f l)) = rsum (map (fun a => IZR (f a)) l).
Proof. induction l as [|a l IH]; [reflexivity|]. cbn [map zsum rsum fold_right]. rewrite plus_IZR. f_equal. exact IH. Qed.
Lemma rsum_scale {A} k (f : A -> R) l : k * rsum (map f l) = rsum (map (fun a => k * f a) l).
Proof. induction l as [|a l IH]; cbn [map rsum fold_right]; [ring|]. fold (rsum (map f l)) (rsum (map (fun a => k * f a) l)). rewrite <- IH. ring. Qed.
Lemma rsum_ext {A} (f g : A -> R) l : (forall a, In a l -> f a = g a) -> rsum (map f l) = rsum (map g l).
Proof.
  induction l as [|a l IH]; intro H; [reflexivity|]. cbn [map rsum fold_right]. f_equal; [apply H; now left|].
  apply IH. intros b B. apply H. now right.
Qed.

Lemma dot_close sx zx sw zw (x w : tensor Z) taps bq (f : tap -> R) b :
  (forall t, In t taps -> sx * IZR (tget x (fst t) - zx) * (sw * IZR (tget w (snd t) - zw)) = f t) ->
  Rabs (sx * sw * IZR bq - b) <= sx * sw / 2 ->
  Rabs (sx * sw * IZR (tfl_acc zx zw x w taps bq) - (rsum (map f taps) + b)) <= sx * sw / 2.
Proof.
  intros Hf Hb. unfold tfl_acc. rewrite plus_IZR, zsum_map_IZR, Rmult_plus_distr_l, rsum_scale.
  rewrite (rsum_ext _ f).
  - replace (rsum (map f taps) + sx * sw * IZR bq - (rsum (map f taps) + b)) with (sx * sw * IZR bq - b) by ring. exact Hb.
  - intros t T. rewrite <- (Hf t T), mult_IZR. ring.
Qed.

(** ** Stored tensors *)
Lemma store_x asym qt s z t ty p' t' : all_in U8 t -> zero_kept qt asym z ->
  store QUInt8 asym qt (TPerTensor s z) t = Some (ty, p', t') ->
  ty = qt /\ p' = PerTensor (fine qt s) (shifted qt z) /\ forall i, valid (tshape t) i ->
    fine qt s * IZR (tget t' i - shifted qt z) = s * IZR (tget t i - z).
Proof.
  intros Hin Hz H. destruct qt; cbn [store ity_eqb] in H.
  - inv H. repeat split.
  - inv H. cbn [zero_kept shifted fine] in *. split; [reflexivity|]. split; [destruct asym; [reflexivity|destruct Hz as [?|?]; [discriminate|f_equal; lia]]|].
    intros i V. cbn [tget tmap]. rewrite wrap_s8_shift by (apply Hin; exact V). f_equal. f_equal. lia.
  - cbn [zero_kept shifted fine] in *. subst z.
    assert (E : p' = PerTensor (s / 256) (128 - 128)).
    { inv H. f_equal; [field|destruct asym; reflexivity]. }
    assert (St : store QUInt8 asym S16 (TPerTensor s 128) t = Some (ty, p', t')) by exact H.
    destruct (store_s16_value _ _ _ _ _ _ _ Hin St) as (-> & _ & _ & V). split; [reflexivity|]. split; [exact E|].
    intros i Vi. specialize (V i Vi). rewrite E in V. cbn [qreal treal tget qscale qzero tshape] in V. rewrite V.
    replace (128 - 128)%Z with 0%Z by lia. destruct asym; ring.
Qed.
Lemma store_y asym qt s z t ty p' t' : zero_kept qt asym z ->
  store QUInt8 asym qt (TPerTensor s z) t = Some (ty, p', t') -> ty = qt /\ p' = PerTensor (fine qt s) (shifted qt z).
Proof.
  intros Hz H. destruct qt; cbn [store ity_eqb zero_kept fine shifted] in *.
  - inv H. auto.
  - inv H. split; [reflexivity|]. destruct asym; [reflexivity|]. destruct Hz as [?|?]; [discriminate|]. f_equal. lia.
  - inv H. split; [reflexivity|]. destruct asym; f_equal; try field; lia.
Qed.
Lemma store_w asym qt pw t ty p' t' : all_in S8 t -> store QInt8 asym qt pw t = Some (ty, p', t') ->
  (forall c, chan_scale p' c = tscale pw c) /\
  (match pw, p' with TPerTensor _ _, PerTensor _ _ => True | TPerChannel s _ _, PerChannel s' _ _ => s' = s | _, _ => False end) /\
  forall c i, valid (tshape t) i -> of_channel pw (length (tshape t)) c i ->
    tscale pw c * IZR (tget t' i - chan_zero p' c) = tget (treal pw t) i.
Proof.
  intros Hin H. destruct qt; cbn [store ity_eqb] in H.
  - destruct pw as [s z|]; [|discriminate]. destruct (asym && negb (z =? 0)%Z) eqn:E; [discriminate|]. inv H.
    split; [reflexivity|]. split; [exact I|]. intros c i V _. cbn [tscale chan_zero treal tget tmap].
    rewrite wrap_u8_shift by (apply Hin; exact V). f_equal. f_equal.
    destruct asym; [|lia]. cbn in E. apply negb_false_iff, Z.eqb_eq in E. lia.
  - destruct pw as [s z|s z ax]; [inv H; repeat split; auto|]. destruct (forallb _ z); [|discriminate]. inv H.
    split; [reflexivity|]. split; [reflexivity|]. intros c i V Hc. cbn [of_channel tscale chan_zero treal tget] in *.
    rewrite Hc. reflexivity.
  - destruct pw as [s z|s z ax]; [inv H; repeat split; auto|]. destruct (forallb _ z); [|discriminate]. inv H.
    split; [reflexivity|]. split; [reflexivity|]. intros c i V Hc. cbn [of_channel tscale chan_zero treal tget] in *.
    rewrite Hc. reflexivity.
Qed.

(** ** Convolutions *)
Lemma quantize1_close oob t s v : 0 < s -> Rabs v <= s * IZR (bty_hi t) ->
  (bty_lo t <= - bty_hi t)%Z -> Rabs (s * IZR (quantize1 oob t s v) - v) <= s / 2.
Proof.
  intros Hs Hv Hb. unfold quantize1.
  assert (B : Rabs (v / s) <= IZR (bty_hi t)).
  { unfold Rdiv. rewrite Rabs_mult, (Rabs_pos_eq (/ s)) by (left; now apply Rinv_0_lt_compat).
    apply Rmult_le_reg_r with s; [exact Hs|]. rewrite Rmult_assoc, Rinv_l by lra. lra. }
  apply rne_bounds in B. rewrite (proj2 (Z.ltb_ge _ _)) by lia. rewrite (proj2 (Z.ltb_ge _ _)) by lia.
  pose proof (rne_half (v / s)) as H.
  replace (s * IZR (rne (v / s)) - v) with (- s * (v / s - IZR (rne (v / s)))) by (field; lra).
  rewrite Rabs_mult, Rabs_Ropp, (Rabs_pos_eq s) by lra. nra.
Qed.
Lemma nth_map2o {A B C} (f : A -> B -> C) l : forall m r c a b d, map2o f l m = Some r -> (c < length m)%nat ->
  nth c r d = f (nth c l a) (nth c m b).
Proof.
  induction l as [|x l IH]; intros [|y m] r c a b d H L; cbn [map2o] in H; try discriminate; [cbn in L; lia|].
  destruct (map2o f l m) as [r'|] eqn:E; [|discriminate]. cbn [option_map] in H. inversion H; subst.
  destruct c as [|c]; [reflexivity|]. cbn [nth]. apply (IH m); [exact E|cbn in L; lia].
Qed.
Lemma nth_map_lt {A B} (f : A -> B) l c a b : (c < length l)%nat -> nth c (map f l) b = f (nth c l a).
Proof. intro H. rewrite (nth_indep _ b (f a)) by (rewrite map_length; exact H). apply map_nth. Qed.


Lemma fine_pos qt s : 0 < s -> 0 < fine qt s.
Proof. destruct qt; cbn [fine]; lra. Qed.
Lemma fine_ratio qt sx sw sy : 0 < sy -> fine qt sx * sw / fine qt sy = sx * sw / sy.
Proof. intro. destruct qt; cbn [fine]; [reflexivity|reflexivity|field; lra]. Qed.
Lemma bias_type_wide qt : (bty_lo (bias_type false qt) <= - bty_hi (bias_type false qt))%Z.
Proof. destruct qt; cbn; lia. Qed.
Lemma rescale_same fuel sx sw sy r : 0 < sx -> 0 < sw -> 0 < sy -> / 4294967296 <= sx * sw / sy ->
  rescale fuel sx sw sy = Some r -> r = sw.
Proof.
  intros Hx Hw Hy Hm H. destruct fuel; [discriminate|]. rewrite rescale_step in H by now apply ratio_pos.
  destruct (Rlt_dec _ _); [lra|]. now injection H.
Qed.


Lemma zero_bias tr bias : match bias with
              | Some b => if tr && forallb (fun v => Reqb v 0) b then None else Some b
              | None => None
              end = bias \/ (match bias with
              | Some b => if tr && forallb (fun v => Reqb v 0) b then None else Some b
              | None => None
              end = None /\ forall c, bias_at bias c = 0).
Proof.
  destruct bias as [b|]; [|now left]. destruct (tr && forallb _ b) eqn:E; [right|now left]. split; [reflexivity|].
  apply andb_true_iff in E. destruct E as [_ E]. rewrite forallb_forall in E. intro c. cbn [bias_at].
  destruct (Nat.lt_ge_cases c (length b)) as [L|L]; [|now apply nth_overflow].
  specialize (E (nth c b 0) (nth_In b 0 L)). destruct (Reqb_spec (nth c b 0) 0); [assumption|discriminate].
Qed.

Lemma conv_close oob fuel qt asym tr own sx zx x pw w bias sy zy e c taps relu :
  all_in U8 x -> all_in S8 w -> 0 < sx -> 0 < sy -> 0 < tscale pw c -> zero_kept qt asym zx -> zero_kept qt asym zy ->
  (forall s z, pw = TPerTensor s z -> / 4294967296 <= sx * s / sy) ->
  tr && own = false ->
  conv_operands oob fuel qt asym tr own (TPerTensor sx zx) x pw w bias (TPerTensor sy zy) = Some e ->
  taps_ok pw x w c taps -> bias_has bias c ->
  Rabs (bias_at bias c) <= fine qt sx * tscale pw c * IZR (bty_hi (bias_type false qt)) ->
  exists v, Rabs (v - torch_dot (TPerTensor sx zx) x pw w taps (bias_at bias c)) <= fine qt sx * tscale pw c / 2 /\
    run_dot relu e c taps =
      clampZ (if relu then Z.max (ity_lo qt) (shifted qt zy) else ity_lo qt) (ity_hi qt) (shifted qt zy + rha (v / fine qt sy)).
Proof.
  intros Hx Hw Px Py Ps Zx Zy Hm Hown H Ht Hb Hbb. unfold conv_operands in H. rewrite Hown in H.
  set (bias' := match bias with
              | Some b => if tr && forallb (fun v => Reqb v 0) b then None else Some b
              | None => None
              end) in H.
  assert (Hb' : bias' = bias \/ (bias' = None /\ forall c, bias_at bias c = 0)) by apply zero_bias.
  assert (Bb : bias_at bias' c = bias_at bias c /\ bias_has bias' c).
  { destruct Hb' as [-> |[-> E]]; [auto|]. rewrite E. split; [reflexivity|exact I]. }
  clearbody bias'. clear Hb'. destruct Bb as [Bb Bh].
  destruct (store QUInt8 asym qt (TPerTensor sx zx) x) as [[[tx qx] x']|] eqn:Ex; [|discriminate].
  destruct (store QInt8 asym qt pw w) as [[[tw qw] w']|] eqn:Ew; [|discriminate].
  destruct (store QUInt8 asym qt (TPerTensor sy zy) _) as [[[ty qy] y']|] eqn:Ey; [|discriminate].
  cbn [obind] in H.
  destruct (store_x _ _ _ _ _ _ _ _ Hx Zx Ex) as (-> & -> & Vx).
  destruct (store_y _ _ _ _ _ _ _ _ Zy Ey) as (-> & ->).
  destruct (store_w _ _ _ _ _ _ _ Hw Ew) as (Sw & Kw & Vw).
  set (bs := fine qt sx * tscale pw c) in *.
  assert (Pbs : 0 < bs) by (apply Rmult_lt_0_compat; [now apply fine_pos|exact Ps]).
  assert (Key : forall p bq brest, qd_x e = (fine qt sx, shifted qt zx, x') -> qd_ws e = p -> chan_scale p c = tscale pw c ->
            chan_zero p c = chan_zero qw c -> qd_w e = w' -> qd_b e = brest ->
            match brest with Some (b, _) => nth c b 0%Z | None => 0%Z end = bq -> qd_ty e = qt -> qd_y e = (fine qt sy, shifted qt zy) ->
            Rabs (bs * IZR bq - bias_at bias c) <= bs / 2 ->
            exists v, Rabs (v - torch_dot (TPerTensor sx zx) x pw w taps (bias_at bias c)) <= bs / 2 /\
              run_dot relu e c taps =
              clampZ (if relu then Z.max (ity_lo qt) (shifted qt zy) else ity_lo qt) (ity_hi qt) (shifted qt zy + rha (v / fine qt sy))).
  { intros p bq brest E1 E2 E3 E4 E5 E6 E7 E8 E9 Hq.
    exists (bs * IZR (tfl_acc (shifted qt zx) (chan_zero qw c) x' w' taps bq)). split.
    - unfold torch_dot. unfold bs. apply dot_close; [|exact Hq]. intros t T. destruct (Ht t T) as (V1 & V2 & V3).
      rewrite (Vx _ V1), (Vw c _ V2 V3). reflexivity.
    - unfold run_dot. rewrite E1, E2, E5, E6, E8, E9, E7, E3, E4. unfold tfl_requant. f_equal. f_equal. f_equal.
      unfold bs, Rdiv. ring. }
  destruct pw as [sw zw|sws zws ax].
  - destruct qw as [sw' zw'|]; [|contradiction]. pose proof (Sw c) as Sw1. cbn [chan_scale tscale] in Sw1. subst sw'.
    destruct (rescale fuel (fine qt sx) sw (fine qt sy)) as [r|] eqn:Er; [|discriminate]. cbn [obind] in H.
    assert (r = sw).
    { eapply rescale_same; [| | | |exact Er]; try apply fine_pos; auto. rewrite fine_ratio by exact Py. eapply Hm. reflexivity. }
    subst r. injection H as He.
    destruct bias' as [b|]; cbn [option_map bias_at bias_has] in *; rewrite <- He in Key.
    + rewrite <- He. eapply Key; try reflexivity.
      cbn [qd_b]. rewrite (nth_map_lt _ b c 0) by exact Bh. rewrite <- Bb.
      apply quantize1_close; [exact Pbs| |apply bias_type_wide]. rewrite Bb. exact Hbb.
    + rewrite <- He. eapply Key; try reflexivity. rewrite <- Bb. rewrite Rmult_0_r, Rminus_0_r, Rabs_R0. lra.
  - destruct qw as [|sws' zws' dim]; [contradiction|]. subst sws'.
    destruct bias' as [b|]; cbn [bias_at bias_has] in *.
    + destruct (map2o _ _ b) as [bq|] eqn:Eb; [|discriminate]. cbn [obind] in H. injection H as He. rewrite <- He in Key.
      rewrite <- He. eapply Key; try reflexivity. cbn [qd_b].
      rewrite (nth_map2o _ _ _ _ c (fine qt sx * 0) 0 0%Z Eb Bh). rewrite (map_nth (fun s => fine qt sx * s)), <- Bb.
      apply quantize1_close; [exact Pbs| |apply bias_type_wide]. rewrite Bb. exact Hbb.
    + injection H as He. rewrite <- He in Key. rewrite <- He. eapply Key; try reflexivity.
      rewrite <- Bb. rewrite Rmult_0_r, Rminus_0_r, Rabs_R0. lra.
Qed.

Lemma conv_byte oob fuel qt asym tr own sx zx x pw w bias sy zy e c taps :
  all_in U8 x -> all_in S8 w -> 0 < sx -> 0 < sy -> 0 < tscale pw c -> zero_kept qt asym zx -> zero_kept qt asym zy ->
  (forall s z, pw = TPerTensor s z -> / 4294967296 <= sx * s / sy) ->
  tr && own = false -> qt <> S16 -> sx * tscale pw c <= sy ->
  conv_operands oob fuel qt asym tr own (TPerTensor sx zx) x pw w bias (TPerTensor sy zy) = Some e ->
  taps_ok pw x w c taps -> bias_has bias c ->
  Rabs (bias_at bias c) <= sx * tscale pw c * IZR (2 ^ 31 - 1) ->
  (Z.abs (run_dot false e c taps + off qt -
     torch_quant 0 255 sy zy (torch_dot (TPerTensor sx zx) x pw w taps (bias_at bias c))) <= 1)%Z.
Proof.
  intros Hx Hw Px Py Ps Zx Zy Hm Hown Hq Hsm H Ht Hb Hbb.
  destruct (conv_close oob fuel qt asym tr own sx zx x pw w bias sy zy e c taps false) as (v & V & ->); auto.
  { destruct qt; cbn [fine bias_type ity_eqb bty_hi]; [exact Hbb|exact Hbb|congruence]. }
  set (u := torch_dot _ _ _ _ _ _) in *.
  assert (D : Rabs (v / sy - u / sy) <= 1 / 2).
  { replace (v / sy - u / sy) with ((v - u) * / sy) by (field; lra).
    rewrite Rabs_mult, (Rabs_pos_eq (/ sy)) by (left; now apply Rinv_0_lt_compat).
    apply Rmult_le_reg_r with sy; [exact Py|]. rewrite Rmult_assoc, Rinv_l by lra.
    destruct qt; cbn [fine] in V; [| |congruence]; lra. }
  apply close_round in D. unfold torch_quant, clampZ.
  destruct qt; [| |congruence]; cbn [fine shifted off ity_lo ity_hi]; lia.
Qed.

Lemma linear_conv oob fuel qt asym px x sw zw w bias py :
  linear_operands oob fuel qt asym px x (TPerTensor sw zw) w bias py =
  conv_operands oob fuel qt asym false false px x (TPerTensor sw zw) w
    (Some match bias with Some b => b | None => repeat 0 (nth 0 (tshape w) 0%nat) end) py.
Proof.
  unfold linear_operands, conv_operands. cbn [andb].
  destruct (store QUInt8 asym qt px x) as [[[tx qx] x']|]; [|reflexivity].
  destruct (store QInt8 asym qt (TPerTensor sw zw) w) as [[[tw qw] w']|] eqn:E; [|reflexivity]. cbn [obind].
  destruct (store QUInt8 asym qt py _) as [[[ty qy] y']|]; [|reflexivity]. cbn [obind].
  destruct qx; [|reflexivity]. destruct qw; [destruct qy; reflexivity|].
  exfalso. cbn [store] in E. destruct (ity_eqb qt U8); [destruct (asym && _); discriminate|discriminate].
Qed.
Lemma linear_raises oob fuel qt asym px x s z ax w bias py :
  linear_operands oob fuel qt asym px x (TPerChannel s z ax) w bias py = None.
Proof.
  unfold linear_operands. destruct (store QUInt8 asym qt px x) as [[[tx qx] x']|]; [|reflexivity].
  destruct (store QInt8 asym qt (TPerChannel s z ax) w) as [[[tw qw] w']|] eqn:E; [|reflexivity].
  destruct (store QUInt8 asym qt py _) as [[[ty qy] y']|]; [|reflexivity]. cbn [obind]. destruct qx; [|reflexivity].
  cbn [store] in E. destruct (ity_eqb qt U8); [discriminate|]. destruct (forallb _ z); [|discriminate].
  inversion E. reflexivity.
Qed.
Definition linear_bias (w : tensor Z) (bias : option (list R)) : option (list R) :=
  Some match bias with Some b => b | None => repeat 0 (nth 0 (tshape w) 0%nat) end.
Lemma linear_bias_at w bias c : bias_at (linear_bias w bias) c = bias_at bias c.
Proof.
  destruct bias as [b|]; [reflexivity|]. cbn [linear_bias bias_at]. generalize (nth 0 (tshape w) 0%nat) as n. intro n.
  revert c. induction n as [|n IH]; intros [|c]; cbn; auto.
Qed.
Lemma linear_byte oob fuel qt asym sx zx x sw zw w bias sy zy e c taps :
  all_in U8 x -> all_in S8 w -> 0 < sx -> 0 < sy -> 0 < sw -> zero_kept qt asym zx -> zero_kept qt asym zy ->
  / 4294967296 <= sx * sw / sy -> qt <> S16 -> sx * sw <= sy ->
  linear_operands oob fuel qt asym (TPerTensor sx zx) x (TPerTensor sw zw) w bias (TPerTensor sy zy) = Some e ->
  (forall t, In t taps -> valid (tshape x) (fst t) /\ valid (tshape w) (snd t)) ->
  (c < match bias with Some b => length b | None => nth 0 (tshape w) 0 end)%nat ->
  Rabs (bias_at bias c) <= sx * sw * IZR (2 ^ 31 - 1) ->
  (Z.abs (run_dot false e c taps + off qt -
     torch_quant 0 255 sy zy (torch_dot (TPerTensor sx zx) x (TPerTensor sw zw) w taps (bias_at bias c))) <= 1)%Z.
Proof.
  intros Hx Hw Px Py Ps Zx Zy Hm Hq Hsm H Ht Hb Hbb. rewrite linear_conv in H. fold (linear_bias w bias) in H.
  rewrite <- (linear_bias_at w bias c). eapply conv_byte; try exact H; auto.
  - intros s z E. injection E as <- <-. exact Hm.
  - intros t T. destruct (Ht t T) as [A B]. split; [exact A|]. split; [exact B|exact I].
  - destruct bias as [b|]; cbn [linear_bias bias_has] in *; [exact Hb|]. rewrite repeat_length. exact Hb.
  - rewrite linear_bias_at. exact Hbb.
Qed.

(** ** Refutations *)
Definition one (v : Z) : tensor Z := mkT [1%nat] (fun _ => v).
Definition x86 (t : bty) : Z := bty_lo t.
Lemma one_in d v : in_ity d v -> all_in d (one v).
Proof. intros H i _. exact H. Qed.

Lemma zsum_repeat {A} (f : A -> Z) t n : zsum (map f (repeat t n)) = (Z.of_nat n * f t)%Z.
Proof. induction n as [|n IH]; [reflexivity|]. rewrite Nat2Z.inj_succ. cbn [repeat map zsum fold_right]. unfold zsum in IH. rewrite IH. lia. Qed.
Lemma rsum_repeat {A} (f : A -> R) t n : rsum (map f (repeat t n)) = INR n * f t.
Proof. induction n as [|n IH]; [cbn; ring|]. rewrite S_INR. cbn [repeat map rsum fold_right]. unfold rsum in IH. rewrite IH. ring. Qed.
Lemma rha_unique x n : 0 <= x -> IZR n <= x + 1 / 2 < IZR n + 1 -> rha x = n.
Proof. intros H1 H2. unfold rha. destruct (Rle_dec 0 x); [|lra]. now apply Int_part_unique. Qed.

Ltac zc := repeat match goal with |- context [IZR ?z] => let v := eval vm_compute in z in progress change (IZR z) with (IZR v) end.
Lemma rescale_refuted : exists fuel sx x sw w sy e taps,
  0 < sx /\ 0 < sw /\ 0 < sy /\ all_in U8 x /\ all_in S8 w /\
  linear_operands x86 fuel U8 true (TPerTensor sx 0) x (TPerTensor sw 0) w None (TPerTensor sy 0) = Some e /\
  (forall t, In t taps -> valid (tshape x) (fst t) /\ valid (tshape w) (snd t)) /\
  run_dot false e 0 taps = 3%Z /\
  torch_quant 0 255 sy 0 (torch_dot (TPerTensor sx 0) x (TPerTensor sw 0) w taps 0) = 0%Z.
Proof.
  exists 2%nat, 1, (one 255), (99 / 100 * / 4294967296), (one 127), 1. eexists. exists (repeat ([0%nat], [0%nat]) (Z.to_nat 40000)).
  split; [lra|]. split; [lra|]. split; [lra|]. split; [apply one_in; unfold in_ity; cbn; lia|]. split; [apply one_in; unfold in_ity; cbn; lia|].
  split.
  { unfold linear_operands. cbn [store ity_eqb Z.eqb negb andb obind]. rewrite rescale_step by lra.
    destruct (Rlt_dec _ _); [|lra]. rewrite rescale_step by lra. destruct (Rlt_dec _ _); [lra|]. cbn [obind]. reflexivity. }
  split.
  { intros t T. apply repeat_spec in T. subst t. cbn [fst snd tshape one]. split; (constructor; [lia|constructor]). }
  split.
  - unfold run_dot. cbn [qd_x qd_y qd_b qd_ty qd_ws qd_w chan_scale chan_zero nth tshape one repeat map]. unfold tfl_requant, tfl_acc.
    rewrite zsum_repeat. cbn [fst snd tget tmap one]. rewrite Z2Nat.id by lia.
    unfold quantize1. replace (0 / (1 * (99 / 100 * / 4294967296 * 10))) with (IZR 0) by (unfold Rdiv; ring). rewrite rne_IZR.
    cbn [bias_type bty_hi bty_lo ity_eqb].
    replace (wrap U8 (wrap U8 127 + 128)) with 255%Z by reflexivity.
    replace (0 <? - 2 ^ 31)%Z with false by reflexivity. replace (2 ^ 31 - 1 <? 0)%Z with false by reflexivity.
    rewrite (rha_unique _ 3); [reflexivity|zc; lra|zc; lra].
  - unfold torch_dot. rewrite rsum_repeat. cbn [fst snd treal tget one]. unfold torch_quant.
    rewrite INR_IZR_INZ, Z2Nat.id by lia. rewrite (rne_unique _ 0); [reflexivity|].
    zc. apply Rabs_def1; lra.
Qed.

Lemma overflow_refuted : exists fuel sx x sw w sy b e taps,
  0 < sx /\ 0 < sw /\ 0 < sy /\ sx * sw <= sy /\ / 4294967296 <= sx * sw / sy /\ all_in U8 x /\ all_in S8 w /\
  linear_operands x86 fuel U8 true (TPerTensor sx 0) x (TPerTensor sw 0) w (Some [b]) (TPerTensor sy 100) = Some e /\
  (forall t, In t taps -> valid (tshape x) (fst t) /\ valid (tshape w) (snd t)) /\
  run_dot false e 0 taps = 92%Z /\
  torch_quant 0 255 sy 100 (torch_dot (TPerTensor sx 0) x (TPerTensor sw 0) w taps b) = 227%Z.
Proof.
  exists 1%nat, 1, (one 0), (/ 268435456), (one 1), 1, 127. eexists. exists [([0%nat], [0%nat])].
  split; [lra|]. split; [lra|]. split; [lra|]. split; [lra|]. split; [lra|].
  split; [apply one_in; unfold in_ity; cbn; lia|]. split; [apply one_in; unfold in_ity; cbn; lia|].
  split.
  { unfold linear_operands. cbn [store ity_eqb Z.eqb negb andb obind]. rewrite rescale_step by lra.
    destruct (Rlt_dec _ _); [lra|]. cbn [obind]. reflexivity. }
  split.
  { intros t [<- |[]]. cbn [fst snd tshape one]. split; (constructor; [lia|constructor]). }
  split.
  - unfold run_dot. cbn [qd_x qd_y qd_b qd_ty qd_ws qd_w chan_scale chan_zero nth map]. unfold tfl_requant, tfl_acc, quantize1.
    replace (127 / (1 * / 268435456)) with (IZR 34091302912) by lra. rewrite rne_IZR.
    cbn [bias_type bty_hi bty_lo ity_eqb x86]. replace (2 ^ 31 - 1 <? 34091302912)%Z with true by reflexivity.
    cbn [map zsum fold_right fst snd tget tmap one].
    match goal with |- context [rha ?x] => replace x with (IZR (-8)) by (zc; lra) end. rewrite rha_IZR. reflexivity.
  - unfold torch_dot. cbn [map rsum fold_right fst snd treal tget one]. unfold torch_quant.
    match goal with |- context [rne ?x] => replace x with (IZR 127) by (zc; lra) end. rewrite rne_IZR. reflexivity.
Qed.

Lemma deconv_bias_refuted : exists fuel sx x sw w sy b e taps,
  0 < sx /\ 0 < sw /\ 0 < sy /\ sx * sw <= sy /\ / 4294967296 <= sx * sw / sy /\ all_in U8 x /\ all_in S8 w /\
  Rabs b <= sx * sw * IZR (2 ^ 31 - 1) /\
  conv_operands x86 fuel U8 true true true (TPerTensor sx 0) x (TPerTensor sw 0) w (Some [b]) (TPerTensor sy 100) = Some e /\
  taps_ok (TPerTensor sw 0) x w 0 taps /\
  run_dot_add e 0 taps = 100%Z /\
  torch_quant 0 255 sy 100 (torch_dot (TPerTensor sx 0) x (TPerTensor sw 0) w taps b) = 90%Z.
Proof.
  exists 1%nat, (1 / 10), (one 0), (1 / 100), (one 1), (1 / 10), (-1). eexists. exists [([0%nat], [0%nat])].
  split; [lra|]. split; [lra|]. split; [lra|]. split; [lra|]. split; [lra|].
  split; [apply one_in; unfold in_ity; cbn; lia|]. split; [apply one_in; unfold in_ity; cbn; lia|].
  split; [zc; rewrite Rabs_left by lra; lra|].
  split.
  { unfold conv_operands. cbn [store ity_eqb Z.eqb negb andb obind forallb]. destruct (Reqb_spec (-1) 0); [lra|]. rewrite rescale_step by lra.
    destruct (Rlt_dec _ _); [lra|]. cbn [obind]. reflexivity. }
  split.
  { intros t [<- |[]]. cbn [fst snd tshape one]. split; [|split; [|exact I]]; (constructor; [lia|constructor]). }
  split.
  - unfold run_dot_add. cbn [qd_x qd_y qd_b qd_ty qd_ws qd_w chan_scale chan_zero nth map option_map andb]. unfold tfl_requant, tfl_acc, quantize1.
    match goal with |- context [rne ?x] => replace x with (IZR (-1000)) by (zc; lra) end. rewrite rne_IZR.
    cbn [bias_type bty_hi bty_lo ity_eqb ity_lo ity_hi]. replace (255 <? -1000)%Z with false by reflexivity.
    replace (-1000 <? 0)%Z with true by reflexivity.
    cbn [map zsum fold_right fst snd tget tmap one].
    match goal with |- context [clampZ 0 255 (100 + rha ?x)] => replace x with (IZR 0) by (zc; lra) end. rewrite rha_IZR.
    unfold tfl_add_q. change (clampZ 0 255 (100 + 0)) with 100%Z.
    match goal with |- context [rha ?x] => replace x with (IZR 0) by (zc; lra) end. rewrite rha_IZR. reflexivity.
  - unfold torch_dot. cbn [map rsum fold_right fst snd treal tget one]. unfold torch_quant.
    match goal with |- context [rne ?x] => replace x with (IZR (-10)) by (zc; lra) end. rewrite rne_IZR. reflexivity.
Qed.

(** ** Scalars *)
Lemma rha_near x n : Rabs (x - IZR n) < 1 / 2 -> rha x = n.
Proof.
  intro H. pose proof (rha_half x) as H1. apply Rabs_def2 in H. apply Rabs_between in H1.
  assert (A : IZR n < IZR (rha x + 1)) by (rewrite plus_IZR; lra).
  assert (B : IZR (rha x) < IZR (n + 1)) by (rewrite plus_IZR; lra).
  apply lt_IZR in A. apply lt_IZR in B. lia.
Qed.
Lemma scalar_form qt v : v <> 0 -> qt <> S16 ->
  exists z2 q2, quantize_scalar (qkind_of qt) v = (Rabs v / 127, z2, q2) /\ (q2 - z2 = if Rlt_dec 0 v then 127 else -127)%Z.
Proof.
  intros Hv Hq. unfold quantize_scalar, scalar_qparams. destruct (Reqb_spec v 0); [contradiction|].
  unfold Rgtb, dec2b. destruct (Rlt_dec v 0) as [L|L].
  - rewrite Rabs_left by exact L. destruct (Rlt_dec 0 v); [lra|].
    assert (E : v / (- v / 127) = IZR (-127)) by (field; lra).
    destruct qt; [| |congruence]; cbn [qkind_of]; do 2 eexists; (split; [reflexivity|]); unfold torch_quantize; rewrite E, rne_IZR; reflexivity.
  - rewrite Rabs_pos_eq by lra. destruct (Rlt_dec 0 v); [|lra].
    assert (E : v / (v / 127) = IZR 127) by (field; lra).
    destruct qt; [| |congruence]; cbn [qkind_of]; do 2 eexists; (split; [reflexivity|]); unfold torch_quantize; rewrite E, rne_IZR; reflexivity.
Qed.
Lemma clamp_off qt a : qt <> S16 -> (0 <= a <= 255)%Z -> clampZ (ity_lo qt) (ity_hi qt) (a - off qt) = (a - off qt)%Z.
Proof. intros Hq H. unfold clampZ. destruct qt; [| |congruence]; cbn [ity_lo ity_hi off]; lia. Qed.

Lemma mul_scalar_ok qt s z v q so zo qo : qt <> S16 -> 0 < s -> (0 <= z <= 255)%Z -> (0 <= q <= 255)%Z -> v <> -1 ->
  torch_mul_scalar s z v q = (so, zo, qo) ->
  mul_scalar torch_mul_scalar qt s z v q = (so, (zo - off qt)%Z, (qo - off qt)%Z).
Proof.
  intros Hq Hs Hz Hqq Hv H. unfold mul_scalar. destruct (Reqb_spec v (-1)); [contradiction|]. rewrite H.
  destruct (Reqb_spec v 1) as [E|E].
  { subst v. unfold torch_mul_scalar in H. destruct (Rlt_dec 0 1); [|lra]. injection H as <- <- <-. now rewrite Rmult_1_l. }
  unfold torch_mul_scalar in H. destruct (Req_dec v 0) as [Z0|NZ].
  - subst v. destruct (Rlt_dec 0 0); [lra|]. injection H as <- <- <-.
    unfold quantize_scalar, scalar_qparams. destruct (Reqb_spec 0 0); [|contradiction].
    assert (E0 : 0 / (1 / 2) = IZR 0) by lra.
    destruct qt; [| |congruence]; cbn [qkind_of]; unfold torch_quantize; rewrite E0, rne_IZR; unfold tfl_mul_q;
      f_equal; match goal with |- context [rha ?x] => replace x with (IZR 0) end; try (rewrite rha_IZR; reflexivity);
      match goal with |- context [Z.sub (clampZ ?a ?b ?c) ?d] => replace (Z.sub (clampZ a b c) d) with 0%Z by reflexivity end; rewrite Z.mul_0_r; lra.
  - destruct (scalar_form qt v NZ Hq) as (z2 & q2 & -> & E2). f_equal. unfold tfl_mul_q. rewrite E2.
    destruct (Rlt_dec 0 v) as [P|P].
    + injection H as <- <- <-. rewrite Rabs_pos_eq by lra.
      match goal with |- context [rha ?x] => replace x with (IZR (q - z)) end.
      * rewrite rha_IZR. replace (z - off qt + (q - z))%Z with (q - off qt)%Z by lia. now apply clamp_off.
      * replace (q - off qt - (z - off qt))%Z with (q - z)%Z by lia. rewrite mult_IZR. field. lra.
    + destruct (Rlt_dec v 0) as [N|N]; [|lra].
      assert (H1 : so = - v * s) by congruence. assert (H2 : zo = (255 - z)%Z) by congruence.
      assert (H3 : qo = (255 - q)%Z) by congruence. subst so zo qo. rewrite Rabs_left by lra.
      match goal with |- context [rha ?x] => replace x with (IZR (z - q)) end.
      * rewrite rha_IZR. replace (255 - z - off qt + (z - q))%Z with (255 - q - off qt)%Z by lia. apply clamp_off; [exact Hq|lia].
      * replace (q - off qt - (z - off qt))%Z with (q - z)%Z by lia. rewrite mult_IZR, !minus_IZR. field. lra.
Qed.

Lemma mul_minus_one qt s z q : qt <> S16 -> 0 < s -> (0 <= z <= 255)%Z -> (0 <= q <= 255)%Z ->
  mul_scalar torch_mul_scalar qt s z (-1) q = (s, (z - off qt)%Z, (clampZ 0 255 (2 * z - q) - off qt)%Z).
Proof.
  intros Hq Hs Hz Hqq. unfold mul_scalar. destruct (Reqb_spec (-1) (-1)); [|lra]. destruct (Reqb_spec (-1) 1); [lra|].
  unfold torch_mul_scalar. destruct (Rlt_dec 0 1); [|lra]. rewrite Rmult_1_l.
  destruct (scalar_form qt (-1) ltac:(lra) Hq) as (z2 & q2 & -> & E2). f_equal. unfold tfl_mul_q. rewrite E2.
  destruct (Rlt_dec 0 (-1)); [lra|]. rewrite Rabs_left by lra.
  match goal with |- context [rha ?x] => replace x with (IZR (z - q)) end.
  - rewrite rha_IZR. unfold clampZ. destruct qt; [| |congruence]; cbn [ity_lo ity_hi off]; lia.
  - replace (q - off qt - (z - off qt))%Z with (q - z)%Z by lia. rewrite mult_IZR, !minus_IZR. field. lra.
Qed.
Lemma mul_minus_one_refuted : exists qt s z q so zo qo,
  qt <> S16 /\ 0 < s /\ (0 <= z <= 255)%Z /\ (0 <= q <= 255)%Z /\
  mul_scalar torch_mul_scalar qt s z (-1) q = (so, zo, qo) /\
  deq so zo qo = 0 /\ let '(so', zo', qo') := torch_mul_scalar s z (-1) q in deq so' zo' qo' = -10.
Proof.
  exists U8, 1, 0%Z, 10%Z, 1, 0%Z, 0%Z. split; [discriminate|]. split; [lra|]. split; [lia|]. split; [lia|].
  split; [rewrite mul_minus_one by (try discriminate; try lra; lia); reflexivity|].
  split; [unfold deq; lra|]. unfold torch_mul_scalar. destruct (Rlt_dec 0 (-1)); [lra|]. destruct (Rlt_dec (-1) 0); [|lra].
  unfold deq. zc. lra.
Qed.

Lemma add_scalar_close qt s z v q : qt <> S16 -> 0 < s -> (0 <= z <= 255)%Z -> (0 <= q <= 255)%Z ->
  let '(so, zo, qo) := torch_add_scalar s z v q in
  exists q', add_scalar torch_add_scalar qt s z v q = (so, (zo - off qt)%Z, q') /\ (Z.abs (q' + off qt - qo) <= 1)%Z /\
    (zo <> 0%Z /\ zo <> 255%Z -> Rabs (v / s - IZR (rne (v / s))) < 1 / 2 -> q' = (qo - off qt)%Z).
Proof.
  intros Hq Hs Hz Hqq. destruct (torch_add_scalar s z v q) as [[so zo] qo] eqn:H. unfold add_scalar. rewrite H.
  assert (Rv : Rabs (v / s - IZR (rne (v / s))) <= 1 / 2) by apply rne_half.
  unfold torch_add_scalar in H. destruct (Reqb_spec v 0) as [E|NZ].
  { subst v. replace (0 / s) with (IZR 0) in H by (unfold Rdiv; ring). rewrite rne_IZR, Z.sub_0_r in H.
    rewrite (proj2 (Z.ltb_ge z 0)), (proj2 (Z.ltb_ge 255 z)) in H by lia. injection H as <- <- <-.
    eexists. split; [reflexivity|]. split; [lia|]. auto. }
  pose proof (quantize_scalar_ok (qkind_of qt) v) as Ds. destruct (quantize_scalar (qkind_of qt) v) as [[s2 z2] q2].
  eexists. split; [reflexivity|]. unfold tfl_add_q.
  replace (q - off qt - (z - off qt))%Z with (q - z)%Z by lia.
  unfold deq in Ds. rewrite <- minus_IZR in Ds. rewrite Ds.
  set (c := rne (v / s)) in *. set (k := (z - c)%Z) in *.
  assert (Ev : v = s * (v / s)) by (field; lra).
  assert (Close : forall s', s <= s' -> Rabs ((s * IZR (q - z) + v) / s' - s * IZR (q - k) / s') <= 1 / 2).
  { intros s' L. replace ((s * IZR (q - z) + v) / s' - s * IZR (q - k) / s') with ((v / s - IZR c) * (s / s')).
    - rewrite Rabs_mult. assert (0 <= s / s' <= 1).
      { split; [left; apply Rdiv_lt_0_compat; lra|]. apply Rmult_le_reg_r with s'; [lra|]. unfold Rdiv. rewrite Rmult_assoc, Rinv_l by lra. lra. }
      rewrite (Rabs_pos_eq (s / s')) by lra. pose proof (Rabs_pos (v / s - IZR c)). nra.
    - unfold k. rewrite !minus_IZR. field. lra. }
  assert (B : forall zo s', s <= s' -> (Z.abs (clampZ (ity_lo qt) (ity_hi qt) (zo - off qt + rha ((s * IZR (q - z) + v) / s')) + off qt
             - torch_quant 0 255 s' zo (s * IZR (q - k))) <= 1)%Z).
  { intros zo' s' L. pose proof (close_round _ _ (Close s' L)). unfold torch_quant, clampZ. destruct qt; [| |congruence]; cbn [ity_lo ity_hi off]; lia. }
  destruct (k <? 0)%Z eqn:K1; [|destruct (255 <? k)%Z eqn:K2].
  - apply Z.ltb_lt in K1. assert (H1 : so = IZR (255 - k) / 255 * s) by congruence. assert (H2 : zo = 0%Z) by congruence.
    assert (H3 : qo = torch_quant 0 255 (IZR (255 - k) / 255 * s) 0 (s * IZR (q - k))) by congruence. subst so zo qo. split; [|intros [? _]; congruence]. apply B.
    assert (IZR 255 <= IZR (255 - k)) by (apply IZR_le; lia). nra.
  - apply Z.ltb_lt in K2. injection H as <- <- <-. split; [|intros [_ ?]; congruence]. apply B.
    assert (IZR 255 <= IZR k) by (apply IZR_le; lia). nra.
  - apply Z.ltb_ge in K1. apply Z.ltb_ge in K2. injection H as <- <- <-. split.
    + pose proof (B k s ltac:(lra)) as Bk. replace (torch_quant 0 255 s k (s * IZR (q - k))) with q in Bk; [exact Bk|].
      unfold torch_quant. replace (s * IZR (q - k) / s) with (IZR (q - k)) by (field; lra). rewrite rne_IZR. unfold clampZ. lia.
    + intros _ T. rewrite (rha_near _ (q - k)%Z).
      * replace (k - off qt + (q - k))%Z with (q - off qt)%Z by lia. now apply clamp_off.
      * replace ((s * IZR (q - z) + v) / s - IZR (q - k)) with (v / s - IZR c); [exact T|].
        unfold k. rewrite !minus_IZR. field. lra.
Qed.

Lemma rescale_ok sx sw sy : 0 < sx -> 0 < sw -> 0 < sy -> exists fuel k,
  (forall m, rescale (fuel + m) sx sw sy = Some (10 ^ k * sw)) /\
  / 4294967296 <= sx * (10 ^ k * sw) / sy /\
  (k = 0%nat <-> / 4294967296 <= sx * sw / sy) /\
  (k <> 0%nat -> forall acc, (Z.abs acc <= 214748364)%Z -> Rabs (sx * (10 ^ k * sw) / sy * IZR acc) < 1 / 2).
Proof.
  intros Hx Hw Hy. destruct (rescale_total sx sw sy Hx Hw Hy) as (fuel & r & E).
  destruct (rescale_sound fuel sx sw sy r Hx Hw Hy E) as (k & -> & A & B). exists fuel, k.
  split; [intro m; now apply rescale_mono|]. split; [exact A|]. split.
  - split.
    + intros ->. cbn [pow] in A. rewrite Rmult_1_l in A. exact A.
    + intro L. pose proof (rescale_same _ _ _ _ _ Hx Hw Hy L E) as S1. destruct k as [|k]; [reflexivity|]. exfalso.
      assert (10 ^ S k = 1) by (apply Rmult_eq_reg_r with sw; lra). cbn [pow] in H.
      assert (1 <= 10 ^ k) by (apply pow_R1_Rle; lra). lra.
  - intros K acc Ha. specialize (B K). rewrite Rabs_mult, <- abs_IZR. rewrite Rabs_pos_eq by lra.
    apply IZR_le in Ha. assert (0 <= IZR (Z.abs acc)) by (apply IZR_le; lia). nra.
Qed.
