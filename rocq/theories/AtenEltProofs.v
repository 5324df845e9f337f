(** Proofs about the lowering of elementwise operators. *)
From Coq Require Import List Arith Bool Reals ZArith Lia Lra.
From Flocq Require Import Core BinarySingleNaN.
From Verif Require Import Tensor FuseModel LowerProofs ConvSpec FuseProofs FuseMiscProofs PassAxesProofs QuantSpec AtenIndexProofs EltSpec AtenEltModel.
Import ListNotations.
Local Open Scope R_scope.

(** ** Casts *)
Lemma Rtrunc_IZR z : Rtrunc (IZR z) = z.
Proof.
  unfold Rtrunc. destruct (Rle_dec 0 (IZR z)) as [H|H].
  - apply Int_part_unique. lra.
  - rewrite <- opp_IZR. rewrite (Int_part_unique _ (- z)%Z); [lia|lra].
Qed.
Lemma cast_int z : cast DI (IZR z) = IZR z.
Proof. cbn [cast]. now rewrite Rtrunc_IZR. Qed.
(** casting to a wider type keeps the number *)
Definition le_dty (a b : dty) : Prop := promote a b = b.
Lemma cast_id d r v : le_dty d r -> holds d v -> cast r v = v.
Proof.
  destruct d, r; cbn [le_dty promote holds]; intros Hp Hv; try discriminate Hp; try reflexivity.
  - destruct Hv as [-> | ->]; cbn [cast]; destruct (Req_EM_T _ 0); lra.
  - destruct Hv as [-> | ->]; [exact (cast_int 0)|exact (cast_int 1)].
  - destruct Hv as [z ->]. apply cast_int.
Qed.
Lemma le_promote_l a b : le_dty a (promote a b). Proof. destruct a, b; reflexivity. Qed.
Lemma le_promote_r a b : le_dty b (promote a b). Proof. destruct a, b; reflexivity. Qed.
Lemma to_dty_teq d r x : le_dty d r -> has_dty d x -> teq (to_dty d r x) x.
Proof.
  intros Hp Hx. unfold to_dty. destruct (dty_eqb d r); [apply teq_refl|]. split; [reflexivity|].
  intros idx V. cbn [tmap tget]. apply cast_id with d; auto.
Qed.
Lemma binop_teq {A B C} (f g : A -> B -> C) x x' y y' z :
  teq x x' -> teq y y' -> (forall a b, f a b = g a b) -> binop g x' y' = Some z ->
  exists z', binop f x y = Some z' /\ teq z' z.
Proof.
  intros [Sx Gx] [Sy Gy] Hf. unfold binop. rewrite Sx, Sy. destruct (bshape (tshape x') (tshape y')) as [s|] eqn:E; [|discriminate].
  intros [= <-]. eexists. split; [reflexivity|]. split; [reflexivity|]. cbn [tshape tget]. intros idx V.
  destruct (bidx_valid _ _ _ _ E V) as [V1 V2]. rewrite Gx, Gy, Hf by (rewrite ?Sx, ?Sy; assumption). reflexivity.
Qed.

Definition numk (k : kop) (a b : R) : R := kern k DF a b.
Lemma kern_num k d a b : k <> KDiv \/ d = DF -> kern k d a b = numk k a b.
Proof. intros [H|H]; [destruct k; try reflexivity; congruence|now subst]. Qed.
Lemma elementwise_binary_ok k dx x dy y z :
  has_dty dx x -> has_dty dy y -> (k <> KDiv \/ promote dx dy = DF) -> accepts k (promote dx dy) = true ->
  binop (numk k) x y = Some z ->
  exists z', elementwise_binary k dx x dy y = Some z' /\ teq z' z.
Proof.
  intros Hx Hy Hk Ha Hz. unfold elementwise_binary. rewrite Ha.
  apply (binop_teq _ (numk k) _ x _ y z); auto using to_dty_teq, le_promote_l, le_promote_r.
  intros a b. now apply kern_num.
Qed.

Lemma binop_flip {A B C} (f : A -> B -> C) x y : binop (fun b a => f a b) y x = binop f x y.
Proof. unfold binop. rewrite bshape_comm. destruct (bshape _ _); reflexivity. Qed.

Lemma arith_accepts op d : arith_ok op d -> accepts (fst (kernel_of op)) d = true /\ (fst (kernel_of op) <> KDiv \/ d = DF).
Proof.
  intros [[H1 H2]|[-> | ->]]; [|destruct d; cbn; split; auto; left; discriminate..].
  split; [destruct d; [congruence|destruct op; reflexivity|destruct op; reflexivity]|].
  destruct H2 as [H2|H2]; [left|now right]. destruct op; cbn; congruence.
Qed.

Lemma promote_comm a b : promote a b = promote b a. Proof. destruct a, b; reflexivity. Qed.
Theorem aten_binary_tensor op dx x dy y z :
  has_dty dx x -> has_dty dy y -> arith_ok op (promote dx dy) -> torch_binary op x y = Some z ->
  exists z', aten_binary op 1 dx x (OTensor dy y) = Some z' /\ teq z' z.
Proof.
  intros Hx Hy Ho Hz. destruct (arith_accepts _ _ Ho) as [A1 A2]. unfold aten_binary.
  assert (alpha_ok op 1 = true) as -> by (destruct op; cbn; unfold Reqb, dec2b; try destruct (Req_EM_T 1 1); auto).
  unfold torch_binary in Hz. cbn [as_tensor].
  destruct op; cbn [kernel_of fst] in *;
    try (apply elementwise_binary_ok; auto; exact Hz).
  apply elementwise_binary_ok; auto; try (rewrite promote_comm; auto). rewrite <- Hz. apply (binop_flip (num BRsub)).
Qed.

(** a scalar whose kind fits the type of the tensor *)
Lemma binop_one_r {A B C} (f : A -> B -> C) (x : tensor A) c : tshape x <> [] ->
  exists z, binop f x (mkT [1%nat] (fun _ => c)) = Some z /\ teq z (tmap (fun v => f v c) x).
Proof.
  intro H. unfold binop. cbn [tshape]. rewrite bshape_one by exact H. eexists. split; [reflexivity|]. split; [reflexivity|].
  intros idx V. cbn [tshape tget tmap] in *. now rewrite bidx_self by exact V.
Qed.
Lemma cast_holds d c : holds d (cast d c).
Proof. destruct d; cbn [holds cast]; [destruct (Req_EM_T c 0); auto|eauto|exact I]. Qed.
Theorem aten_binary_scalar op dx x c :
  tshape x <> [] -> has_dty dx x -> holds dx c -> arith_ok op dx ->
  exists z', aten_binary op 1 dx x (OScalar c) = Some z' /\ teq z' (torch_binary_scalar op x c).
Proof.
  intros Hn Hx Hc Ho.
  assert (Ec : cast dx c = c) by (apply cast_id with dx; [destruct dx; reflexivity|exact Hc]).
  destruct (binop_one_r (num op) x c Hn) as (z & Hz & Tz).
  assert (Hy : has_dty dx (mkT [1%nat] (fun _ => c))) by (intros idx _; exact Hc).
  destruct (aten_binary_tensor op dx x dx (mkT [1%nat] (fun _ => c)) z Hx Hy ltac:(now replace (promote dx dx) with dx by (destruct dx; reflexivity)) Hz) as (z' & E & T).
  exists z'. split; [|now apply teq_trans with z].
  unfold aten_binary in *. cbn [as_tensor] in *. rewrite Ec. exact E.
Qed.

Theorem compare_fraction_refuted : exists x c, has_dty DI x /\ tshape x = [1%nat] /\
  exists z, aten_binary BLt 1 DI x (OScalar c) = Some z /\ tget z [0%nat] <> tget (torch_binary_scalar BLt x c) [0%nat].
Proof.
  exists (mkT [1%nat] (fun _ => 0)), (1 / 2). split; [intros idx _; now exists 0%Z|]. split; [reflexivity|].
  eexists. split; [reflexivity|]. cbn. unfold Rtrunc. destruct (Rle_dec 0 (1 / 2)) as [_|]; [|lra].
  rewrite (Int_part_unique (1 / 2) 0) by lra. unfold b2r, Rgtb, dec2b. destruct (Rlt_dec 0 (IZR 0)); [lra|].
  destruct (Rlt_dec 0 (1 / 2)); lra.
Qed.
Theorem divide_integers_refuted : exists x y, has_dty DI x /\ has_dty DI y /\
  exists z w, aten_binary BDiv 1 DI x (OTensor DI y) = Some z /\ torch_binary BDiv x y = Some w /\
  tshape z = [1%nat] /\ tshape w = [1%nat] /\ tget z [0%nat] <> tget w [0%nat].
Proof.
  exists (mkT [1%nat] (fun _ => 1)), (mkT [1%nat] (fun _ => 2)). split; [intros idx _; now exists 1%Z|]. split; [intros idx _; now exists 2%Z|].
  eexists. eexists. split; [reflexivity|]. split; [reflexivity|]. split; [reflexivity|]. split; [reflexivity|].
  cbn. unfold Rtrunc. destruct (Rle_dec 0 (1 / 2)) as [_|]; [|lra]. rewrite (Int_part_unique (1 / 2) 0) by lra. lra.
Qed.
Theorem multiply_fraction_refuted : exists x c, has_dty DI x /\ tshape x = [1%nat] /\
  exists z, aten_binary BMul 1 DI x (OScalar c) = Some z /\ tget z [0%nat] <> tget (torch_binary_scalar BMul x c) [0%nat].
Proof.
  exists (mkT [1%nat] (fun _ => 1)), (1 / 2). split; [intros idx _; now exists 1%Z|]. split; [reflexivity|].
  eexists. split; [reflexivity|]. cbn. unfold Rtrunc. destruct (Rle_dec 0 (1 / 2)) as [_|]; [|lra].
  rewrite (Int_part_unique (1 / 2) 0) by lra. lra.
Qed.

Theorem aten_floor_divide_ok x dy y z :
  has_dty DI x -> has_dty dy y -> dy <> DF -> torch_binary BFloorDiv x y = Some z ->
  exists z', aten_floor_divide DI true true x (OTensor dy y) = Some z' /\ teq z' z.
Proof.
  intros Hx Hy Hd Hz. unfold aten_floor_divide. cbn [as_tensor accepts andb].
  apply (binop_teq _ (num BFloorDiv) _ x _ y z); auto using teq_refl.
  apply to_dty_teq; auto. destruct dy; [reflexivity|reflexivity|congruence].
Qed.
Theorem floor_divide_float_refuted : exists x y, has_dty DI x /\ has_dty DF y /\
  exists z w, aten_floor_divide DI true true x (OTensor DF y) = Some z /\ torch_binary BFloorDiv x y = Some w /\
  tshape z = [1%nat] /\ tshape w = [1%nat] /\ tget z [0%nat] <> tget w [0%nat].
Proof.
  exists (mkT [1%nat] (fun _ => 7)), (mkT [1%nat] (fun _ => 5 / 2)). split; [intros idx _; now exists 7%Z|]. split; [intros idx _; exact I|].
  eexists. eexists. split; [reflexivity|]. split; [reflexivity|]. split; [reflexivity|]. split; [reflexivity|].
  cbn. unfold Rtrunc. destruct (Rle_dec 0 (5 / 2)) as [_|]; [|lra]. rewrite (Int_part_unique (5 / 2) 2) by lra.
  rewrite (Int_part_unique (7 / 2) 3) by lra. rewrite (Int_part_unique (7 / (5 / 2)) 2) by lra. lra.
Qed.

(** ** Clamping *)
Lemma Reqb_spec a b : reflect (a = b) (Reqb a b).
Proof. unfold Reqb, dec2b. destruct (Req_EM_T a b); constructor; auto. Qed.
Theorem aten_clamp_ok dx lo hi v : dx <> DB -> bounds_fit dx lo hi -> (lo <> None \/ hi <> None) ->
  dx = DF \/ ~ relu_case lo hi -> aten_clamp dx lo hi v = Some (torch_clamp lo hi v).
Proof.
  intros Hd [F1 F2] Hs Hr.
  assert (A1 : accepts KMax dx = true) by (destruct dx; congruence || reflexivity).
  assert (A2 : accepts KMin dx = true) by (destruct dx; congruence || reflexivity).
  assert (Ec : forall c, holds dx c -> cast dx c = c) by (intros c Hc; apply cast_id with dx; [destruct dx; reflexivity|exact Hc]).
  destruct lo as [l|], hi as [h|]; cbn [aten_clamp torch_clamp]; rewrite ?A1, ?A2.
  - destruct (Reqb_spec l 0) as [-> |], (Reqb_spec h 6) as [-> |]; cbn [andb]; rewrite ?Ec by assumption; try reflexivity.
    destruct Hr as [-> |Hr]; [reflexivity|]. exfalso. apply Hr. split; auto.
  - destruct (Reqb_spec l 0) as [-> |]; rewrite ?Ec by assumption; try reflexivity.
    destruct Hr as [-> |Hr]; [reflexivity|]. exfalso. apply Hr. split; auto.
  - now rewrite Ec.
  - destruct Hs; congruence.
Qed.
Theorem clamp_integer_refuted : aten_clamp DI (Some 0) None 1 = None /\ torch_clamp (Some 0) None 1 = 1.
Proof. cbn. destruct (Reqb_spec 0 0); [|congruence]. split; [reflexivity|]. apply Rmax_left. lra. Qed.
Theorem aten_hardtanh_ok lo hi v : aten_hardtanh DF lo hi v = Some (torch_clamp (Some lo) (Some hi) v).
Proof.
  unfold aten_hardtanh, torch_clamp. cbn [accepts cast].
  destruct (Reqb_spec lo 0) as [-> |], (Reqb_spec hi 6) as [-> |]; reflexivity.
Qed.

(** *** quantized *)
Lemma rne_ge q t : IZR q <= t -> (q <= rne t)%Z.
Proof.
  intro H. pose proof (rne_half t) as Hr. unfold Rabs in Hr. destruct (Rcase_abs _) in Hr.
  - assert (q - 1 < rne t)%Z by (apply lt_IZR; rewrite minus_IZR; lra). lia.
  - assert (q - 1 < rne t)%Z by (apply lt_IZR; rewrite minus_IZR; lra). lia.
Qed.
Lemma rne_le q t : t <= IZR q -> (rne t <= q)%Z.
Proof.
  intro H. pose proof (rne_half t) as Hr. unfold Rabs in Hr. destruct (Rcase_abs _) in Hr.
  - assert (rne t < q + 1)%Z by (apply lt_IZR; rewrite plus_IZR; lra). lia.
  - assert (rne t < q + 1)%Z by (apply lt_IZR; rewrite plus_IZR; lra). lia.
Qed.
Lemma quantize_numpy_clamp tmin tmax s z v : (tmin <= tmax)%Z -> quantize_numpy tmin tmax s z v = clampZ tmin tmax (rne (v / s + IZR z)).
Proof.
  intro H. unfold quantize_numpy, clampZ. set (q := rne _). cbv zeta.
  destruct (Z.ltb_spec tmax q); match goal with |- context [(?a <? tmin)%Z] => destruct (Z.ltb_spec a tmin) end; lia.
Qed.
(** the distance of integers to a real, ordered by the distance to the nearest one *)
Lemma near_clamp tmin tmax t k q : (tmin <= tmax)%Z -> Rabs (t - IZR k) <= 1 / 2 -> (tmin <= q <= tmax)%Z ->
  Rabs (IZR (clampZ tmin tmax k) - t) <= Rabs (IZR q - t).
Proof.
  intros H Hk Hq. assert (Rabs (t - IZR k) <= 1 / 2) by exact Hk.
  assert (K1 : - (1/2) <= t - IZR k <= 1 / 2) by (unfold Rabs in Hk; destruct (Rcase_abs _) in Hk; lra).
  unfold clampZ.
  destruct (Z.lt_trichotomy q k) as [L|[E|G]].
  - destruct (Z.le_gt_cases k tmax).
    + rewrite Z.min_r, Z.max_r by lia. rewrite (Rabs_minus_sym _ t). assert (IZR q <= IZR k - 1) by (rewrite <- minus_IZR; apply IZR_le; lia).
      rewrite (Rabs_left1 (IZR q - t)) by lra. lra.
    + rewrite Z.min_l by lia. assert (IZR q <= IZR tmax) by (apply IZR_le; lia). assert (IZR tmax <= IZR k - 1) by (rewrite <- minus_IZR; apply IZR_le; lia).
      rewrite !Rabs_left1 by lra. lra.
  - subst q. rewrite Z.min_r, Z.max_r by lia. lra.
  - destruct (Z.le_gt_cases tmin k).
    + rewrite Z.min_r, Z.max_r by lia. rewrite (Rabs_minus_sym _ t). assert (IZR k + 1 <= IZR q) by (rewrite <- plus_IZR; apply IZR_le; lia).
      rewrite (Rabs_right (IZR q - t)) by lra. lra.
    + rewrite Z.max_l, Z.min_r by lia. assert (IZR tmin <= IZR q) by (apply IZR_le; lia). assert (IZR k + 1 <= IZR tmin) by (rewrite <- plus_IZR; apply IZR_le; lia).
      rewrite !Rabs_right by lra. lra.
Qed.
Lemma deq_dist s z q v : 0 < s -> Rabs (deq s z q - v) = s * Rabs (IZR q - (v / s + IZR z)).
Proof.
  intro Hs. replace (deq s z q - v) with (s * (IZR q - (v / s + IZR z))) by (unfold deq; field; lra).
  rewrite Rabs_mult, (Rabs_right s) by lra. reflexivity.
Qed.
(** saturated rounding to a nearest integer gives a nearest value *)
Lemma nearest_of tmin tmax s z k v : 0 < s -> (tmin <= tmax)%Z -> Rabs (v / s + IZR z - IZR k) <= 1 / 2 ->
  nearest_q tmin tmax s z (clampZ tmin tmax k) v.
Proof.
  intros Hs Ht Hk. split; [unfold clampZ; lia|]. intros q' Hq. rewrite !deq_dist by exact Hs.
  apply Rmult_le_compat_l; [lra|]. now apply near_clamp.
Qed.
Lemma nearest_self tmin tmax s z q : (tmin <= q <= tmax)%Z -> nearest_q tmin tmax s z q (deq s z q).
Proof. intro H. split; [exact H|]. intros q' _. replace (deq s z q - deq s z q) with 0 by ring. rewrite Rabs_R0. apply Rabs_pos. Qed.

(** [kl]/[kh] are any nearest integers to the two bounds *)
Lemma two_sided tmin tmax s z q l h kl kh : 0 < s -> (tmin <= q <= tmax)%Z -> l <= h ->
  Rabs (l / s + IZR z - IZR kl) <= 1 / 2 -> Rabs (h / s + IZR z - IZR kh) <= 1 / 2 -> (kl <= kh)%Z ->
  (forall i, IZR i <= l / s + IZR z -> (i <= kl)%Z) -> (forall i, l / s + IZR z <= IZR i -> (kl <= i)%Z) ->
  (forall i, IZR i <= h / s + IZR z -> (i <= kh)%Z) -> (forall i, h / s + IZR z <= IZR i -> (kh <= i)%Z) ->
  nearest_q tmin tmax s z (Z.min (Z.max q (clampZ tmin tmax kl)) (clampZ tmin tmax kh)) (torch_clamp (Some l) (Some h) (deq s z q)).
Proof.
  intros Hs Hq Hlh Hl Hh Hk L1 L2 U1 U2. cbn [torch_clamp].
  assert (Q : deq s z q / s + IZR z = IZR q) by (unfold deq; field; lra).
  assert (Hdiv : forall a b, a <= b -> a / s <= b / s) by (intros a b Hab; apply Rmult_le_compat_r; [left; now apply Rinv_0_lt_compat|exact Hab]).
  destruct (Rle_dec (deq s z q) l) as [Hv|Hv].
  - rewrite Rmax_right, Rmin_left by assumption.
    assert (q <= kl)%Z by (apply L1; pose proof (Hdiv _ _ Hv); lra).
    replace (Z.min _ _) with (clampZ tmin tmax kl) by (unfold clampZ; lia). apply nearest_of; auto. lia.
  - rewrite Rmax_left by lra. assert (kl <= q)%Z by (apply L2; pose proof (Hdiv l (deq s z q) ltac:(lra)); lra).
    destruct (Rle_dec h (deq s z q)) as [Hw|Hw].
    + rewrite Rmin_right by assumption. assert (kh <= q)%Z by (apply U2; pose proof (Hdiv _ _ Hw); lra).
      replace (Z.min _ _) with (clampZ tmin tmax kh) by (unfold clampZ; lia). apply nearest_of; auto. lia.
    + rewrite Rmin_left by lra. assert (q <= kh)%Z by (apply U1; pose proof (Hdiv (deq s z q) h ltac:(lra)); lra).
      replace (Z.min _ _) with q by (unfold clampZ; lia). now apply nearest_self.
Qed.
Lemma rne_mono a b : a <= b -> (rne a <= rne b)%Z.
Proof.
  intro H. destruct (Z.le_gt_cases (rne a) (rne b)) as [|G]; [assumption|]. exfalso.
  pose proof (rne_half a) as Ha. pose proof (rne_half b) as Hb.
  assert (Ha' : - (1/2) <= a - IZR (rne a) <= 1/2) by (unfold Rabs in Ha; destruct (Rcase_abs _) in Ha; lra).
  assert (Hb' : - (1/2) <= b - IZR (rne b) <= 1/2) by (unfold Rabs in Hb; destruct (Rcase_abs _) in Hb; lra).
  assert (IZR (rne b) + 1 <= IZR (rne a)) by (rewrite <- plus_IZR; apply IZR_le; lia).
  assert (a = b) by lra. subst. lia.
Qed.
Lemma rha_half x : Rabs (x - IZR (rha x)) <= 1 / 2.
Proof.
  unfold rha. destruct (Rle_dec 0 x).
  - pose proof (Int_part_bound (x + 1 / 2)). unfold Rabs. destruct (Rcase_abs _); lra.
  - pose proof (Int_part_bound (- x + 1 / 2)). rewrite opp_IZR. unfold Rabs. destruct (Rcase_abs _); lra.
Qed.
Lemma near_ge t k q : Rabs (t - IZR k) <= 1 / 2 -> IZR q <= t -> (q <= k)%Z.
Proof.
  intros H Hq. assert (q - 1 < k)%Z; [|lia]. apply lt_IZR. rewrite minus_IZR. unfold Rabs in H. destruct (Rcase_abs _) in H; lra.
Qed.
Lemma near_le t k q : Rabs (t - IZR k) <= 1 / 2 -> t <= IZR q -> (k <= q)%Z.
Proof.
  intros H Hq. assert (k < q + 1)%Z; [|lia]. apply lt_IZR. rewrite plus_IZR. unfold Rabs in H. destruct (Rcase_abs _) in H; lra.
Qed.
Theorem aten_clamp_q_ok tmin tmax s z lo hi q : 0 < s -> (tmin <= z <= tmax)%Z -> (tmin <= q <= tmax)%Z ->
  (lo <> None \/ hi <> None) -> (forall l h, lo = Some l -> hi = Some h -> l <= h) ->
  exists q', aten_clamp_q tmin tmax s z lo hi q = Some q' /\ nearest_q tmin tmax s z q' (torch_clamp lo hi (deq s z q)).
Proof.
  intros Hs Hz Hq Hn Hlh.
  assert (Hdiv : forall a b, a <= b -> a / s <= b / s) by (intros a b Hab; apply Rmult_le_compat_r; [left; now apply Rinv_0_lt_compat|exact Hab]).
  assert (Q : deq s z q / s + IZR z = IZR q) by (unfold deq; field; lra).
  assert (Hr : forall v, Rabs (v / s + IZR z - IZR (rne (v / s + IZR z))) <= 1 / 2) by (intro; apply rne_half).
  unfold aten_clamp_q. destruct lo as [l|], hi as [h|]; try (destruct Hn; congruence).
  - specialize (Hlh l h eq_refl eq_refl).
    destruct (Reqb_spec l 0) as [-> |]; [destruct (Reqb_spec h 6) as [-> |]|]; cbn [andb]; eexists; (split; [reflexivity|]).
    + unfold relu6_q. assert (H6 : 0 < 6 / s) by (apply Rdiv_lt_0_compat; lra).
      assert (K0 : Rabs (0 / s + IZR z - IZR z) <= 1 / 2) by (replace (0 / s + IZR z - IZR z) with 0 by (field; lra); rewrite Rabs_R0; lra).
      assert (K6 : Rabs (6 / s + IZR z - IZR (z + rha (6 / s))) <= 1 / 2).
      { rewrite plus_IZR. replace (6 / s + IZR z - (IZR z + IZR (rha (6 / s)))) with (6 / s - IZR (rha (6 / s))) by ring. apply rha_half. }
      assert (G : (z <= z + rha (6 / s))%Z). { apply (near_ge _ _ z K6). lra. }
      replace (Z.min (Z.max q z) (Z.min tmax (z + rha (6 / s)))) with (Z.min (Z.max q (clampZ tmin tmax z)) (clampZ tmin tmax (z + rha (6 / s)))) by (unfold clampZ; lia).
      apply two_sided; auto; intros; eauto using near_ge, near_le.
    + rewrite !quantize_numpy_clamp by lia. apply two_sided; auto using rne_ge, rne_le. apply rne_mono. pose proof (Hdiv _ _ Hlh). lra.
    + rewrite !quantize_numpy_clamp by lia. apply two_sided; auto using rne_ge, rne_le. apply rne_mono. pose proof (Hdiv _ _ Hlh). lra.
  - destruct (Reqb_spec l 0) as [-> |]; eexists; (split; [reflexivity|]); cbn [torch_clamp].
    + unfold relu_q. destruct (Rle_dec (deq s z q) 0) as [Hv|Hv].
      * rewrite Rmax_right by assumption. assert (q <= z)%Z. { apply le_IZR. pose proof (Hdiv _ _ Hv). replace (0 / s) with 0 in * by (field; lra). lra. }
        rewrite Z.max_r by lia. replace 0 with (deq s z z) by (unfold deq; ring). apply nearest_self. lia.
      * rewrite Rmax_left by lra. assert (z <= q)%Z. { apply le_IZR. pose proof (Hdiv 0 (deq s z q) ltac:(lra)). replace (0 / s) with 0 in * by (field; lra). lra. }
        rewrite Z.max_l by lia. now apply nearest_self.
    + rewrite quantize_numpy_clamp by lia. destruct (Rle_dec (deq s z q) l) as [Hv|Hv].
      * rewrite Rmax_right by assumption. assert (q <= rne (l / s + IZR z))%Z by (apply rne_ge; pose proof (Hdiv _ _ Hv); lra).
        rewrite Z.max_r by (unfold clampZ; lia). apply nearest_of; auto. lia.
      * rewrite Rmax_left by lra. assert (rne (l / s + IZR z) <= q)%Z by (apply rne_le; pose proof (Hdiv l (deq s z q) ltac:(lra)); lra).
        rewrite Z.max_l by (unfold clampZ; lia). now apply nearest_self.
  - eexists; (split; [reflexivity|]); cbn [torch_clamp].
    rewrite quantize_numpy_clamp by lia. destruct (Rle_dec h (deq s z q)) as [Hv|Hv].
    + rewrite Rmin_right by assumption. assert (rne (h / s + IZR z) <= q)%Z by (apply rne_le; pose proof (Hdiv _ _ Hv); lra).
      rewrite Z.min_r by (unfold clampZ; lia). apply nearest_of; auto. lia.
    + rewrite Rmin_left by lra. assert (q <= rne (h / s + IZR z))%Z by (apply rne_ge; pose proof (Hdiv (deq s z q) h ltac:(lra)); lra).
      rewrite Z.min_l by (unfold clampZ; lia). now apply nearest_self.
Qed.
(** hardtanh(0, 1) of a quantized 5 with scale 1/10: stored 50, expected 10, obtained 1 *)
Theorem hardtanh_quantized_refuted : exists s z lo hi q, 0 < s /\ (0 <= q <= 255)%Z /\ lo <= hi /\
  ~ nearest_q 0 255 s z (aten_hardtanh_q 255 s z lo hi q) (torch_clamp (Some lo) (Some hi) (deq s z q)).
Proof.
  exists (1 / 10), 0%Z, 0, 1, 50%Z. split; [lra|]. split; [lia|]. split; [lra|]. intros [_ H].
  specialize (H 10%Z ltac:(lia)). revert H. unfold aten_hardtanh_q, torch_clamp, deq.
  destruct (Reqb_spec 1 6); [lra|]. rewrite andb_false_r. rewrite (Rtrunc_IZR 0), (Rtrunc_IZR 1).
  change (Z.min (Z.max 50 0) 1) with 1%Z. rewrite Rmax_left by lra. rewrite Rmin_right by lra.
  rewrite (Rabs_left1 (1 / 10 * (1 - 0) - 1)) by lra. replace (1 / 10 * (10 - 0) - 1) with 0 by lra. rewrite Rabs_R0. lra.
Qed.

(** ** A scalar as a quantized tensor *)
Theorem quantize_scalar_ok k v : let '(s, z, q) := quantize_scalar k v in deq s z q = v.
Proof.
  assert (P : forall a, a <> 0 -> rne (a / (a / 127)) = 127%Z).
  { intros a Ha. replace (a / (a / 127)) with (IZR 127) by (field; exact Ha). apply rne_IZR. }
  assert (M : forall a, a <> 0 -> rne (a / (- a / 127)) = (-127)%Z).
  { intros a Ha. replace (a / (- a / 127)) with (IZR (-127)) by (field; exact Ha). apply rne_IZR. }
  assert (Z0 : rne (0 / (1 / 2)) = 0%Z) by (replace (0 / (1 / 2)) with (IZR 0) by field; apply rne_IZR).
  unfold quantize_scalar, scalar_qparams. destruct (Reqb_spec v 0) as [-> |Hv].
  - destruct k; unfold torch_quantize; rewrite Z0; cbn [Z.add]; unfold clampZ, deq;
      match goal with |- context [IZR (Z.min ?a (Z.max ?b ?c))] => let w := eval vm_compute in (Z.min a (Z.max b c)) in change (Z.min a (Z.max b c)) with w end; lra.
  - destruct (Rgtb 0 v); destruct k; unfold torch_quantize; rewrite ?(P v Hv), ?(M v Hv); unfold clampZ, deq;
      match goal with |- context [IZR (Z.min ?a (Z.max ?b ?c))] => let w := eval vm_compute in (Z.min a (Z.max b c)) in change (Z.min a (Z.max b c)) with w end; field.
Qed.

(** ** Activations *)
Theorem aten_softplus_ok threshold x : x <= threshold -> aten_softplus 1 threshold x = Some (torch_softplus threshold x).
Proof.
  intro H. unfold aten_softplus, torch_softplus. destruct (Reqb_spec 1 1); [|congruence].
  destruct (Rlt_dec threshold x); [lra|]. now rewrite Rplus_comm.
Qed.
Lemma ln_1p_le y : 0 < y -> 0 < ln (1 + y) <= y.
Proof.
  intro H. split.
  - rewrite <- ln_1. apply ln_increasing; lra.
  - apply Rnot_lt_le. intro G. apply exp_increasing in G. rewrite exp_ln in G by lra.
    pose proof (exp_ineq1 y ltac:(lra)). lra.
Qed.
Theorem aten_softplus_bound threshold x : threshold < x ->
  exists y, aten_softplus 1 threshold x = Some y /\ 0 < y - torch_softplus threshold x < exp (- threshold).
Proof.
  intro H. unfold aten_softplus, torch_softplus. destruct (Reqb_spec 1 1); [|congruence].
  destruct (Rlt_dec threshold x); [|lra]. eexists. split; [reflexivity|].
  replace (exp x + 1) with (exp x * (1 + exp (- x))) by (rewrite exp_Ropp; field; apply Rgt_not_eq, exp_pos).
  pose proof (exp_pos x). pose proof (exp_pos (- x)). rewrite ln_mult, ln_exp by lra.
  pose proof (ln_1p_le (exp (- x)) ltac:(lra)). assert (exp (- x) < exp (- threshold)) by (apply exp_increasing; lra). lra.
Qed.
Theorem aten_mish_ok x : aten_mish x = torch_mish x.
Proof. unfold aten_mish, torch_mish. now rewrite (Rplus_comm (exp x)). Qed.
Theorem aten_hardsigmoid_ok x : aten_hardsigmoid x = torch_hardsigmoid x.
Proof.
  unfold aten_hardsigmoid, torch_hardsigmoid, relu6. destruct (Rle_dec x (-3)).
  - rewrite Rmax_right by lra. rewrite Rmin_left by lra. lra.
  - rewrite Rmax_left by lra. destruct (Rle_dec 3 x); [rewrite Rmin_right by lra|rewrite Rmin_left by lra]; lra.
Qed.
Theorem aten_gelu_swapped exact approx x :
  aten_gelu exact approx false GNone x = approx x /\ aten_gelu exact approx false GTanh x = exact x.
Proof. split; reflexivity. Qed.

(** ** PReLU *)
Lemma prod_ones r : prod (map (fun _ : nat => 1%nat) r) = 1%nat.
Proof. induction r; [reflexivity|]. cbn [map]. unfold prod in *. cbn [fold_right]. now rewrite IHr. Qed.
Lemma bshape_prelu N C r : bshape (N :: C :: r) (C :: map (fun _ => 1%nat) r) = Some (N :: C :: r).
Proof.
  replace (map (fun _ => 1%nat) r) with (repeat 1%nat (length r)) by (induction r; cbn; congruence).
  pose proof (bshape_channel N C r) as H. unfold bshape in *. cbn [rev] in *.
  rewrite <- (app_assoc (rev (repeat 1%nat (length r)))) in H. cbn [app] in H. rewrite <- app_assoc in *. cbn [app] in *.
  assert (G : forall a b l l', length a = length b -> length b = length b -> bshape_rev (a ++ l) (b ++ l') = match bshape_rev a b, bshape_rev l l' with Some u, Some v => Some (u ++ v) | _, _ => None end).
  { induction a as [|x a IH]; intros [|y b] l l' Hl _; cbn [length] in Hl; try lia.
    - cbn [app bshape_rev]. destruct (bshape_rev l l'); reflexivity.
    - cbn [app bshape_rev]. rewrite IH by lia. destruct (bdim x y); [|reflexivity]. destruct (bshape_rev a b); [|reflexivity].
      destruct (bshape_rev l l'); reflexivity. }
  rewrite G in * by (rewrite ?rev_length, ?repeat_length; reflexivity).
  destruct (bshape_rev (rev r) (rev (repeat 1%nat (length r)))) as [u|]; [|discriminate].
  cbn [bshape_rev] in *. rewrite bdim_same in *. destruct (bdim N 1) as [d|] eqn:E; [|discriminate].
  assert (d = N) as ->. { unfold bdim in E. destruct (Nat.eqb_spec N 1); [injection E as <-; auto|]. cbn in E. injection E as <-; reflexivity. }
  exact H.
Qed.
Lemma bidx_prelu C (r : list nat) n c pos : length pos = length r ->
  bidx (C :: map (fun _ => 1%nat) r) (n :: c :: pos) = (if (C =? 1)%nat then 0%nat else c) :: map (fun _ => 0%nat) r.
Proof.
  intro H. rewrite bidx_short by (cbn [length]; rewrite map_length; lia). rewrite bidx_cons by (rewrite map_length; lia).
  f_equal. unfold bidx.
  assert (G : forall l : list nat, forall p : list nat, length p = length l -> bidx_rev (map (fun _ => 1%nat) l) p = map (fun _ => 0%nat) l).
  { induction l as [|a l IH]; intros [|b p] Hp; cbn [length] in Hp; try lia; [reflexivity|]. cbn [map bidx_rev]. cbn. f_equal. apply IH. lia. }
  rewrite <- map_rev, G by (rewrite !rev_length; lia). rewrite <- map_rev, rev_involutive. reflexivity.
Qed.
Lemma ravel_one_first C r : forall c, ravel (C :: map (fun _ : nat => 1%nat) r) (c :: map (fun _ : nat => 0%nat) r) = c.
Proof.
  intro c. cbn [ravel]. rewrite prod_ones. replace (ravel _ _) with 0%nat; [lia|].
  induction r as [|a r IH]; [reflexivity|]. cbn [map ravel]. rewrite prod_ones, <- IH. reflexivity.
Qed.
Lemma unravel1 C c : (c < C)%nat -> unravel [C] c = [c].
Proof. intro H. cbn [unravel]. change (prod []) with 1%nat. now rewrite Nat.div_1_r. Qed.

Theorem aten_prelu_ok const N C r alpha x w :
  tshape x = N :: C :: r -> tshape alpha = [w] -> (0 < C)%nat -> (w = C \/ w = 1%nat /\ (const = true \/ r = [])) ->
  exists y, aten_prelu const None alpha x = Some y /\ teq y (torch_prelu alpha x).
Proof.
  intros Hx Ha Hc Hw. unfold aten_prelu, prelu_shape. rewrite Hx. cbn [obind nth]. rewrite Ha.
  assert (Pw : prod [w] = w) by (unfold prod; cbn; lia). rewrite Pw.
  assert (K : forall al : tensor R, tshape al = C :: map (fun _ => 1%nat) r ->
     (forall c, (c < C)%nat -> tget al (c :: map (fun _ => 0%nat) r) = tget alpha [if (w =? 1)%nat then 0%nat else c]) ->
     exists y, binop prelu_kernel x al = Some y /\ teq y (torch_prelu alpha x)).
  { intros al Sa Ga. unfold binop. rewrite Hx, Sa, bshape_prelu. eexists. split; [reflexivity|]. split; [cbn; now rewrite Hx|].
    cbn [tshape tget torch_prelu]. intros idx V. rewrite <- Hx in V at 1. pose proof V as V'. rewrite Hx in V'.
    inversion V' as [|n ? l1 ? Hn V1]; subst. inversion V1 as [|c ? pos ? Hcc V2]; subst.
    rewrite <- Hx, bidx_self by exact V. rewrite Ha, Pw. cbn [nth].
    rewrite bidx_prelu by (now apply valid_length in V2). rewrite Ga by (destruct (Nat.eqb_spec C 1); lia).
    unfold prelu_kernel. replace (if (w =? 1)%nat then 0%nat else if (C =? 1)%nat then 0%nat else c) with (if (w =? 1)%nat then 0%nat else c); [reflexivity|].
    destruct (Nat.eqb_spec w 1); [reflexivity|]. destruct (Nat.eqb_spec C 1); [lia|reflexivity]. }
  destruct (Nat.eqb_spec w C) as [E|E].
  - subst w. apply K; [reflexivity|]. intros c Hcc. cbn [reshape tget]. rewrite ravel_one_first, Ha, unravel1 by exact Hcc.
    destruct (Nat.eqb_spec C 1); [replace c with 0%nat by lia; reflexivity|reflexivity].
  - destruct Hw as [Hw|[-> Hw]]; [lia|].
    assert (Z1 : forall l, zipmul (map (fun _ : nat => 1%nat) l ++ [1%nat]) (C :: map (fun _ => 1%nat) l) = C :: map (fun _ => 1%nat) l).
    { destruct l as [|a l]; [cbn; f_equal; lia|]. cbn [map app zipmul]. f_equal; [lia|]. induction l; [reflexivity|]. cbn [map app zipmul]. f_equal. exact IHl. }
    assert (Z2 : forall l c, modidx (map (fun _ : nat => 1%nat) l ++ [1%nat]) (c :: map (fun _ => 0%nat) l) = 0%nat :: map (fun _ => 0%nat) l).
    { intros l c. destruct l as [|a l]; [reflexivity|]. cbn [map app modidx]. f_equal. induction l; [reflexivity|]. cbn [map app modidx]. f_equal. exact IHl. }
    destruct const.
    + cbn [tl]. rewrite map_map. apply K.
      * cbn [tile reshape tshape]. apply Z1.
      * intros c Hcc. cbn [tile reshape tshape tget]. rewrite Z2, Ha. f_equal.
        replace (ravel _ _) with 0%nat; [reflexivity|].
        clear. symmetry. induction r as [|a r IH]; [reflexivity|]. cbn [map app ravel] in *. rewrite IH. reflexivity.
    + destruct Hw as [Hw| ->]; [discriminate|]. cbn [map length Nat.eqb]. apply K.
      * cbn [tile tshape]. rewrite Ha. cbn. f_equal. lia.
      * intros c Hcc. cbn [tile tget]. rewrite Ha. reflexivity.
Qed.
(** the tile stored for an operand of rank 4 is used again for one of rank 2 *)
Theorem prelu_store_refuted : exists alpha x4 x2 y, tshape alpha = [1%nat] /\ tshape x4 = [1; 2; 1; 1]%nat /\ tshape x2 = [1; 2]%nat /\
  (exists y4, aten_prelu true None alpha x4 = Some y4 /\ prelu_shape x4 = Some [2; 1; 1]%nat) /\
  aten_prelu true (Some [2; 1; 1]%nat) alpha x2 = Some y /\ tshape y = [2; 1; 2]%nat /\ tshape (torch_prelu alpha x2) = [1; 2]%nat.
Proof.
  exists (mkT [1%nat] (fun _ => 1 / 4)), (mkT [1; 2; 1; 1]%nat (fun _ => 0)), (mkT [1; 2]%nat (fun _ => 0)). eexists.
  repeat (split; [reflexivity|]). split; [eexists; split; reflexivity|]. split; [reflexivity|]. split; reflexivity.
Qed.
Theorem prelu_runtime_refuted : exists alpha x, tshape alpha = [1%nat] /\ tshape x = [1; 2; 1; 1]%nat /\ aten_prelu false None alpha x = None.
Proof. exists (mkT [1%nat] (fun _ => 1 / 4)), (mkT [1; 2; 1; 1]%nat (fun _ => 0)). repeat split. Qed.

(** ** Filling under a mask in IEEE arithmetic *)
Notation frnd := (round radix2 (SpecFloat.fexp 24 128) (round_mode mode_NE)).
Lemma frnd_B2R (a : f32) : frnd (B2R a) = B2R a.
Proof. apply round_generic; [apply valid_rnd_round_mode|apply generic_format_B2R]. Qed.
Lemma fbound (a : f32) : Rlt_bool (Rabs (B2R a)) (bpow radix2 128) = true.
Proof. apply Rlt_bool_true. apply abs_B2R_lt_emax. Qed.
Lemma frnd_0 : frnd 0 = 0.
Proof. apply round_0. apply valid_rnd_round_mode. Qed.
Lemma fmul_one (a : f32) : is_finite a = true -> is_finite (fmul a fone) = true /\ B2R (fmul a fone) = B2R a.
Proof.
  intro F. pose proof (Bmult_correct 24 128 _ _ mode_NE a fone) as H. unfold fone in *. rewrite Bone_correct, Rmult_1_r, frnd_B2R, fbound in H.
  destruct H as (H1 & H2 & _). unfold fmul. rewrite H1, H2, F, is_finite_Bone. auto.
Qed.
Lemma fmul_zero (a z : f32) : is_finite a = true -> is_finite z = true -> B2R z = 0 -> is_finite (fmul a z) = true /\ B2R (fmul a z) = 0.
Proof.
  intros F Fz Hz. pose proof (Bmult_correct 24 128 _ _ mode_NE a z) as H. rewrite Hz, Rmult_0_r, frnd_0, Rabs_R0 in H.
  rewrite Rlt_bool_true in H by apply bpow_gt_0. destruct H as (H1 & H2 & _). unfold fmul. rewrite H1, H2, F, Fz. auto.
Qed.
Lemma fsub_one (b : bool) : is_finite (fsub fone (mask_f b)) = true /\ B2R (fsub fone (mask_f b)) = if b then 0 else 1.
Proof.
  assert (F : is_finite (mask_f b) = true) by (destruct b; [apply is_finite_Bone|reflexivity]).
  pose proof (Bminus_correct 24 128 _ _ mode_NE fone (mask_f b) (is_finite_Bone _ _ _ _) F) as H.
  assert (E : B2R fone - B2R (mask_f b) = if b then 0 else 1).
  { unfold fone. rewrite Bone_correct. destruct b; cbn [mask_f]; [unfold fone; rewrite Bone_correct; ring|cbn; ring]. }
  rewrite E in H. assert (Er : frnd (if b then 0 else 1) = if b then 0 else 1).
  { destruct b; [apply frnd_0|]. pose proof (frnd_B2R fone) as G. unfold fone in G. now rewrite Bone_correct in G. }
  rewrite Er in H. rewrite Rlt_bool_true in H.
  - destruct H as (H1 & H2 & _). split; assumption.
  - destruct b; [rewrite Rabs_R0; apply bpow_gt_0|]. rewrite Rabs_R1. apply (bpow_lt radix2 0 128). lia.
Qed.
Lemma fadd_zero_l (z a : f32) : is_finite z = true -> B2R z = 0 -> is_finite a = true -> is_finite (fadd z a) = true /\ B2R (fadd z a) = B2R a.
Proof.
  intros Fz Hz F. pose proof (Bplus_correct 24 128 _ _ mode_NE z a Fz F) as H. rewrite Hz, Rplus_0_l, frnd_B2R, fbound in H.
  destruct H as (H1 & H2 & _). split; assumption.
Qed.
Lemma fadd_zero_r (z a : f32) : is_finite z = true -> B2R z = 0 -> is_finite a = true -> is_finite (fadd a z) = true /\ B2R (fadd a z) = B2R a.
Proof.
  intros Fz Hz F. pose proof (Bplus_correct 24 128 _ _ mode_NE a z F Fz) as H. rewrite Hz, Rplus_0_r, frnd_B2R, fbound in H.
  destruct H as (H1 & H2 & _). split; assumption.
Qed.
Lemma fmul_one' (a o : f32) : is_finite a = true -> is_finite o = true -> B2R o = 1 -> is_finite (fmul a o) = true /\ B2R (fmul a o) = B2R a.
Proof.
  intros F Fo Ho. pose proof (Bmult_correct 24 128 _ _ mode_NE a o) as H. rewrite Ho, Rmult_1_r, frnd_B2R, fbound in H.
  destruct H as (H1 & H2 & _). unfold fmul. rewrite H1, H2, F, Fo. auto.
Qed.
Lemma select_ok (b : bool) (x v : f32) : is_finite x = true -> is_finite v = true ->
  fsame (fadd (fmul x (fsub fone (mask_f b))) (fmul v (mask_f b))) (if b then v else x).
Proof.
  intros Fx Fv. destruct (fsub_one b) as [Fs Es]. destruct b; cbn [mask_f] in *.
  - destruct (fmul_zero x _ Fx Fs Es) as [A1 A2]. destruct (fmul_one v Fv) as [B1 B2].
    destruct (fadd_zero_l _ _ A1 A2 B1) as [C1 C2]. split; [exact C1|]. split; [exact Fv|]. now rewrite C2.
  - destruct (fmul_one' x _ Fx Fs Es) as [A1 A2]. destruct (fmul_zero v fzero Fv eq_refl eq_refl) as [B1 B2].
    destruct (fadd_zero_r _ _ B1 B2 A1) as [C1 C2]. split; [exact C1|]. split; [exact Fx|]. now rewrite C2.
Qed.

Lemma bidx_rev_trans a : forall b idx, le_rev a b -> (length b <= length idx)%nat -> bidx_rev a (bidx_rev b idx) = bidx_rev a idx.
Proof.
  induction a as [|x a IH]; intros b idx H L; [reflexivity|]. inversion H as [|? y ? b' Hxy Hab]; subst.
  destruct idx as [|i idx]; [cbn in L; lia|]. cbn [bidx_rev]. rewrite IH by (auto; cbn in L; lia). f_equal.
  destruct Hxy as [-> | ->]; [reflexivity|]. destruct (Nat.eqb_spec y 1); reflexivity.
Qed.
Lemma bidx_trans a b idx : le_shape a b -> (length b <= length idx)%nat -> bidx a (bidx b idx) = bidx a idx.
Proof. intros H L. unfold bidx. rewrite rev_involutive, bidx_rev_trans; auto. rewrite !rev_length. exact L. Qed.
Lemma le_rev_length a b : le_rev a b -> (length a <= length b)%nat.
Proof. induction 1; cbn; lia. Qed.
Lemma le_shape_length a b : le_shape a b -> (length a <= length b)%nat.
Proof. intro H. apply le_rev_length in H. now rewrite !rev_length in H. Qed.
Lemma le_shape_trans a b c : le_shape a b -> le_shape b c -> le_shape a c.
Proof. apply le_rev_trans. Qed.

(** all operands finite: a tensor of the same type *)
Lemma masked_fill_gen x m v y : aten_masked_fill x m v = Some y ->
  all_finite x -> all_finite (fill_tensor v) ->
  forall idx, valid (tshape y) idx -> fsame (tget y idx) (tget (torch_where m (fill_tensor v) x (tshape y)) idx).
Proof.
  intros H Fx Fv idx V. unfold aten_masked_fill in H. set (fv := fill_tensor v) in *.
  unfold binop in H at 1. cbn [tmap tshape] in H. destruct (bshape (tshape fv) (tshape m)) as [s2|] eqn:E2; [|discriminate]. cbn [obind] in H.
  unfold binop in H at 1. cbn [tmap tshape] in H. destruct (bshape [1%nat] (tshape m)) as [s3|] eqn:E3; [|discriminate]. cbn [obind] in H.
  unfold binop in H at 1. cbn [tshape] in H. destruct (bshape (tshape x) s3) as [s1|] eqn:E1; [|discriminate]. cbn [obind] in H.
  unfold binop in H. cbn [tshape] in H. destruct (bshape s1 s2) as [s|] eqn:E; [|discriminate]. injection H as <-.
  cbn [tshape tget tmap torch_where] in *.
  destruct (bshape_le _ _ _ E) as [L1 L2]. destruct (bshape_le _ _ _ E1) as [Lx L3]. destruct (bshape_le _ _ _ E2) as [Lv Lm2]. destruct (bshape_le _ _ _ E3) as [_ Lm3].
  pose proof (valid_length _ _ V) as Li. pose proof (le_shape_length _ _ L1). pose proof (le_shape_length _ _ L2).
  pose proof (le_shape_trans _ _ _ L3 L1) as L31. pose proof (le_shape_length _ _ L31).
  assert (R1 : bidx (tshape x) (bidx s1 idx) = bidx (tshape x) idx) by (apply bidx_trans; auto; lia).
  assert (R2 : bidx (tshape fv) (bidx s2 idx) = bidx (tshape fv) idx) by (apply bidx_trans; auto; lia).
  assert (R3 : bidx (tshape m) (bidx s2 idx) = bidx (tshape m) idx) by (apply bidx_trans; auto; lia).
  assert (R4 : bidx (tshape m) (bidx s3 (bidx s1 idx)) = bidx (tshape m) idx).
  { rewrite (bidx_trans s3 s1) by (auto; lia). apply bidx_trans; auto; lia. }
  rewrite R1, R2, R3, R4. apply select_ok.
  - apply Fx. apply le_shape_valid with s; auto. eapply le_shape_trans; eauto.
  - apply Fv. apply le_shape_valid with s; auto. eapply le_shape_trans; eauto.
Qed.
Lemma fmax_finite : is_finite fmax = true.
Proof. reflexivity. Qed.
Lemma clip_finite c : is_nan c = false -> is_finite (clip_inf c) = true.
Proof. destruct c as [|[|]| |]; try reflexivity. discriminate. Qed.
Lemma clip_id c : is_finite c = true -> clip_inf c = c.
Proof. destruct c; try reflexivity. discriminate. Qed.

Lemma fmax_largest (f : f32) : is_finite f = true -> Rabs (B2R f) <= B2R fmax.
Proof.
  intros _. pose proof (abs_B2R_le_emax_minus_prec 24 128 eq_refl f) as H. apply Rle_trans with (1 := H).
  unfold fmax, Bmax_float, SF2B, B2R, F2R. cbn. lra.
Qed.
Lemma clip_stands c : is_nan c = false -> stands_for (clip_inf c) c.
Proof.
  intros Hn. split; [apply clip_finite; exact Hn|]. split; [apply clip_id|]. split; intros -> f Hf; pose proof (fmax_largest f Hf) as H.
  - apply Rle_trans with (2 := H). apply Rle_abs.
  - unfold finf. cbn [clip_inf]. rewrite B2R_Bopp. pose proof (Rle_abs (- B2R f)) as G. rewrite Rabs_Ropp in G. lra.
Qed.
Theorem masked_fill_scalar x m c y : is_nan c = false -> all_finite x -> aten_masked_fill x m (FScalar c) = Some y ->
  exists v, stands_for v c /\ forall idx, valid (tshape y) idx ->
  fsame (tget y idx) (tget (torch_where m (mkT [1%nat] (fun _ => v)) x (tshape y)) idx).
Proof.
  intros Hc Hx H. exists (clip_inf c). split; [apply clip_stands; exact Hc|].
  apply (masked_fill_gen x m (FScalar c) y H Hx). intros idx _. now apply clip_finite.
Qed.
Theorem masked_fill_tensor x m t y : all_finite t -> all_finite x -> aten_masked_fill x m (FSame t) = Some y ->
  forall idx, valid (tshape y) idx -> fsame (tget y idx) (tget (torch_where m t x (tshape y)) idx).
Proof. intros Ht Hx H. exact (masked_fill_gen x m (FSame t) y H Hx Ht). Qed.
Theorem masked_fill_const x m t y : all_finite t -> all_finite x -> aten_masked_fill x m (FCastConst t) = Some y ->
  forall idx, valid (tshape y) idx -> fsame (tget y idx) (tget (torch_where m t x (tshape y)) idx).
Proof.
  intros Ht Hx H idx V. pose proof (masked_fill_gen x m (FCastConst t) y H Hx) as G.
  assert (Hf : all_finite (fill_tensor (FCastConst t))).
  { intros i Vi. cbn [fill_tensor tmap tget tshape] in *. rewrite clip_id by auto. auto. }
  specialize (G Hf idx V). cbn [torch_where tget fill_tensor tmap tshape] in *.
  destruct (tget m (bidx (tshape m) idx)); [|exact G].
  destruct G as (G1 & G2 & G3). assert (is_finite (tget t (bidx (tshape t) idx)) = true) as F.
  { revert G2. destruct (tget t (bidx (tshape t) idx)) as [|b| |] eqn:E; intros; try reflexivity; try discriminate.
    exfalso. clear G1 G2 G3. revert E. unfold aten_masked_fill in H. cbn [fill_tensor] in H.
    unfold binop in H at 1. cbn [tmap tshape] in H. destruct (bshape (tshape t) (tshape m)) as [s2|] eqn:E2; [|discriminate]. cbn [obind] in H.
    unfold binop in H at 1. cbn [tmap tshape] in H. destruct (bshape [1%nat] (tshape m)) as [s3|] eqn:E3; [|discriminate]. cbn [obind] in H.
    unfold binop in H at 1. cbn [tshape] in H. destruct (bshape (tshape x) s3) as [s1|] eqn:E1; [|discriminate]. cbn [obind] in H.
    unfold binop in H. cbn [tshape] in H. destruct (bshape s1 s2) as [s|] eqn:E0; [|discriminate]. injection H as <-. cbn [tshape] in V.
    destruct (bshape_le _ _ _ E0) as [_ L2]. destruct (bshape_le _ _ _ E2) as [Lv _].
    pose proof (Ht _ (le_shape_valid _ _ _ (le_shape_trans _ _ _ Lv L2) V)) as F. intro E. rewrite E in F. discriminate. }
  rewrite clip_id in G2, G3 by exact F. now split.
Qed.
(** value and mask broadcast to the operand *)
Theorem masked_fill_shape x m v s2 s : tshape m <> [] ->
  bshape (tshape (fill_tensor v)) (tshape m) = Some s2 -> bshape (tshape x) (tshape m) = Some s ->
  bshape s s2 = Some s -> exists y, aten_masked_fill x m v = Some y /\ tshape y = s.
Proof.
  intros Hm E2 E1 L. unfold aten_masked_fill. unfold binop at 1. cbn [tmap tshape]. rewrite E2. cbn [obind].
  unfold binop at 1. cbn [tmap tshape]. rewrite bshape_comm, bshape_one by exact Hm. cbn [obind].
  unfold binop at 1. cbn [tshape]. rewrite E1. cbn [obind]. unfold binop. cbn [tshape]. rewrite L.
  eexists. split; reflexivity.
Qed.
Lemma select_inf_x : fadd (fmul (finf false) (fsub fone (mask_f true))) (fmul fone (mask_f true)) = B754_nan.
Proof. vm_compute. reflexivity. Qed.
Lemma select_inf_v : fadd (fmul fone (fsub fone (mask_f false))) (fmul (finf true) (mask_f false)) = B754_nan.
Proof. vm_compute. reflexivity. Qed.
Theorem masked_fill_infinite_operand_refuted : exists x m c y, tshape x = [1%nat] /\ is_finite c = true /\
  aten_masked_fill x m (FScalar c) = Some y /\ tget (torch_where m (mkT [1%nat] (fun _ => c)) x [1%nat]) [0%nat] = c /\
  tget y [0%nat] = B754_nan.
Proof.
  exists (mkT [1%nat] (fun _ => finf false)), (mkT [1%nat] (fun _ => true)), fone. eexists.
  split; [reflexivity|]. split; [reflexivity|]. split; [reflexivity|]. split; [reflexivity|]. exact select_inf_x.
Qed.
Theorem masked_fill_infinite_value_refuted : exists x m t y, all_finite x /\ tshape x = [1%nat] /\
  aten_masked_fill x m (FSame t) = Some y /\ tget (torch_where m t x [1%nat]) [0%nat] = fone /\ tget y [0%nat] = B754_nan.
Proof.
  exists (mkT [1%nat] (fun _ => fone)), (mkT [1%nat] (fun _ => false)), (mkT [1%nat] (fun _ => finf true)). eexists.
  split; [intros idx _; reflexivity|]. split; [reflexivity|]. split; [reflexivity|]. split; [reflexivity|]. exact select_inf_v.
Qed.

Theorem aten_gelu_wrong exact approx x : exact x <> approx x ->
  aten_gelu exact approx false GNone x <> exact x /\ aten_gelu exact approx false GTanh x <> approx x.
Proof. intros H. cbn. split; congruence. Qed.
