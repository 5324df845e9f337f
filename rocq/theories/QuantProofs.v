(** Proofs about storing, retyping and hybrid quantization (C21-C24). *)
From Coq Require Import List Arith ZArith Bool Reals Lia Lra.
From Verif Require Import Tensor ConvSpec QuantSpec FuseModel QuantModel.
Import ListNotations.
Local Open Scope R_scope.

Definition src_ty (s : src8) : ity := match s with QUInt8 => U8 | QInt8 => S8 end.
(** every stored integer is in the range of its type *)
Definition all_in (d : ity) (t : tensor Z) : Prop := forall idx, valid (tshape t) idx -> in_ity d (tget t idx).

Lemma wrap_s8_shift v : in_ity U8 v -> wrap S8 (v - 128) = (v - 128)%Z.
Proof. intro H. apply wrap_id. unfold in_ity in *. cbn in *. lia. Qed.
Lemma wrap_u8_shift v : in_ity S8 v -> wrap U8 (wrap U8 v + 128) = (v + 128)%Z.
Proof.
  unfold in_ity, wrap; cbn [ity_lo ity_hi]. intro H.
  replace (255 - 0 + 1)%Z with 256%Z by reflexivity.
  rewrite !Z.sub_0_r, !Z.add_0_r. rewrite Zplus_mod_idemp_l. apply Z.mod_small. lia.
Qed.
Lemma wrap_u8_add v : in_ity S8 v -> wrap U8 (v + 128) = (v + 128)%Z.
Proof. intro H. apply wrap_id. unfold in_ity in *. cbn in *. lia. Qed.

Ltac inv H := inversion H; subst; clear H.

(** C21 *)
Lemma store_value src asym qt p t d p' t' :
  all_in (src_ty src) t -> store src asym qt p t = Some (d, p', t') -> qt <> S16 ->
  (src = QInt8 \/ asym = true \/ qt = U8 \/ exists s, p = TPerTensor s 128) ->
  teq (qreal p' t') (treal p t) /\ all_in d t' /\ d = qt.
Proof.
  intros Hin Hs Hq Hc. destruct src; cbn [store] in Hs.
  - destruct p as [s z|]; [|discriminate]. destruct qt; cbn [ity_eqb] in Hs; [|  |congruence].
    + inv Hs. split; [split; reflexivity|split; [exact Hin|reflexivity]].
    + inv Hs. split; [split; [reflexivity|]|split; [|reflexivity]].
      * cbn. intros idx Hv. rewrite wrap_s8_shift by (apply Hin; exact Hv). f_equal. f_equal.
        destruct asym; [lia|]. destruct Hc as [?|[?|[?|[s' Hs']]]]; try congruence. inv Hs'. lia.
      * intros idx Hv. apply wrap_in.
  - destruct qt; cbn [ity_eqb] in Hs.
    + destruct p as [s z|]; [|discriminate]. destruct (asym && negb (z =? 0)%Z) eqn:E; [discriminate|].
      inv Hs. split; [split; [reflexivity|]|split; [|reflexivity]].
      * cbn [tshape qreal treal tget tmap qscale qzero]. intros idx Hv.
        rewrite wrap_u8_shift by (apply Hin; exact Hv). f_equal. f_equal.
        destruct asym; [|lia]. cbn in E. apply negb_false_iff, Z.eqb_eq in E. lia.
      * intros idx Hv. apply wrap_in.
    + destruct p as [s z|s z ax].
      * inv Hs. split; [split; reflexivity|split; [exact Hin|reflexivity]].
      * destruct (forallb _ z) eqn:E; [|discriminate]. inv Hs. split; [split; [reflexivity|]|split; [exact Hin|reflexivity]].
        intros idx Hv. cbn. f_equal.
    + congruence.
Qed.

(** when it is defined *)
Lemma store_defined src asym qt p t :
  store src asym qt p t = None <->
  (exists s z ax, p = TPerChannel s z ax /\ (src = QUInt8 \/ qt = U8 \/ exists v, In v z /\ v <> 0%Z)) \/
  (exists s z, p = TPerTensor s z /\ src = QInt8 /\ qt = U8 /\ asym = true /\ z <> 0%Z).
Proof.
  split.
  - intro H. destruct src; cbn [store] in H.
    + destruct p as [s z|s z ax]; [|left; eauto 8].
      destruct (ity_eqb qt U8); [discriminate|]. destruct (ity_eqb qt S16); discriminate.
    + destruct (ity_eqb qt U8) eqn:E.
      * assert (qt = U8) by (destruct qt; try discriminate; reflexivity). subst qt.
        destruct p as [s z|s z ax]; [|left; eauto 8]. right.
        destruct asym; cbn in H; [|discriminate]. destruct (z =? 0)%Z eqn:E2; cbn in H; [discriminate|].
        apply Z.eqb_neq in E2. eauto 8.
      * destruct p as [s z|s z ax]; [discriminate|]. destruct (forallb _ z) eqn:E2; [discriminate|].
        left. exists s, z, ax. split; auto. right. right.
        clear H. induction z as [|v z IH]; [discriminate|]. cbn in E2. destruct (v =? 0)%Z eqn:E3.
        -- destruct (IH E2) as (u & Hu & Hn). exists u. split; [right; auto|auto].
        -- exists v. split; [left; auto|]. now apply Z.eqb_neq.
  - intros [(s & z & ax & -> & H)|(s & z & -> & -> & -> & -> & Hz)].
    + destruct src; cbn [store]; auto. destruct H as [H|[->|(v & Hv & Hn)]]; [discriminate|reflexivity|].
      destruct (ity_eqb qt U8); auto. destruct (forallb (fun v => (v =? 0)%Z) z) eqn:E; auto.
      rewrite forallb_forall in E. specialize (E v Hv). apply Z.eqb_eq in E. congruence.
    + cbn. destruct (z =? 0)%Z eqn:E; auto. apply Z.eqb_eq in E. congruence.
Qed.

Lemma store_symmetric_refuted :
  exists src asym p t d p' t',
    all_in (src_ty src) t /\ store src asym S8 p t = Some (d, p', t') /\ ~ teq (qreal p' t') (treal p t).
Proof.
  exists QUInt8, false, (TPerTensor 1 0), (mkT [1%nat] (fun _ => 0%Z)), S8, (PerTensor 1 0),
    (mkT [1%nat] (fun _ => (-128)%Z)).
  split; [|split].
  - intros idx _. cbn. unfold in_ity; cbn. lia.
  - reflexivity.
  - intros [_ H]. specialize (H [0%nat]). cbn in H.
    assert (Hv : valid [1%nat] [0%nat]) by (constructor; [lia|constructor]). specialize (H Hv). lra.
Qed.

(** C22 *)
Lemma s16_elem v : in_ity S8 v -> wrap S16 (rne (IZR v / 256 * 65536)) = (v * 256)%Z.
Proof.
  intro H. replace (IZR v / 256 * 65536) with (IZR (v * 256)) by (rewrite mult_IZR; field).
  rewrite rne_IZR. apply wrap_id. unfold in_ity in *. cbn in *. lia.
Qed.

(** exact value of the 16-bit form of an unsigned tensor *)
Lemma store_s16_value asym s z t d p' t' :
  all_in U8 t -> store QUInt8 asym S16 (TPerTensor s z) t = Some (d, p', t') ->
  d = S16 /\ all_in S16 t' /\ tshape t' = tshape t /\
  forall idx, valid (tshape t) idx ->
    tget (qreal p' t') idx =
    tget (treal (TPerTensor s z) t) idx +
    (if asym then s * IZR (z - 128) * (255 / 256) else s * IZR (z - 128)).
Proof.
  intros Hin Hs. cbn [store ity_eqb] in Hs. inv Hs. split; [reflexivity|split; [|split; [reflexivity|]]].
  - intros idx _. apply wrap_in.
  - intros idx Hv. cbn [tget tshape qreal treal tmap qscale qzero].
    rewrite wrap_s8_shift by (apply Hin; exact Hv).
    rewrite s16_elem.
    2:{ specialize (Hin idx Hv). unfold in_ity in *. cbn in *. lia. }
    destruct asym; rewrite !minus_IZR, !mult_IZR, !minus_IZR; field.
Qed.

Lemma store_s16_iff asym s z t d p' t' :
  all_in U8 t -> s <> 0 -> (exists idx, valid (tshape t) idx) ->
  store QUInt8 asym S16 (TPerTensor s z) t = Some (d, p', t') ->
  teq (qreal p' t') (treal (TPerTensor s z) t) <-> z = 128%Z.
Proof.
  intros Hin Hs0 [i0 Hi0] Hs. destruct (store_s16_value _ _ _ _ _ _ _ Hin Hs) as (-> & _ & Hsh & Hv).
  split.
  - intros [_ H]. specialize (H i0). cbn [tshape qreal] in H. rewrite Hsh in H. specialize (H Hi0).
    rewrite Hv in H by exact Hi0.
    assert (E : IZR (z - 128) = 0).
    { destruct asym; apply Rmult_eq_reg_l with s; try exact Hs0; lra. }
    apply eq_IZR in E. lia.
  - intros ->. split; [exact Hsh|]. cbn [tshape qreal]. rewrite Hsh. intros idx Hi. rewrite Hv by exact Hi.
    replace (128 - 128)%Z with 0%Z by lia. destruct asym; ring.
Qed.

(** signed tensors are not widened: value kept *)
Lemma store_s16_signed asym p t d p' t' :
  all_in S8 t -> store QInt8 asym S16 p t = Some (d, p', t') ->
  d = S8 /\ teq (qreal p' t') (treal p t) /\ t' = t.
Proof.
  intros Hin Hs. cbn [store ity_eqb] in Hs. destruct p as [s z|s z ax].
  - inv Hs. repeat split.
  - destruct (forallb _ z); [|discriminate]. inv Hs. repeat split.
Qed.

Lemma store_s16_refuted :
  exists p t d p' t',
    all_in U8 t /\ store QUInt8 false S16 p t = Some (d, p', t') /\ ~ teq (qreal p' t') (treal p t).
Proof.
  exists (TPerTensor 1 0), (mkT [1%nat] (fun _ => 0%Z)). cbn [store ity_eqb]. eexists _, _, _.
  split; [intros idx _; unfold in_ity; cbn; lia|]. split; [reflexivity|].
  intro H. eapply (store_s16_iff false) in H.
  - discriminate.
  - intros idx _. unfold in_ity. cbn. lia.
  - lra.
  - exists [0%nat]. constructor; [cbn; lia|constructor].
  - reflexivity.
Qed.

(* ------------------------------------------------------------------ *)
(** C24 *)

(** the real tensor of a boundary tensor *)
Definition breal (b : btensor) : option (tensor R) := option_map (fun p => qreal p (bt_val b)) (bt_par b).
Definition bt_ok (b : btensor) : Prop := forall d, bt_ty b = Some d -> all_in d (bt_val b).

(** The QUANTIZE operator between [b1] and [b2] recovers exactly the integers of [b2]. *)
Definition quantize_recovers (b1 b2 : btensor) : Prop :=
  exists d s1 z1 s2 z2, bt_ty b2 = Some d /\ bt_par b1 = Some (PerTensor s1 z1) /\ bt_par b2 = Some (PerTensor s2 z2) /\
    (0 < s1 -> forall idx, valid (tshape (bt_val b2)) idx ->
       requantize d s1 z1 s2 z2 (tget (bt_val b1) idx) = tget (bt_val b2) idx).

Lemma requantize_shift d s z1 z2 q k :
  0 < s -> (z2 = z1 + k)%Z -> in_ity d (q + k) -> requantize d s z1 s z2 q = (q + k)%Z.
Proof.
  intros Hs -> Hin. unfold requantize. replace (s * IZR (q - z1) / s) with (IZR (q - z1)) by (field; lra).
  rewrite rha_IZR. unfold clampZ, in_ity in *. lia.
Qed.

Lemma retype_ok target b b' : bt_ok b -> retype target b = Some b' ->
  bt_ty b' = Some target /\ bt_ok b' /\
  (exists r r', breal b = Some r /\ breal b' = Some r' /\ teq r' r) /\
  quantize_recovers b' b /\ quantize_recovers b b'.
Proof.
  intros Hok H. unfold retype in H. destruct b as [ty par v]; cbn [bt_ty bt_par bt_val] in H.
  destruct ty as [[]|]; [| | |]; destruct target; try discriminate; destruct par as [[s z|]|]; try discriminate; inv H;
    specialize (Hok _ eq_refl); cbn [bt_val] in Hok.
  - (* U8 -> S8 *)
    split; [reflexivity|]. split; [intros d Hd idx _; inv Hd; apply wrap_in|]. split; [|split].
    + eexists _, _. split; [reflexivity|]. split; [reflexivity|]. split; [reflexivity|].
      intros idx Hv. cbn. rewrite wrap_s8_shift by (apply Hok; exact Hv). f_equal. f_equal. lia.
    + exists U8, s, (z - 128)%Z, s, z. repeat (split; [reflexivity|]). intros Hs idx Hv. cbn [bt_val tget tmap].
      rewrite wrap_s8_shift by (apply Hok; exact Hv).
      specialize (Hok idx Hv).
      rewrite (requantize_shift U8 s (z - 128) z _ 128); try lia; auto.
      unfold in_ity in *. cbn in *. lia.
    + exists S8, s, z, s, (z - 128)%Z. repeat (split; [reflexivity|]). intros Hs idx Hv. cbn [bt_val tget tmap tshape] in *.
      rewrite wrap_s8_shift by (apply Hok; exact Hv).
      specialize (Hok idx Hv).
      rewrite (requantize_shift S8 s z (z - 128) _ (-128)); try lia; auto.
      unfold in_ity in *. cbn in *. lia.
  - (* S8 -> U8 *)
    split; [reflexivity|]. split; [intros d Hd idx _; inv Hd; apply wrap_in|]. split; [|split].
    + eexists _, _. split; [reflexivity|]. split; [reflexivity|]. split; [reflexivity|].
      intros idx Hv. cbn. rewrite wrap_u8_add by (apply Hok; exact Hv). f_equal. f_equal. lia.
    + exists S8, s, (z + 128)%Z, s, z. repeat (split; [reflexivity|]). intros Hs idx Hv. cbn [bt_val tget tmap].
      rewrite wrap_u8_add by (apply Hok; exact Hv).
      specialize (Hok idx Hv).
      rewrite (requantize_shift S8 s (z + 128) z _ (-128)); try lia; auto.
      unfold in_ity in *. cbn in *. lia.
    + exists U8, s, z, s, (z + 128)%Z. repeat (split; [reflexivity|]). intros Hs idx Hv. cbn [bt_val tget tmap tshape] in *.
      rewrite wrap_u8_add by (apply Hok; exact Hv).
      specialize (Hok idx Hv).
      rewrite (requantize_shift U8 s z (z + 128) _ 128); try lia; auto.
      unfold in_ity in *. cbn in *. lia.
Qed.

(** What the pass owes for one boundary position: [b] the tensor before, [r] the result. *)
Definition overridden (target : ity) (b : btensor) (r : btensor * option btensor) : Prop :=
  bt_ty (fst r) = Some target /\
  (snd r = None -> fst r = b) /\
  (forall inner, snd r = Some inner -> inner = b /\ bt_ok (fst r) /\
     (exists v v', breal b = Some v /\ breal (fst r) = Some v' /\ teq v' v) /\
     quantize_recovers (fst r) b /\ quantize_recovers b (fst r)).

Lemma ty_is_true target b : ty_is target b = true -> bt_ty b = Some target.
Proof. unfold ty_is. destruct (bt_ty b) as [[]|]; destruct target; cbn; congruence. Qed.

Lemma override_inputs_ok target fuse i ins rs :
  Forall bt_ok ins -> override_inputs target fuse i ins = Some rs ->
  length rs = length ins /\
  forall j, (j < length ins)%nat ->
    let b := nth j ins (mkBT None None (mkT [] (fun _ => 0%Z))) in
    let r := nth j rs (mkBT None None (mkT [] (fun _ => 0%Z)), None) in
    if selected fuse (i + j) then overridden target b r else r = (b, None).
Proof.
  revert i rs. induction ins as [|b ins IH]; intros i rs Hok H; cbn [override_inputs] in H.
  - inv H. split; [reflexivity|]. cbn. lia.
  - inv Hok. destruct (if negb (selected fuse i) then _ else _) as [r|] eqn:E; [|discriminate]. cbn [obind] in H.
    destruct (override_inputs target fuse (S i) ins) as [rs'|] eqn:E2; [|discriminate]. inv H.
    destruct (IH _ _ H3 E2) as [HL HN]. split; [cbn; lia|].
    intros [|j] Hj.
    + cbn [nth]. rewrite Nat.add_0_r. destruct (selected fuse i) eqn:Es; cbn [negb] in E.
      * destruct (ty_is target b) eqn:Et.
        -- inv E. split; [|split]; cbn [fst snd]; auto. { now apply ty_is_true. } discriminate.
        -- destruct (retype target b) as [b'|] eqn:Er; [|discriminate]. cbn [obind] in E. inv E.
           destruct (retype_ok _ _ _ H2 Er) as (A & B & C & D & E).
           split; [|split]; cbn [fst snd]; auto; [discriminate|]. intros inner Hi. inv Hi. auto.
      * now inv E.
    + cbn [nth]. cbn in Hj. replace (i + S j)%nat with (S i + j)%nat by lia. apply HN. lia.
Qed.

Lemma output_mapping_in target fuse tm i outs m n b' :
  output_mapping target fuse tm i outs = Some m -> lookup_last n m = Some b' ->
  retype target (tm n) = Some b' /\ ty_is target (tm n) = false /\
  exists j, (j < length outs)%nat /\ nth j outs 0%nat = n /\ selected fuse (i + j) = true.
Proof.
  revert i m. induction outs as [|o outs IH]; intros i m H HL; cbn [output_mapping] in H.
  - inv H. discriminate.
  - destruct (if negb (selected fuse i) then _ else _) as [r|] eqn:E; [|discriminate]. cbn [obind] in H.
    destruct (output_mapping target fuse tm (S i) outs) as [m'|] eqn:E2; [|discriminate]. cbn [obind] in H.
    apply (f_equal (fun x => match x with Some y => y | None => [] end)) in H. subst m.
    assert (Hrec : lookup_last n m' = Some b' ->
       retype target (tm n) = Some b' /\ ty_is target (tm n) = false /\
       exists j, (j < length (o :: outs))%nat /\ nth j (o :: outs) 0%nat = n /\ selected fuse (i + j) = true).
    { intro H. destruct (IH _ _ E2 H) as (A & B & j & Hj & Hn & Hs).
      split; auto. split; auto. exists (S j). cbn. split; [lia|]. split; auto.
      replace (i + S j)%nat with (S i + j)%nat by lia. exact Hs. }
    destruct (selected fuse i) eqn:Es; cbn [negb] in E.
    + destruct (ty_is target (tm o)) eqn:Et.
      * inv E. apply Hrec. exact HL.
      * destruct (retype target (tm o)) as [b|] eqn:Er; [|discriminate]. cbn [obind] in E. inv E.
        cbn [app lookup_last] in HL. destruct (lookup_last n m') as [x|] eqn:El.
        -- inv HL. apply Hrec. reflexivity.
        -- destruct (o =? n)%nat eqn:En; [|discriminate]. apply Nat.eqb_eq in En. inv HL.
           split; auto. split; auto. exists 0%nat. cbn. split; [lia|]. split; auto. now rewrite Nat.add_0_r.
    + inv E. apply Hrec. exact HL.
Qed.

Lemma output_mapping_some target fuse tm i outs m j :
  output_mapping target fuse tm i outs = Some m -> (j < length outs)%nat -> selected fuse (i + j) = true ->
  ty_is target (tm (nth j outs 0%nat)) = false -> exists b', lookup_last (nth j outs 0%nat) m = Some b'.
Proof.
  revert i m j. induction outs as [|o outs IH]; intros i m j H Hj Hs Ht; [cbn in Hj; lia|].
  cbn [output_mapping] in H.
  destruct (if negb (selected fuse i) then _ else _) as [r|] eqn:E; [|discriminate]. cbn [obind] in H.
  destruct (output_mapping target fuse tm (S i) outs) as [m'|] eqn:E2; [|discriminate]. cbn [obind] in H.
  apply (f_equal (fun x => match x with Some y => y | None => [] end)) in H. subst m.
  assert (Hr : forall n r0 m0 b0, lookup_last n m0 = Some b0 -> exists b1 : btensor, lookup_last n (r0 ++ m0) = Some b1).
  { intros n r0 m0 b0 H. induction r0 as [|[k v] r0 IHr]; [eauto|]. cbn. destruct IHr as [b1 ->]. eauto. }
  destruct j as [|j].
  - cbn [nth] in *. rewrite Nat.add_0_r in Hs. rewrite Hs in E. cbn [negb] in E. rewrite Ht in E.
    destruct (retype target (tm o)) as [b|]; [|discriminate]. cbn [obind] in E. inv E. cbn [app lookup_last].
    destruct (lookup_last o m'); [eauto|]. rewrite Nat.eqb_refl. eauto.
  - cbn [nth] in *. destruct (IH _ _ j E2) as [b' Hb]; auto.
    + cbn in Hj. lia.
    + replace (S i + j)%nat with (i + S j)%nat by lia. exact Hs.
    + eapply Hr. exact Hb.
Qed.

Lemma override_outputs_ok target fuse tm outs rs :
  (forall n, bt_ok (tm n)) -> NoDup outs -> override_outputs target fuse tm outs = Some rs ->
  length rs = length outs /\
  forall j, (j < length outs)%nat ->
    let b := tm (nth j outs 0%nat) in
    let r := nth j rs (mkBT None None (mkT [] (fun _ => 0%Z)), None) in
    if selected fuse j then overridden target b r else r = (b, None).
Proof.
  intros Hok Hnd H. unfold override_outputs in H.
  destruct (output_mapping target fuse tm 0 outs) as [m|] eqn:E; [|discriminate]. cbn [obind] in H. inv H.
  split; [now rewrite map_length|]. intros j Hj b r. subst r.
  set (F := fun n => match lookup_last n m with Some b' => (b', Some (tm n)) | None => (tm n, None) end).
  rewrite (nth_indep _ _ (F 0%nat)) by (rewrite map_length; lia).
  rewrite (map_nth F). unfold F. fold b.
  destruct (selected fuse j) eqn:Es.
  - destruct (ty_is target b) eqn:Et.
    + destruct (lookup_last (nth j outs 0%nat) m) as [b'|] eqn:El.
      * destruct (output_mapping_in _ _ _ _ _ _ _ _ E El) as (_ & B & _). unfold b in Et. congruence.
      * split; [|split]; cbn [fst snd]; auto. { now apply ty_is_true. } discriminate.
    + destruct (output_mapping_some _ _ _ _ _ _ j E Hj Es Et) as [b' El]. rewrite El.
      destruct (output_mapping_in _ _ _ _ _ _ _ _ E El) as (Er & _ & _).
      destruct (retype_ok _ _ _ (Hok _) Er) as (A & B & C & D & G).
      split; [|split]; cbn [fst snd]; auto; [discriminate|]. intros inner Hi. inv Hi. auto.
  - destruct (lookup_last (nth j outs 0%nat) m) as [b'|] eqn:El; [|reflexivity].
    destruct (output_mapping_in _ _ _ _ _ _ _ _ E El) as (_ & _ & k & Hk & Hn & Hs).
    assert (k = j) by (eapply NoDup_nth; eauto). subst k. cbn in Hs. congruence.
Qed.

(** an output listed twice, only the first position selected: both change *)
Lemma override_outputs_dup_refuted :
  exists tm outs rs,
    (forall n, bt_ok (tm n)) /\ override_outputs U8 (Some [0%nat]) tm outs = Some rs /\
    selected (Some [0%nat]) 1 = false /\ snd (nth 1 rs (tm 0%nat, None)) <> None.
Proof.
  exists (fun _ => mkBT (Some S8) (Some (PerTensor 1 0)) (mkT [1%nat] (fun _ => 0%Z))), [0%nat; 0%nat].
  eexists. split.
  - intros n d Hd idx _. inv Hd. unfold in_ity. cbn. lia.
  - split; [reflexivity|]. split; [reflexivity|]. cbn. discriminate.
Qed.

(* ------------------------------------------------------------------ *)
(** C23 *)

Lemma fold_max_ge l a x : In x (a :: l) -> x <= fold_left Rmax l a.
Proof.
  revert a x. induction l as [|b l IH]; cbn [fold_left]; intros a x [H|H].
  - subst; lra.
  - destruct H.
  - subst. eapply Rle_trans; [|apply IH; left; reflexivity]. apply Rmax_l.
  - destruct H as [<-|H].
    + eapply Rle_trans; [|apply IH; left; reflexivity]. apply Rmax_r.
    + apply IH. now right.
Qed.
Lemma fold_min_le l a x : In x (a :: l) -> fold_left Rmin l a <= x.
Proof.
  revert a x. induction l as [|b l IH]; cbn [fold_left]; intros a x [H|H].
  - subst; lra.
  - destruct H.
  - subst. eapply Rle_trans; [apply IH; left; reflexivity|]. apply Rmin_l.
  - destruct H as [<-|H].
    + eapply Rle_trans; [apply IH; left; reflexivity|]. apply Rmin_r.
    + apply IH. now right.
Qed.

(** The scale covers every element, and is either the smallest allowed or as small as one
    element needs. *)
Lemma sym_scale_ok l s : sym_scale l = Some s ->
  f32_eps <= s /\ (forall x, In x l -> Rabs x <= 127 * s) /\
  (s = f32_eps \/ exists x, In x l /\ Rabs x = 127 * s).
Proof.
  unfold sym_scale. destruct l as [|a l]; [discriminate|]. cbn [lmin lmax obind]. intro H. inv H.
  set (mn := fold_left Rmin l a). set (mx := fold_left Rmax l a).
  replace ((127 - -127) / 2) with 127 by field.
  set (m := Rmax (- Rmin mn 0) (Rmax mx 0)).
  assert (Hmx : forall x, In x (a :: l) -> x <= mx) by (intros; now apply fold_max_ge).
  assert (Hmn : forall x, In x (a :: l) -> mn <= x) by (intros; now apply fold_min_le).
  split; [apply Rmax_r|]. split.
  - intros x Hx. specialize (Hmx x Hx). specialize (Hmn x Hx).
    assert (Rabs x <= m).
    { unfold m. apply Rabs_le. pose proof (Rmax_l (- Rmin mn 0) (Rmax mx 0)). pose proof (Rmax_r (- Rmin mn 0) (Rmax mx 0)).
      pose proof (Rmax_l mx 0). pose proof (Rmin_l mn 0). lra. }
    pose proof (Rmax_l (m / 127) f32_eps). unfold m in *. lra.
  - destruct (Rle_dec (m / 127) f32_eps) as [Hle|Hgt]; [left; now apply Rmax_right|]. right.
    assert (He : 0 < f32_eps) by (unfold f32_eps; lra).
    assert (Hm0 : 0 < m) by lra.
    assert (Hin : forall x0 l0, In (fold_left Rmax l0 x0) (x0 :: l0)).
    { intros x0 l0. revert x0. induction l0 as [|b l0 IH]; intro x0; cbn [fold_left]; [left; reflexivity|].
      destruct (IH (Rmax x0 b)) as [E|E]; [|right; right; auto].
      rewrite <- E. unfold Rmax. destruct (Rle_dec x0 b); [right; left; auto|left; auto]. }
    assert (Hin2 : forall x0 l0, In (fold_left Rmin l0 x0) (x0 :: l0)).
    { intros x0 l0. revert x0. induction l0 as [|b l0 IH]; intro x0; cbn [fold_left]; [left; reflexivity|].
      destruct (IH (Rmin x0 b)) as [E|E]; [|right; right; auto].
      rewrite <- E. unfold Rmin. destruct (Rle_dec x0 b); [left; auto|right; left; auto]. }
    rewrite (Rmax_left (m / 127) f32_eps) by lra.
    assert (Hd : (m = mx /\ 0 < mx) \/ (m = - mn /\ mn < 0)).
    { unfold m, Rmax, Rmin in *. repeat destruct (Rle_dec _ _); try lra; try (left; lra); right; lra. }
    destruct Hd as [[E Hp]|[E Hp]]; rewrite E.
    + exists mx. split; [apply Hin|]. rewrite Rabs_pos_eq by lra. field.
    + exists mn. split; [apply Hin2|]. rewrite Rabs_left1 by lra. field.
Qed.

(** one element *)
Lemma torch_quant_ok s x : 0 < s -> Rabs x <= 127 * s ->
  let q := torch_quant (-128) 127 s 0 x in
  (-127 <= q <= 127)%Z /\ Rabs (x - s * IZR q) <= s / 2 /\ (x = 0 -> q = 0%Z).
Proof.
  intros Hs Hx q.
  assert (Hd : Rabs (x / s) <= IZR 127).
  { unfold Rdiv. rewrite Rabs_mult, (Rabs_pos_eq (/ s)) by (left; now apply Rinv_0_lt_compat).
    apply Rmult_le_reg_r with s; auto. rewrite Rmult_assoc, Rinv_l by lra. lra. }
  pose proof (rne_bounds _ _ Hd) as Hb.
  assert (Eq : q = rne (x / s)). { unfold q, torch_quant, clampZ. lia. }
  rewrite Eq. split; [lia|]. split.
  - pose proof (rne_half (x / s)) as Hh.
    replace (x - s * IZR (rne (x / s))) with (s * (x / s - IZR (rne (x / s)))) by (field; lra).
    rewrite Rabs_mult, (Rabs_pos_eq s) by lra. apply Rle_trans with (s * (1 / 2)); [|lra].
    apply Rmult_le_compat_l; lra.
  - intros ->. unfold Rdiv. rewrite Rmult_0_l. apply (rne_IZR 0).
Qed.

Lemma oall_nth {A} (l : list (option A)) r (d : A) i : oall l = Some r -> (i < length l)%nat ->
  nth i l None = Some (nth i r d).
Proof.
  revert r i. induction l as [|a l IH]; intros r i H Hi; [cbn in Hi; lia|]. cbn [oall] in H.
  destruct a as [a|]; [|discriminate]. cbn [obind] in H. destruct (oall l) as [r'|] eqn:E; [|discriminate].
  cbn [obind] in H. inv H. destruct i; [reflexivity|]. cbn in Hi. cbn [nth]. apply IH; auto; lia.
Qed.
Lemma oall_length {A} (l : list (option A)) r : oall l = Some r -> length r = length l.
Proof.
  revert r. induction l as [|a l IH]; intros r H; cbn [oall] in H; [now inv H|].
  destruct a as [a|]; [|discriminate]. cbn [obind] in H. destruct (oall l) as [r'|] eqn:E; [|discriminate].
  cbn [obind] in H. inv H. cbn. f_equal. auto.
Qed.
Lemma oall_some {A} (l : list (option A)) : (forall i, (i < length l)%nat -> nth i l None <> None) -> oall l <> None.
Proof.
  induction l as [|a l IH]; intro H; cbn [oall]; [discriminate|].
  pose proof (H 0%nat ltac:(cbn; lia)) as H0. cbn in H0. destruct a as [a|]; [|congruence]. cbn [obind].
  destruct (oall l); [discriminate|]. exfalso. apply IH; [|reflexivity]. intros i Hi. apply (H (S i)). cbn; lia.
Qed.

(** what symmetric quantization owes for one element *)
Definition elem_ok (s w : R) (q : Z) : Prop :=
  f32_eps <= s /\ (-127 <= q <= 127)%Z /\ Rabs (w - s * IZR q) <= s / 2 /\ (w = 0 -> q = 0%Z).

Lemma f32_eps_pos : 0 < f32_eps.
Proof. unfold f32_eps. lra. Qed.

Lemma valid_channel_lt sh idx a : valid sh idx -> (a < length sh)%nat -> (nth a idx 0 < nth a sh 0)%nat.
Proof.
  intro H. revert a. induction H; intros a Ha; [cbn in Ha; lia|]. destruct a; cbn; auto. apply IHForall2. cbn in Ha. lia.
Qed.

Lemma forallb_zeros {A} (l : list A) : forallb (fun v => (v =? 0)%Z) (map (fun _ => 0%Z) l) = true.
Proof. induction l; cbn; auto. Qed.
Lemma nth_zeros {A} (l : list A) n : nth n (map (fun _ => 0%Z) l) 0%Z = 0%Z.
Proof. revert n. induction l; destruct n; cbn; auto. Qed.

(** result of [hybrid_weight S8]: every element is within half a step, and the scale of a
    tensor / channel is the smallest one or exactly needed by one of its elements *)
Lemma hybrid_weight_ok w axis d p t : hybrid_weight S8 w axis = Some (d, p, t) ->
  d = S8 /\ tshape t = tshape w /\
  (forall idx, valid (tshape w) idx ->
     elem_ok (qscale p idx) (tget w idx) (tget t idx) /\ qzero p idx = 0%Z /\
     (qscale p idx = f32_eps \/
      exists jdx, valid (tshape w) jdx /\ Rabs (tget w jdx) = 127 * qscale p idx /\
        match axis with
        | None => True
        | Some ax => let a := py_axis (length (tshape w)) ax in nth a jdx 0%nat = nth a idx 0%nat
        end)) /\
  match axis, p with
  | None, PerTensor _ _ => True
  | Some ax, PerChannel ss _ a => a = py_axis (length (tshape w)) ax /\ length ss = nth a (tshape w) 0%nat
  | _, _ => False
  end.
Proof.
  unfold hybrid_weight, hquantize. destruct axis as [ax0|].
  - fold (py_axis (length (tshape w)) ax0). set (rank := length (tshape w)) in *.
    set (ax := (if (ax0 <? 0)%Z then (ax0 + Z.of_nat rank)%Z else ax0)).
    destruct ((ax <? 0)%Z || (Z.of_nat rank <=? ax)%Z) eqn:Er; [discriminate|].
    apply orb_false_iff in Er. destruct Er as [E1 E2]. apply Z.ltb_ge in E1. apply Z.leb_gt in E2.
    replace (py_axis rank ax0) with (Z.to_nat ax) by reflexivity.
    set (a := Z.to_nat ax) in *.
    assert (Ha : (a < length (tshape w))%nat) by (unfold a; fold rank; lia).
    destruct (oall _) as [ss|] eqn:Eo; [|discriminate]. cbn [obind fst snd store ity_eqb].
    rewrite forallb_zeros. intro H. inv H.
    assert (Hax : (ax <? 0)%Z = false) by (apply Z.ltb_ge; exact E1). rewrite Hax. fold a.
    split; [reflexivity|]. split; [reflexivity|]. split.
    + intros idx Hv. cbn [qscale qzero tget].
      pose proof (valid_channel_lt _ _ _ Hv Ha) as Hc. set (c := nth a idx 0%nat) in *.
      pose proof (oall_nth _ _ 0 c Eo) as Hn. rewrite map_length, seq_length in Hn. specialize (Hn Hc).
      rewrite (nth_indep _ _ (sym_scale (channel_elements w a 0%nat))) in Hn by (rewrite map_length, seq_length; lia).
      rewrite (map_nth (fun c => sym_scale (channel_elements w a c))) in Hn. rewrite seq_nth in Hn by lia. cbn [plus] in Hn.
      destruct (sym_scale_ok _ _ Hn) as (He & Hall & Htight). set (s := nth c ss 0) in *.
      assert (Hs : 0 < s) by (pose proof f32_eps_pos; lra).
      assert (Hin : In (tget w idx) (channel_elements w a c)).
      { unfold channel_elements. apply in_map. apply filter_In. split; [now apply indices_valid|]. apply Nat.eqb_refl. }
      destruct (torch_quant_ok s (tget w idx) Hs (Hall _ Hin)) as (A & B & C).
      split; [repeat split; auto; lia|]. split; [apply nth_zeros|].
      destruct Htight as [Ht|(x & Hx & Ex)]; [left; auto|right].
      unfold channel_elements in Hx. apply in_map_iff in Hx. destruct Hx as (jdx & <- & Hj).
      apply filter_In in Hj. destruct Hj as [Hj1 Hj2]. apply indices_valid in Hj1. apply Nat.eqb_eq in Hj2.
      exists jdx. repeat split; auto.
    + split; [reflexivity|]. apply oall_length in Eo. now rewrite map_length, seq_length in Eo.
  - destruct (sym_scale (elements w)) as [s|] eqn:Es; [|discriminate]. cbn [obind fst snd store ity_eqb]. intro H. inv H.
    destruct (sym_scale_ok _ _ Es) as (He & Hall & Htight).
    assert (Hs : 0 < s) by (pose proof f32_eps_pos; lra).
    split; [reflexivity|]. split; [reflexivity|]. split; [|exact I].
    intros idx Hv. cbn [qscale qzero tget tmap].
    assert (Hin : In (tget w idx) (elements w)) by (unfold elements; apply in_map; now apply indices_valid).
    destruct (torch_quant_ok s (tget w idx) Hs (Hall _ Hin)) as (A & B & C).
    split; [repeat split; auto; lia|]. split; [reflexivity|].
    destruct Htight as [Ht|(x & Hx & Ex)]; [left; auto|right].
    unfold elements in Hx. apply in_map_iff in Hx. destruct Hx as (jdx & <- & Hj). apply indices_valid in Hj. eauto.
Qed.

(** it is defined on every tensor without empty axes, for every axis torch accepts *)
Lemma channel_elements_ne w a c : Forall (lt 0%nat) (tshape w) -> (a < length (tshape w))%nat ->
  (c < nth a (tshape w) 0)%nat -> channel_elements w a c <> [].
Proof.
  intros Hpos Ha Hc.
  assert (Hz : forall s, Forall (lt 0%nat) s -> valid s (map (fun _ => 0%nat) s)).
  { induction 1; constructor; auto. }
  assert (Hv : forall s b, Forall (lt 0%nat) s -> (b < length s)%nat -> (c < nth b s 0)%nat ->
     valid s (upd (map (fun _ => 0%nat) s) b c) /\ nth b (upd (map (fun _ => 0%nat) s) b c) 0%nat = c).
  { intros s b Hs. revert b. induction Hs as [|d s Hd Hs IH]; intros b Hb Hcb; [cbn in Hb; lia|].
    destruct b as [|b]; cbn [map upd nth].
    - split; [|reflexivity]. constructor; [exact Hcb|]. now apply Hz.
    - cbn in Hb, Hcb. destruct (IH b ltac:(lia) Hcb). split; auto. constructor; auto. }
  destruct (Hv _ _ Hpos Ha Hc) as [V N]. intro E.
  assert (In (tget w (upd (map (fun _ => 0%nat) (tshape w)) a c)) (channel_elements w a c)).
  { unfold channel_elements. apply in_map. apply filter_In. split; [now apply indices_valid|]. rewrite N. apply Nat.eqb_refl. }
  rewrite E in H. destruct H.
Qed.

Lemma hybrid_weight_defined w axis : Forall (lt 0%nat) (tshape w) ->
  match axis with None => True | Some ax => (- Z.of_nat (length (tshape w)) <= ax < Z.of_nat (length (tshape w)))%Z end ->
  exists r, hybrid_weight S8 w axis = Some r.
Proof.
  intros Hpos Hax. unfold hybrid_weight, hquantize. destruct axis as [ax0|].
  - set (rank := length (tshape w)) in *.
    set (ax := (if (ax0 <? 0)%Z then (ax0 + Z.of_nat rank)%Z else ax0)).
    assert (Hr : (0 <= ax < Z.of_nat rank)%Z). { unfold ax. destruct (ax0 <? 0)%Z eqn:E; [apply Z.ltb_lt in E|apply Z.ltb_ge in E]; lia. }
    replace ((ax <? 0)%Z || (Z.of_nat rank <=? ax)%Z) with false.
    2:{ symmetry. apply orb_false_iff. split; [apply Z.ltb_ge|apply Z.leb_gt]; lia. }
    destruct (oall _) as [ss|] eqn:Eo.
    + cbn [obind fst snd store ity_eqb]. rewrite forallb_zeros. eauto.
    + exfalso. revert Eo. apply oall_some. rewrite map_length, seq_length. intros i Hi.
      rewrite (nth_indep _ _ (sym_scale (channel_elements w (Z.to_nat ax) 0%nat))) by (rewrite map_length, seq_length; lia).
      rewrite (map_nth (fun c => sym_scale (channel_elements w (Z.to_nat ax) c))). rewrite seq_nth by lia. cbn [plus].
      assert (channel_elements w (Z.to_nat ax) i <> []) by (apply channel_elements_ne; auto; fold rank; lia).
      destruct (channel_elements w (Z.to_nat ax) i); [congruence|]. discriminate.
  - assert (Hne : elements w <> []).
    { intro E. assert (Hz : forall s, Forall (lt 0%nat) s -> valid s (map (fun _ => 0%nat) s)) by (induction 1; constructor; auto).
      assert (In (tget w (map (fun _ => 0%nat) (tshape w))) (elements w)).
      { unfold elements. apply in_map, indices_valid, Hz, Hpos. }
      rewrite E in H. destruct H. }
    destruct (elements w) as [|x l]; [congruence|]. cbn. eauto.
Qed.

(** reading the reinterpreted bytes as signed gives the same weights *)
Lemma hybrid_weight_u8_ok w d p t : hybrid_weight_u8 w = Some (d, p, t) ->
  exists t8, hybrid_weight S8 w None = Some (S8, p, t8) /\ d = U8 /\ all_in U8 t /\
             forall idx, valid (tshape w) idx -> wrap S8 (tget t idx) = tget t8 idx.
Proof.
  unfold hybrid_weight_u8. destruct (hybrid_weight S8 w None) as [[[d8 p8] t8]|] eqn:E; [|discriminate].
  cbn [obind]. intro H. inv H. destruct (hybrid_weight_ok _ _ _ _ _ E) as (-> & Hsh & Hok & _).
  exists t8. split; [reflexivity|]. split; [reflexivity|]. split; [intros idx _; apply wrap_in|].
  intros idx Hv. destruct (Hok idx Hv) as [(_ & Hq & _) _]. cbn [tget tmap]. set (q := tget t8 idx) in *.
  unfold wrap; cbn [ity_lo ity_hi]. rewrite Z.sub_0_r, Z.add_0_r.
  replace (255 - 0 + 1)%Z with 256%Z by reflexivity. replace (127 - -128 + 1)%Z with 256%Z by reflexivity.
  replace (q mod 256 - -128)%Z with (q mod 256 + 128)%Z by lia. rewrite Zplus_mod_idemp_l.
  rewrite Z.mod_small by lia. lia.
Qed.
