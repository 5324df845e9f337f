(** Proofs about the lowering of convolutions (AtenConvModel.v). *)
From Coq Require Import List Arith Bool Reals Lia Lra Permutation.
From Verif Require Import Tensor ConvSpec CatSpec LayoutSpec FuseModel FuseMiscProofs PadProofs AtenSpec AtenConvModel.
Import ListNotations.

(* ------------------------------------------------------------------ *)
(** * An axis of size 1 *)

Lemma prod_insert k s : prod (insert_at k 1 s) = prod s.
Proof.
  unfold insert_at. revert s. induction k as [|k IH]; intros [|d s]; cbn [firstn skipn app prod]; try lia.
  rewrite IH. reflexivity.
Qed.
Lemma ravel_insert k s idx : length idx = length s -> ravel (insert_at k 1 s) (insert_at k 0 idx) = ravel s idx.
Proof.
  unfold insert_at. revert s idx. induction k as [|k IH]; intros [|d s] [|i idx] H; simpl in H; try discriminate;
    cbn [firstn skipn app ravel prod]; try lia.
  rewrite IH by lia. change (firstn k s ++ 1 :: skipn k s) with (insert_at k 1 s). rewrite (prod_insert k s). reflexivity.
Qed.
Lemma valid_insert k s idx : valid s idx -> valid (insert_at k 1 s) (insert_at k 0 idx).
Proof.
  unfold insert_at. intro V. revert k. induction V as [|i d r s Hi V IH]; intros [|k]; cbn; constructor; auto; try lia.
  apply IH.
Qed.
Lemma reshape_up {A} (t : tensor A) k idx : valid (tshape t) idx ->
  tget (reshape (insert_at k 1 (tshape t)) t) (insert_at k 0 idx) = tget t idx.
Proof.
  intro V. unfold reshape. cbn [tget]. rewrite ravel_insert by (eapply valid_length; eauto).
  rewrite unravel_ravel; auto.
Qed.
Lemma reshape_down {A} (t : tensor A) k s idx : tshape t = insert_at k 1 s -> valid s idx ->
  tget (reshape s t) idx = tget t (insert_at k 0 idx).
Proof.
  intros E V. unfold reshape. cbn [tget]. rewrite E. rewrite <- (ravel_insert k s idx) by (eapply valid_length; eauto).
  rewrite unravel_ravel; auto. now apply valid_insert.
Qed.

(* ------------------------------------------------------------------ *)
(** * Explicit padding in front of a VALID operator *)

(** kernel, stride, dilation and padding fit the operand *)
Lemma conv_axes_length dims ks stride dil pad : conv_axes dims ks stride dil pad ->
  length ks = length dims /\ length stride = length dims /\ length dil = length dims /\ length pad = length dims.
Proof.
  revert ks stride dil pad. induction dims; intros [|? ks] [|? stride] [|? dil] [|? pad] H; simpl in *; try contradiction; auto.
  destruct H as [_ H]. apply IHdims in H. lia.
Qed.
Definition sym (pad : list nat) : list (nat * nat) := map (fun p => (p, p)) pad.

Lemma sym_tap dims ks stride dil pad pos t : conv_axes dims ks stride dil pad ->
  valid (out_dims dims stride dil pad pad ks) pos -> valid ks t ->
  exists q, tap (pad_shape dims (sym pad)) stride dil (map (fun _ => 0) (pad_shape dims (sym pad))) pos t = Some q /\
            valid (pad_shape dims (sym pad)) q /\
            unpad dims (sym pad) q = tap dims stride dil pad pos t.
Proof.
  revert ks stride dil pad pos t. induction dims as [|d dims IH];
    intros [|k ks] [|s stride] [|l dil] [|p pad] pos t H V Vt; simpl in H; try contradiction.
  - exists []. cbn. inversion V; inversion Vt; repeat split; auto; constructor.
  - destruct H as ((H1 & H2 & H3) & H). cbn [out_dims] in V.
    inversion V as [|o ? pos' ? Ho V']; subst. inversion Vt as [|tt ? t' ? Ht Vt']; subst.
    destruct (IH _ _ _ _ _ _ H V' Vt') as (q & E1 & E2 & E3).
    cbn [sym map pad_shape tap]. unfold sym in E1. rewrite E1.
    assert (o * s + tt * l < p + d + p).
    { unfold out_dim in Ho. assert (o <= (d + p + p - (l * (k - 1) + 1)) / s) as Ho' by lia.
      assert (o * s <= (d + p + p - (l * (k - 1) + 1)) / s * s) by (apply Nat.mul_le_mono_r; auto).
      pose proof (Nat.mul_div_le (d + p + p - (l * (k - 1) + 1)) s ltac:(lia)).
      assert (tt * l <= l * (k - 1)) by (rewrite Nat.mul_comm; apply Nat.mul_le_mono_l; lia). lia. }
    cbn [Nat.leb andb]. rewrite Nat.sub_0_r.
    destruct (Nat.ltb_spec (o * s + tt * l) (p + d + p)); [|lia]. cbn [option_map].
    eexists. split; [reflexivity|]. split; [constructor; auto|]. cbn [unpad fst]. unfold sym in E3. rewrite E3. reflexivity.
Qed.

Lemma sym_outs dims ks stride dil pad : conv_axes dims ks stride dil pad ->
  valid_outs (pad_shape dims (sym pad)) stride dil ks = out_dims dims stride dil pad pad ks.
Proof.
  revert ks stride dil pad. induction dims as [|d dims IH];
    intros [|k ks] [|s stride] [|l dil] [|p pad] H; simpl in H; try contradiction; auto.
  destruct H as (_ & H). cbn [sym map pad_shape valid_outs out_dims]. fold (sym pad). rewrite IH by auto.
  f_equal. unfold valid_out, out_dim. do 3 f_equal. lia.
Qed.

(** Zero padding: the window of the padded operand in NHWC order. *)
Definition nhwc_of (xp : tensor R) (x : tensor R) (N C : nat) (dims pad : list nat) : Prop :=
  tshape xp = N :: pad_shape dims (sym pad) ++ [C] /\
  forall n q c, n < N -> valid (pad_shape dims (sym pad)) q -> c < C ->
    tget xp (n :: q ++ [c]) = read0 x n c (unpad dims (sym pad) q).

Lemma nhwc_window xp x N C dims pad ks stride dil n pos :
  nhwc_of xp x N C dims pad -> conv_axes dims ks stride dil pad -> n < N ->
  valid (out_dims dims stride dil pad pad ks) pos ->
  window stride dil (map (fun _ => 0) (pad_shape dims (sym pad))) ks xp n pos =
  map (fun k => map (fun c => Some (read0 x n c (tap dims stride dil pad pos k))) (seq 0 C)) (indices ks).
Proof.
  intros (Hs & Hg) Hok Hn V. unfold window. rewrite Hs, last_full. cbn [tl]. rewrite removelast_snoc.
  apply map_ext_in. intros k Hk. apply indices_valid in Hk.
  destruct (sym_tap _ _ _ _ _ _ _ Hok V Hk) as (q & E1 & E2 & E3). rewrite E1. cbn [option_map].
  apply map_ext_in. intros c Hc. apply in_seq in Hc. rewrite Hg by (auto; lia). rewrite E3. reflexivity.
Qed.

Lemma unpad_zero dims q : valid dims q -> unpad dims (sym (map (fun _ => 0) dims)) q = Some q.
Proof.
  intro V. induction V as [|i d r s Hi V IH]; [reflexivity|]. cbn [map sym unpad]. fold (sym (map (fun _ => 0) s)).
  rewrite IH. cbn [Nat.leb andb]. rewrite Nat.sub_0_r. destruct (Nat.ltb_spec i d); [reflexivity|lia].
Qed.
Lemma pad_shape_zero dims : pad_shape dims (sym (map (fun _ => 0) dims)) = dims.
Proof. induction dims; [reflexivity|]. cbn [map sym pad_shape]. fold (sym (map (fun _ => 0) dims)). rewrite IHdims. f_equal. lia. Qed.
Lemma sum_zero_pad (pad dims : list nat) : length pad = length dims -> list_sum pad = 0 -> pad = map (fun _ => 0) dims.
Proof.
  revert dims. induction pad as [|p pad IH]; intros [|d dims] H E; simpl in *; try discriminate; auto.
  rewrite <- (IH dims) by lia. f_equal. lia.
Qed.

(** the two ways in which the code pads *)
Lemma nhwc_padded xt x N C dims pad :
  length pad = length dims ->
  tshape xt = N :: dims ++ [C] ->
  (forall n q c, n < N -> valid dims q -> c < C -> tget xt (n :: q ++ [c]) = tget x (n :: c :: q)) ->
  nhwc_of (if 0 <? list_sum pad then pad_op 0%R ((0, 0) :: sym pad ++ [(0, 0)]) xt else xt) x N C dims pad.
Proof.
  intros L Hs Hg. assert (length (sym pad) = length dims) as L' by (unfold sym; rewrite map_length; auto).
  destruct (Nat.ltb_spec 0 (list_sum pad)).
  - split.
    + unfold pad_op. cbn [tshape]. rewrite Hs. apply pad_shape_full; auto.
    + intros n q c Hn V Hc. unfold pad_op. cbn [tget]. rewrite Hs.
      pose proof (valid_length _ _ V) as Lq. rewrite pad_shape_length in Lq by auto.
      rewrite unpad_full by auto. destruct (unpad dims (sym pad) q) as [q'|] eqn:E; cbn [option_map read0]; [|reflexivity].
      apply Hg; auto. clear - E L' V. unfold sym in *.
      revert pad q q' L' V E. induction dims as [|d dims IH]; intros [|p pad] q q' L' V E; simpl in L'; try discriminate.
      * inversion V; subst. cbn in E. injection E as <-. constructor.
      * cbn [map pad_shape] in V. inversion V as [|i ? r ? Hi Vr]; subst. cbn [map unpad] in E.
        destruct ((p <=? i) && (i - p <? d)) eqn:Eb; [|discriminate].
        apply andb_prop in Eb. destruct Eb as [_ Eb]. apply Nat.ltb_lt in Eb.
        destruct (unpad dims (map (fun p => (p, p)) pad) r) as [r'|] eqn:Er; [|discriminate].
        cbn [option_map] in E. injection E as <-. constructor; auto. eapply IH; eauto.
  - assert (pad = map (fun _ => 0) dims) as -> by (apply sum_zero_pad; [auto|lia]).
    split.
    + rewrite pad_shape_zero. exact Hs.
    + intros n q c Hn V Hc. rewrite pad_shape_zero in V. rewrite unpad_zero by auto. cbn [read0]. apply Hg; auto.
Qed.

(* ------------------------------------------------------------------ *)
(** * The three kernels *)
Local Open Scope R_scope.

(** the sum that torch computes for one output element *)
Definition conv_at (groups : nat) (w : tensor R) (stride dil pad dims ks : list nat) (x : tensor R)
  (ipg cout n o : nat) (pos : list nat) : R :=
  lsum (seq 0 ipg) (fun i => lsum (indices ks) (fun k =>
     tget w (o :: i :: k) * read0 x n (o / (cout / groups) * ipg + i) (tap dims stride dil pad pos k))).

Lemma group_channel groups ipg opg o i : (0 < groups)%nat -> (o < groups * opg)%nat -> (i < ipg)%nat ->
  (o / opg * ipg + i < groups * ipg)%nat.
Proof.
  intros Hg Ho Hi. assert (0 < opg)%nat by nia. assert (o / opg < groups)%nat by (apply Nat.div_lt_upper_bound; lia).
  nia.
Qed.

Lemma conv_kernel_at (wr w x : tensor R) b cin groups ipg opg ks stride dil pad dims n o pos :
  tshape wr = (groups * opg)%nat :: ks ++ [ipg] ->
  (forall i k, (i < ipg)%nat -> valid ks k -> tget wr (o :: k ++ [i]) = tget w (o :: i :: k)) ->
  cin = (groups * ipg)%nat -> (0 < groups)%nat -> (0 < ipg)%nat -> (o < groups * opg)%nat ->
  conv_kernel wr b cin o
    (map (fun k => map (fun c => Some (read0 x n c (tap dims stride dil pad pos k))) (seq 0 cin)) (indices ks)) =
  b o + conv_at groups w stride dil pad dims ks x ipg (groups * opg) n o pos.
Proof.
  intros Hs Hw -> Hg Hi Ho. unfold conv_kernel, conv_at. rewrite Hs. cbn [nth tl]. rewrite last_full, removelast_snoc.
  f_equal. rewrite lsum_combine_map. rewrite lsum_swap. apply lsum_ext. intros i Ei. apply in_seq in Ei.
  apply lsum_ext. intros k Hk. apply indices_valid in Hk. cbn [fst snd].
  rewrite Nat.div_mul by lia. rewrite Hw by (auto; lia). f_equal.
  rewrite (Nat.mul_comm groups opg), Nat.div_mul by lia.
  rewrite nth_indep with (d' := Some (read0 x n 0 (tap dims stride dil pad pos k)))
    by (rewrite map_length, seq_length; apply group_channel; lia).
  rewrite (map_nth (fun c => Some (read0 x n c (tap dims stride dil pad pos k)))).
  rewrite seq_nth by (apply group_channel; lia). reflexivity.
Qed.

Lemma depthwise_kernel_at (wr w x : tensor R) b groups ks stride dil pad dims n o pos :
  tshape wr = 1%nat :: ks ++ [groups] ->
  (forall k, valid ks k -> tget wr (0%nat :: k ++ [o]) = tget w (o :: 0%nat :: k)) ->
  (0 < groups)%nat -> (o < groups)%nat ->
  depthwise_kernel wr b groups o
    (map (fun k => map (fun c => Some (read0 x n c (tap dims stride dil pad pos k))) (seq 0 groups)) (indices ks)) =
  b o + conv_at groups w stride dil pad dims ks x 1 groups n o pos.
Proof.
  intros Hs Hw Hg Ho. unfold depthwise_kernel, conv_at. rewrite Hs. cbn [nth tl]. rewrite last_full, removelast_snoc.
  f_equal. rewrite lsum_combine_map. cbn [seq]. rewrite lsum_cons, lsum_nil, Rplus_0_r.
  apply lsum_ext. intros k Hk. apply indices_valid in Hk. cbn [fst snd].
  rewrite Nat.div_same by lia. rewrite Hw by auto. f_equal.
  rewrite nth_indep with (d' := Some (read0 x n 0 (tap dims stride dil pad pos k)))
    by (rewrite map_length, seq_length, Nat.div_1_r; lia).
  rewrite (map_nth (fun c => Some (read0 x n c (tap dims stride dil pad pos k)))).
  rewrite seq_nth by (rewrite Nat.div_1_r; lia). cbn [val0]. f_equal. rewrite !Nat.div_1_r. lia.
Qed.

Lemma conv3d_kernel_at (wr w x : tensor R) b cin cout ks stride dil pad dims n o pos :
  length ks = 3%nat -> tshape wr = ks ++ [cin; cout] ->
  (forall i k, (i < cin)%nat -> valid ks k -> tget wr (k ++ [i; o]) = tget w (o :: i :: k)) ->
  (o < cout)%nat ->
  conv3d_kernel wr b o
    (map (fun k => map (fun c => Some (read0 x n c (tap dims stride dil pad pos k))) (seq 0 cin)) (indices ks)) =
  b o + conv_at 1 w stride dil pad dims ks x cin cout n o pos.
Proof.
  intros Lk Hs Hw Ho. unfold conv3d_kernel, conv_at. rewrite Hs.
  rewrite firstn_app, <- Lk, firstn_all, Nat.sub_diag. cbn [firstn]. rewrite app_nil_r.
  rewrite app_nth2 by lia. rewrite Lk. cbn [Nat.sub nth].
  f_equal. rewrite lsum_combine_map. rewrite lsum_swap. apply lsum_ext. intros i Ei. apply in_seq in Ei.
  apply lsum_ext. intros k Hk. apply indices_valid in Hk. cbn [fst snd]. rewrite Hw by (auto; lia). f_equal.
  rewrite nth_indep with (d' := Some (read0 x n 0 (tap dims stride dil pad pos k)))
    by (rewrite map_length, seq_length; lia).
  rewrite (map_nth (fun c => Some (read0 x n c (tap dims stride dil pad pos k)))).
  rewrite seq_nth by lia. cbn [val0]. f_equal. rewrite Nat.div_1_r, (Nat.div_small o cout) by lia. lia.
Qed.

Lemma conv_get a x w b N C dims cout ipg ks n o pos :
  tshape x = N :: C :: dims -> tshape w = cout :: ipg :: ks ->
  tget (conv a x w b) (n :: o :: pos) =
  b o + conv_at (ca_groups a) w (ca_stride a) (ca_dil a) (ca_pad a) dims ks x ipg cout n o pos.
Proof. intros Hx Hw. unfold conv, conv_at. cbn [tget]. rewrite Hx, Hw. reflexivity. Qed.
Lemma conv_shape a x w b N C dims cout ipg ks :
  tshape x = N :: C :: dims -> tshape w = cout :: ipg :: ks ->
  tshape (conv a x w b) = N :: cout :: out_dims dims (ca_stride a) (ca_dil a) (ca_pad a) (ca_pad_end a) ks.
Proof. intros Hx Hw. unfold conv. cbn [tshape]. rewrite Hx, Hw. reflexivity. Qed.

(** VALID operator on the padded NHWC operand *)
Lemma op_valid_shape F cout stride dil ks xp x N C dims pad :
  nhwc_of xp x N C dims pad -> conv_axes dims ks stride dil pad ->
  tshape (op_valid F cout stride dil ks xp : tensor R) = N :: out_dims dims stride dil pad pad ks ++ [cout].
Proof.
  intros (Hs & _) Hok. unfold op_valid, windowed. cbn [tshape]. rewrite Hs. cbn [tl nth]. rewrite removelast_snoc.
  rewrite sym_outs by auto. reflexivity.
Qed.
Lemma op_valid_get (F : nat -> list (list (option R)) -> R) cout stride dil ks xp x N C dims pad n pos o :
  nhwc_of xp x N C dims pad -> conv_axes dims ks stride dil pad -> (n < N)%nat ->
  valid (out_dims dims stride dil pad pad ks) pos ->
  tget (op_valid F cout stride dil ks xp) (n :: pos ++ [o]) =
  F o (map (fun k => map (fun c => Some (read0 x n c (tap dims stride dil pad pos k))) (seq 0 C)) (indices ks)).
Proof.
  intros Hn Hok H V. unfold op_valid. rewrite windowed_get. f_equal.
  replace (removelast (tl (tshape xp))) with (pad_shape dims (sym pad)).
  - eapply nhwc_window; eauto.
  - destruct Hn as [Hs _]. rewrite Hs. cbn [tl]. now rewrite removelast_snoc.
Qed.

(** what a well-formed torch convolution looks like *)
Lemma conv_bias_ok n bias : (forall l, bias = Some l -> length l = n) -> conv_bias n bias = Some (bias_of bias).
Proof. intro H. destruct bias as [l|]; [|reflexivity]. cbn. rewrite (H l eq_refl), Nat.eqb_refl. reflexivity. Qed.

Lemma list2 {A} (l : list A) : length l = 2%nat -> exists a b, l = [a; b].
Proof. destruct l as [|a [|b [|]]]; try discriminate. eauto. Qed.
Lemma list3 {A} (l : list A) : length l = 3%nat -> exists a b c, l = [a; b; c].
Proof. destruct l as [|a [|b [|c [|]]]]; try discriminate. eauto. Qed.

Lemma valid2 s1 s2 idx : valid [s1; s2] idx -> exists a b, idx = [a; b] /\ (a < s1)%nat /\ (b < s2)%nat.
Proof. intro V. inversion V as [|a ? r ? Ha V1]; subst. inversion V1 as [|b ? r' ? Hb V2]; subst. inversion V2; subst. eauto. Qed.
Lemma valid3 s1 s2 s3 idx : valid [s1; s2; s3] idx ->
  exists a b c, idx = [a; b; c] /\ (a < s1)%nat /\ (b < s2)%nat /\ (c < s3)%nat.
Proof.
  intro V. inversion V as [|a ? r ? Ha V1]; subst. apply valid2 in V1. destruct V1 as (b & c & -> & Hb & Hc). eauto 8.
Qed.

Lemma generic_conv2d groups ipg opg N dims ks stride dil pad act os bias x w :
  conv_wf groups ipg opg N dims ks stride dil pad bias x w -> length dims = 2%nat ->
  exists y, generic_conv stride pad dil groups act os bias x w = Some y /\
            teq y (tmap (act_fn act) (conv (mkCA stride dil pad pad groups) x w (bias_of bias))).
Proof.
  intros [Hx Hw Hok Hg Hi Hb] L. destruct (conv_axes_length _ _ _ _ _ Hok) as (L1 & L2 & L3 & L4). rewrite L in *.
  destruct (list2 _ L) as (d1 & d2 & ->). destruct (list2 _ L1) as (k1 & k2 & ->). destruct (list2 _ L2) as (s1 & s2 & ->).
  destruct (list2 _ L3) as (l1 & l2 & ->). destruct (list2 _ L4) as (p1 & p2 & ->).
  unfold generic_conv. rewrite Hx, Hw. cbn [length Nat.eqb orb andb negb nchw2nhwc nhwc2nchw obind nth].
  rewrite Hx, ?Hw. cbn [length nchw2nhwc nhwc2nchw obind nth].
  set (xt := transpose [0; 2; 3; 1]%nat x). set (xp := if (0 <? list_sum [p1; p2])%nat then _ else xt).
  assert (nhwc_of xp x N (groups * ipg) [d1; d2] [p1; p2]) as Hxp.
  { apply nhwc_padded; [reflexivity| |].
    - unfold xt. cbn [transpose tshape]. rewrite Hx. reflexivity.
    - intros n q c Hn V Hc. apply valid2 in V. destruct V as (a & b & -> & _). reflexivity. }
  assert (last (tshape xp) 0%nat = (groups * ipg)%nat) as -> by (destruct Hxp as [-> _]; reflexivity).
  set (dw := (_ =? 1)%nat && (_ =? groups)%nat). rewrite !andb_false_r.
  destruct dw eqn:E; subst dw.
  - apply andb_prop in E. destruct E as [E1 E2]. apply Nat.eqb_eq in E1, E2. subst ipg.
    assert (opg = 1)%nat by nia. subst opg. rewrite !Nat.mul_1_r in *.
    cbn [orb negb transpose tshape]. rewrite Hw. cbn [sel map nth last tl removelast].
    rewrite conv_bias_ok by auto. cbn [obind]. eexists. split; [reflexivity|]. split.
    + unfold tmap. cbn [transpose tshape]. rewrite (op_valid_shape _ _ _ _ _ _ _ _ _ _ _ Hxp Hok).
      erewrite conv_shape by eauto. reflexivity.
    + intros idx V. unfold tmap in V. cbn [transpose tshape] in V. rewrite (op_valid_shape _ _ _ _ _ _ _ _ _ _ _ Hxp Hok) in V.
      cbn [out_dims app sel map nth] in V. inversion V as [|n ? r ? Hn V1]; subst. inversion V1 as [|o ? r' ? Ho V2]; subst.
      pose proof V2 as V3. apply valid2 in V3. destruct V3 as (a & b & -> & Ha & Hb').
      unfold tmap. cbn [transpose tget]. f_equal.
      change (sel [n; o; a; b] (inv_perm [0; 3; 1; 2]%nat)) with (n :: [a; b] ++ [o]).
      erewrite op_valid_get by eauto. erewrite conv_get by eauto. cbn [ca_groups ca_stride ca_dil ca_pad].
      apply depthwise_kernel_at; auto.
      * cbn [transpose tshape]. rewrite Hw. reflexivity.
      * intros k Hk. apply valid2 in Hk. destruct Hk as (u & v & -> & _). reflexivity.
  - cbn [orb negb transpose tshape]. rewrite Hw. cbn [sel map nth last tl removelast].
    rewrite conv_bias_ok by auto. cbn [obind]. eexists. split; [reflexivity|]. split.
    + unfold tmap. cbn [transpose tshape]. rewrite (op_valid_shape _ _ _ _ _ _ _ _ _ _ _ Hxp Hok).
      erewrite conv_shape by eauto. reflexivity.
    + intros idx V. unfold tmap in V. cbn [transpose tshape] in V. rewrite (op_valid_shape _ _ _ _ _ _ _ _ _ _ _ Hxp Hok) in V.
      cbn [out_dims app sel map nth] in V. inversion V as [|n ? r ? Hn V1]; subst. inversion V1 as [|o ? r' ? Ho V2]; subst.
      pose proof V2 as V3. apply valid2 in V3. destruct V3 as (a & b & -> & Ha & Hb').
      unfold tmap. cbn [transpose tget]. f_equal.
      change (sel [n; o; a; b] (inv_perm [0; 3; 1; 2]%nat)) with (n :: [a; b] ++ [o]).
      erewrite op_valid_get by eauto. erewrite conv_get by eauto. cbn [ca_groups ca_stride ca_dil ca_pad].
      apply conv_kernel_at; auto.
      * cbn [transpose tshape]. rewrite Hw. reflexivity.
      * intros i k Hik Hk. apply valid2 in Hk. destruct Hk as (u & v & -> & _). reflexivity.
Qed.

Lemma generic_conv3d cin cout N dims ks stride dil pad act os bias x w :
  conv_wf 1 cin cout N dims ks stride dil pad bias x w -> length dims = 3%nat ->
  ~ (cin = 1%nat /\ cout = 1%nat) ->
  exists y, generic_conv stride pad dil 1 act os bias x w = Some y /\
            teq y (tmap (act_fn act) (conv (mkCA stride dil pad pad 1) x w (bias_of bias))).
Proof.
  intros [Hx Hw Hok Hg Hi Hb] L Hne. destruct (conv_axes_length _ _ _ _ _ Hok) as (L1 & L2 & L3 & L4). rewrite L in *.
  destruct (list3 _ L) as (d1 & d2 & d3 & ->). destruct (list3 _ L1) as (k1 & k2 & k3 & ->).
  destruct (list3 _ L2) as (s1 & s2 & s3 & ->). destruct (list3 _ L3) as (l1 & l2 & l3 & ->).
  destruct (list3 _ L4) as (p1 & p2 & p3 & ->). rewrite !Nat.mul_1_l in *.
  unfold generic_conv. rewrite Hx, Hw. cbn [length Nat.eqb orb andb negb nchw2nhwc nhwc2nchw obind nth].
  rewrite Hx, ?Hw. cbn [length nchw2nhwc nhwc2nchw obind nth].
  set (dw := (cin =? 1)%nat && (cout =? 1)%nat).
  assert (dw = false) as Ed.
  { unfold dw. destruct (Nat.eqb_spec cin 1), (Nat.eqb_spec cout 1); cbn; auto. tauto. }
  rewrite Ed. cbn [andb orb negb].
  set (xt := transpose [0; 2; 3; 4; 1]%nat x). set (xp := if (0 <? list_sum [p1; p2; p3])%nat then _ else xt).
  assert (nhwc_of xp x N cin [d1; d2; d3] [p1; p2; p3]) as Hxp.
  { apply nhwc_padded; [reflexivity| |].
    - unfold xt. cbn [transpose tshape]. rewrite Hx. reflexivity.
    - intros n q c Hn V Hc. apply valid3 in V. destruct V as (a & b & d & -> & _). reflexivity. }
  cbn [transpose tshape]. rewrite Hw. cbn [sel map nth last tl removelast firstn].
  rewrite conv_bias_ok by auto. cbn [obind]. eexists. split; [reflexivity|]. split.
  - unfold tmap. cbn [transpose tshape]. rewrite (op_valid_shape _ _ _ _ _ _ _ _ _ _ _ Hxp Hok).
    erewrite conv_shape by eauto. reflexivity.
  - intros idx V. unfold tmap in V. cbn [transpose tshape] in V. rewrite (op_valid_shape _ _ _ _ _ _ _ _ _ _ _ Hxp Hok) in V.
    cbn [out_dims app sel map nth] in V. inversion V as [|n ? r ? Hn V1]; subst. inversion V1 as [|o ? r' ? Ho V2]; subst.
    pose proof V2 as V3. apply valid3 in V3. destruct V3 as (a & b & d & -> & Ha & Hb' & Hd).
    unfold tmap. cbn [transpose tget]. f_equal.
    change (sel [n; o; a; b; d] (inv_perm [0; 4; 1; 2; 3]%nat)) with (n :: [a; b; d] ++ [o]).
    erewrite op_valid_get by eauto. erewrite conv_get by eauto. cbn [ca_groups ca_stride ca_dil ca_pad].
    apply conv3d_kernel_at; auto.
    + cbn [transpose tshape]. rewrite Hw. reflexivity.
    + intros i k Hik Hk. apply valid3 in Hk. destruct Hk as (u & v & t & -> & _). reflexivity.
Qed.

(** ** One-dimensional convolutions *)
Lemma list1 {A} (l : list A) : length l = 1%nat -> exists a, l = [a].
Proof. destruct l as [|a [|]]; try discriminate. eauto. Qed.
Lemma valid1 s1 idx : valid [s1] idx -> exists a, idx = [a] /\ (a < s1)%nat.
Proof. intro V. inversion V as [|a ? r ? Ha V1]; subst. inversion V1; subst. eauto. Qed.

Lemma expand2_get {A} (t : tensor A) a b c N C L : tshape t = [N; C; L] -> (a < N)%nat -> (b < C)%nat -> (c < L)%nat ->
  tget (expand2 t) [a; b; 0%nat; c] = tget t [a; b; c].
Proof.
  intros E Ha Hb Hc. unfold expand2. change [a; b; 0%nat; c] with (insert_at 2 0 [a; b; c]). apply reshape_up.
  rewrite E. repeat constructor; auto.
Qed.

Lemma conv_at_expand groups w x s l p d k ipg cout N C n o a :
  tshape x = [N; C; d] -> tshape w = [cout; ipg; k] -> (n < N)%nat -> (o < cout)%nat ->
  (forall i, (i < ipg)%nat -> (o / (cout / groups) * ipg + i < C)%nat) ->
  conv_at groups (expand2 w) [1; s]%nat [1; l]%nat [0; p]%nat [1; d]%nat [1; k]%nat (expand2 x) ipg cout n o [0%nat; a] =
  conv_at groups w [s] [l] [p] [d] [k] x ipg cout n o [a].
Proof.
  intros Hx Hw Hn Ho HC. unfold conv_at. apply lsum_ext. intros i Hi. apply in_seq in Hi.
  change (indices [1%nat; k]) with (map (cons 0%nat) (indices [k]) ++ []). rewrite app_nil_r, lsum_map. apply lsum_ext.
  intros kk Hk. apply indices_valid in Hk. apply valid1 in Hk. destruct Hk as (t & -> & Ht).
  rewrite (expand2_get w _ _ _ _ _ _ Hw) by (auto; lia). f_equal.
  cbn [tap]. change (0 * 1 + 0 * 1)%nat with 0%nat. change ((0 <=? 0)%nat && (0 - 0 <? 1)%nat) with true. cbv beta iota.
  destruct ((p <=? a * s + t * l)%nat && (a * s + t * l - p <? d)%nat) eqn:E; cbn [option_map read0]; [|reflexivity].
  apply andb_prop in E. destruct E as [_ E]. apply Nat.ltb_lt in E.
  apply (expand2_get x _ _ _ _ _ _ Hx); auto. apply HC. lia.
Qed.

Lemma generic_conv1d groups ipg opg N dims ks stride dil pad act bias x w :
  conv_wf groups ipg opg N dims ks stride dil pad bias x w -> length dims = 1%nat ->
  let ref := conv (mkCA stride dil pad pad groups) x w (bias_of bias) in
  exists y, generic_conv stride pad dil groups act (tshape ref) bias x w = Some y /\ teq y (tmap (act_fn act) ref).
Proof.
  intros W L ref. pose proof W as [Hx Hw Hok Hg Hi Hb].
  destruct (conv_axes_length _ _ _ _ _ Hok) as (L1 & L2 & L3 & L4). rewrite L in *.
  destruct (list1 _ L) as (d & ->). destruct (list1 _ L1) as (k & ->). destruct (list1 _ L2) as (s & ->).
  destruct (list1 _ L3) as (l & ->). destruct (list1 _ L4) as (p & ->).
  assert (tshape (expand2 x) = [N; (groups * ipg)%nat; 1%nat; d]) as Hx2.
  { unfold expand2. cbn [reshape tshape]. rewrite Hx. reflexivity. }
  assert (tshape (expand2 w) = [(groups * opg)%nat; ipg; 1%nat; k]) as Hw2.
  { unfold expand2. cbn [reshape tshape]. rewrite Hw. reflexivity. }
  assert (conv_wf groups ipg opg N [1; d]%nat [1; k]%nat [1; s]%nat [1; l]%nat [0; p]%nat bias (expand2 x) (expand2 w)) as W2.
  { constructor; auto. cbn [conv_axes]. cbn [conv_axes] in Hok. repeat split; try lia; tauto. }
  destruct (generic_conv2d _ _ _ _ _ _ _ _ _ act (tshape ref) _ _ _ W2 eq_refl) as (y & Ey & Ty).
  exists (reshape (tshape ref) y). split.
  - unfold generic_conv in *. rewrite Hx2, Hw2 in Ey. rewrite Hx, Hw.
    cbn [length Nat.eqb orb andb negb] in *. rewrite Hx2, ?Hw2 in *.
    destruct ((nth 1 [(groups * opg)%nat; ipg; 1%nat; k] 0%nat =? 1)%nat && _) eqn:Ed;
      cbn [andb orb negb length nchw2nhwc nhwc2nchw obind] in *;
      destruct (conv_bias _ bias); cbn [obind] in *; try discriminate; injection Ey as <-; reflexivity.
  - assert (tshape ref = [N; (groups * opg)%nat; out_dim d s l p p k]) as Hr.
    { unfold ref. erewrite conv_shape by eauto. reflexivity. }
    assert (tshape y = insert_at 2 1 (tshape ref)) as Hy.
    { destruct Ty as [Ts _]. rewrite Ts. unfold tmap. cbn [tshape]. erewrite conv_shape by eauto. rewrite Hr.
      cbn [ca_stride ca_dil ca_pad ca_pad_end out_dims insert_at firstn skipn app]. unfold out_dim at 1. reflexivity. }
    split; [reflexivity|]. intros idx V. change (tshape (reshape (tshape ref) y)) with (tshape ref) in V.
    rewrite (reshape_down y 2 (tshape ref) idx Hy V). destruct Ty as [Ts Tg].
    rewrite Tg by (rewrite Hy; now apply valid_insert). rewrite Hr in V.
    apply valid3 in V. destruct V as (n & o & a & -> & Hn & Ho & Ha). unfold tmap. cbn [tget]. f_equal.
    change (insert_at 2 0 [n; o; a]) with [n; o; 0%nat; a]. unfold ref.
    erewrite !conv_get by eauto. cbn [ca_groups ca_stride ca_dil ca_pad]. f_equal.
    eapply conv_at_expand; eauto. intros i Hii. rewrite (Nat.mul_comm groups opg), Nat.div_mul by lia. apply group_channel; lia.
Qed.

(* ------------------------------------------------------------------ *)
(** * Transposed convolutions *)

Definition deconv_at (w x : tensor R) (stride dil pad dims ks : list nat) (cin n o : nat) (pos : list nat) : R :=
  lsum (seq 0 cin) (fun i => lsum (indices ks) (fun k => lsum (indices dims) (fun q =>
    if hits stride dil pad q k pos then tget w (i :: o :: k) * tget x (n :: i :: q) else 0))).

Lemma deconv_get stride dil pad pe oshape x w b N cin dims cout ks n o pos :
  tshape x = N :: cin :: dims -> tshape w = cin :: cout :: ks -> (o < cout)%nat ->
  tget (deconv (mkCA stride dil pad pe 1) oshape x w b) (n :: o :: pos) =
  b o + deconv_at w x stride dil pad dims ks cin n o pos.
Proof.
  intros Hx Hw Ho. unfold deconv, deconv_at. cbn [tget ca_stride ca_dil ca_pad ca_groups]. rewrite Hx, Hw.
  cbn [nth]. change (skipn 2 (cin :: cout :: ks)) with ks. change (skipn 2 (N :: cin :: dims)) with dims.
  rewrite Nat.div_1_r, Nat.div_small, Nat.mod_small by auto. reflexivity.
Qed.
Lemma deconv_shape a oshape x w b N cin dims cout ks :
  tshape x = N :: cin :: dims -> tshape w = cin :: cout :: ks -> ca_groups a = 1%nat ->
  tshape (deconv a oshape x w b) = N :: cout :: oshape.
Proof. intros Hx Hw Hg. unfold deconv. cbn [tshape]. rewrite Hx, Hw, Hg. cbn [nth]. rewrite Nat.mul_1_r. reflexivity. Qed.

Lemma hits_shift stride dil pad q k pos : length pad = length pos ->
  hits stride dil (map (fun _ => 0%nat) (zip_plus pad pos)) q k (zip_plus pad pos) = hits stride dil pad q k pos.
Proof.
  revert stride dil q k pos. induction pad as [|p pad IH];
    intros [|s stride] [|l dil] [|i q] [|t k] [|o pos] H; simpl in H; try discriminate; try reflexivity.
  cbn [zip_plus map hits]. rewrite IH by lia. f_equal. f_equal. lia.
Qed.

Lemma lite_deconv_at wt ks b stride dil vs xt x w N cin dims n o pos :
  tshape xt = N :: dims ++ [cin] ->
  (forall q c, valid dims q -> (c < cin)%nat -> tget xt (n :: q ++ [c]) = tget x (n :: c :: q)) ->
  (forall i k, (i < cin)%nat -> valid ks k -> wt o i k = tget w (i :: o :: k)) ->
  tget (lite_deconv wt ks b stride dil vs xt) (n :: pos ++ [o]) =
  b o + deconv_at w x stride dil (map (fun _ => 0%nat) pos) dims ks cin n o pos.
Proof.
  intros Hs Hx Hw. unfold lite_deconv, deconv_at. cbn [tget nth tl]. rewrite Hs, !last_full. cbn [tl].
  rewrite !removelast_snoc. f_equal.
  transitivity (lsum (indices dims) (fun q => lsum (indices ks) (fun k => lsum (seq 0 cin) (fun i =>
    if hits stride dil (map (fun _ => 0%nat) pos) q k pos then tget w (i :: o :: k) * tget x (n :: i :: q) else 0)))).
  - apply lsum_ext. intros q Hq. apply indices_valid in Hq. apply lsum_ext. intros k Hk. apply indices_valid in Hk.
    destruct (hits _ _ _ _ _ _); [|symmetry; apply lsum_zero; auto].
    apply lsum_ext. intros i Hi. apply in_seq in Hi. rewrite Hw, Hx by (auto; lia). reflexivity.
  - transitivity (lsum (indices dims) (fun q => lsum (seq 0 cin) (fun i => lsum (indices ks) (fun k =>
      if hits stride dil (map (fun _ => 0%nat) pos) q k pos then tget w (i :: o :: k) * tget x (n :: i :: q) else 0)))).
    + apply lsum_ext. intros q _. apply lsum_swap.
    + rewrite lsum_swap. apply lsum_ext. intros i _. apply lsum_swap.
Qed.

Lemma pad_zero_sum2 p1 p2 : (0 <? list_sum [p1; p2])%nat = false -> p1 = 0%nat /\ p2 = 0%nat.
Proof. intro H. apply Nat.ltb_ge in H. cbn in H. lia. Qed.
Lemma pad_zero_sum3 p1 p2 p3 : (0 <? list_sum [p1; p2; p3])%nat = false -> p1 = 0%nat /\ p2 = 0%nat /\ p3 = 0%nat.
Proof. intro H. apply Nat.ltb_ge in H. cbn in H. lia. Qed.

Lemma generic_deconv2d cin cout N dims ks stride pad odims act with_bias bias x w :
  let dil := map (fun _ => 1%nat) dims in
  deconv_wf cin cout N dims ks stride dil pad odims bias x w -> length dims = 2%nat ->
  with_bias = true \/ act = ANone ->
  exists y, generic_deconv stride pad dil act with_bias (N :: cout :: odims) bias x w = Some y /\
            teq y (tmap (act_fn act) (deconv (mkCA stride dil pad pad 1) odims x w (bias_of bias))).
Proof.
  intros dil [Hx Hw (L1 & L2 & L3 & L4 & L5) Hb] L Hact. unfold dil in *. clear dil. rewrite L in *.
  destruct (list2 _ L) as (d1 & d2 & ->). destruct (list2 _ L1) as (k1 & k2 & ->). destruct (list2 _ L2) as (s1 & s2 & ->).
  destruct (list2 _ L4) as (p1 & p2 & ->). destruct (list2 _ L5) as (o1 & o2 & ->).
  unfold generic_deconv. rewrite Hx, Hw. cbn [length Nat.eqb orb andb negb map forallb nchw2nhwc nhwc2nchw obind nth].
  rewrite Hx. cbn [length nchw2nhwc nhwc2nchw obind nth]. rewrite conv_bias_ok by auto. cbn [obind].
  eexists. split; [reflexivity|].
  set (wr := transpose [1; 2; 3; 0]%nat w). set (xt := transpose [0; 2; 3; 1]%nat x).
  assert (removelast (tl (tshape wr)) = [k1; k2]) as -> by (unfold wr; cbn [transpose tshape]; rewrite Hw; reflexivity).
  assert (tshape xt = N :: [d1; d2] ++ [cin]) as Hxt by (unfold xt; cbn [transpose tshape]; rewrite Hx; reflexivity).
  cbn [sel map nth]. split.
  - unfold tmap. cbn [tshape]. erewrite deconv_shape by eauto.
    destruct with_bias, (0 <? list_sum [p1; p2])%nat; reflexivity.
  - intros idx V.
    assert (valid [N; cout; o1; o2] idx) as V'.
    { revert V. destruct with_bias, (0 <? list_sum [p1; p2])%nat; exact (fun V => V). }
    inversion V' as [|n ? r ? Hn V1]; subst. inversion V1 as [|o ? r' ? Ho V2]; subst.
    apply valid2 in V2. destruct V2 as (a & b & -> & Ha & Hb').
    assert (forall kb vs pos, tget (lite_deconv (deconv2d_weight wr) [k1; k2] kb (spatial true [s1; s2]) (spatial true [1; 1]%nat) vs xt)
               (n :: pos ++ [o]) = kb o + deconv_at w x [s1; s2] [1; 1]%nat (map (fun _ => 0%nat) pos) [d1; d2] [k1; k2] cin n o pos) as HD.
    { intros kb vs pos. change (spatial true [s1; s2]) with [s1; s2]. change (spatial true [1; 1]%nat) with [1; 1]%nat.
      apply (lite_deconv_at _ _ _ _ _ _ _ _ _ _ _ _ _ _ _ Hxt).
      - intros q c Vq Hc. apply valid2 in Vq. destruct Vq as (u & v & -> & _). reflexivity.
      - intros i k Hi Hk. apply valid2 in Hk. destruct Hk as (u & v & -> & _). reflexivity. }
    match goal with |- _ = tget (tmap ?f ?D) ?i => change (tget (tmap f D) i) with (f (tget D i)) end.
    erewrite deconv_get by eauto.
    destruct (0 <? list_sum [p1; p2])%nat eqn:Ep.
    + assert (deconv_at w x [s1; s2] [1; 1]%nat (map (fun _ => 0%nat) (zip_plus [p1; p2] [a; b])) [d1; d2] [k1; k2] cin n o (zip_plus [p1; p2] [a; b])
            = deconv_at w x [s1; s2] [1; 1]%nat [p1; p2] [d1; d2] [k1; k2] cin n o [a; b]) as HE.
      { unfold deconv_at. apply lsum_ext. intros i _. apply lsum_ext. intros k _. apply lsum_ext. intros q _.
        rewrite hits_shift by reflexivity. reflexivity. }
      destruct with_bias.
      * cbn [transpose tget slice_op tmap]. change (sel [n; o; a; b] (inv_perm [0; 3; 1; 2]%nat)) with [n; a; b; o].
        change (zip_plus (0%nat :: spatial true [p1; p2] ++ [0%nat]) [n; a; b; o]) with (n :: zip_plus [p1; p2] [a; b] ++ [o]).
        rewrite HD, HE. reflexivity.
      * destruct Hact as [Hact| ->]; [discriminate|]. cbn [transpose tget tshape slice_op tmap act_fn].
        change (sel [n; o; a; b] (inv_perm [0; 3; 1; 2]%nat)) with [n; a; b; o].
        change (zip_plus (0%nat :: spatial true [p1; p2] ++ [0%nat]) [n; a; b; o]) with (n :: zip_plus [p1; p2] [a; b] ++ [o]).
        rewrite HD, HE. cbn [last]. ring.
    + apply pad_zero_sum2 in Ep. destruct Ep as [-> ->]. destruct with_bias.
      * cbn [transpose tget slice_op tmap]. change (sel [n; o; a; b] (inv_perm [0; 3; 1; 2]%nat)) with (n :: [a; b] ++ [o]).
        rewrite HD. reflexivity.
      * destruct Hact as [Hact| ->]; [discriminate|]. cbn [transpose tget tshape slice_op tmap act_fn].
        change (sel [n; o; a; b] (inv_perm [0; 3; 1; 2]%nat)) with (n :: [a; b] ++ [o]).
        rewrite HD. cbn [last app map]. ring.
Qed.

Lemma generic_deconv3d cin cout N dims ks stride dil pad odims act with_bias bias x w :
  deconv_wf cin cout N dims ks stride dil pad odims bias x w -> length dims = 3%nat ->
  with_bias = true \/ act = ANone ->
  exists y, generic_deconv stride pad dil act with_bias (N :: cout :: odims) bias x w = Some y /\
            teq y (tmap (act_fn act) (deconv (mkCA stride dil pad pad 1) odims x w (bias_of bias))).
Proof.
  intros [Hx Hw (L1 & L2 & L3 & L4 & L5) Hb] L Hact.  rewrite L in *.
  destruct (list3 _ L) as (d1 & d2 & d3 & ->). destruct (list3 _ L3) as (l1 & l2 & l3 & ->). destruct (list3 _ L1) as (k1 & k2 & k3 & ->). destruct (list3 _ L2) as (s1 & s2 & s3 & ->).
  destruct (list3 _ L4) as (p1 & p2 & p3 & ->). destruct (list3 _ L5) as (o1 & o2 & o3 & ->).
  unfold generic_deconv. rewrite Hx, Hw. cbn [length Nat.eqb orb andb negb map forallb nchw2nhwc nhwc2nchw obind nth].
  rewrite Hx. cbn [length nchw2nhwc nhwc2nchw obind nth]. rewrite conv_bias_ok by auto. cbn [obind].
  eexists. split; [reflexivity|].
  set (wr := transpose [2; 3; 4; 1; 0]%nat w). set (xt := transpose [0; 2; 3; 4; 1]%nat x).
  assert (firstn 3 (tshape wr) = [k1; k2; k3]) as -> by (unfold wr; cbn [transpose tshape]; rewrite Hw; reflexivity).
  assert (tshape xt = N :: [d1; d2; d3] ++ [cin]) as Hxt by (unfold xt; cbn [transpose tshape]; rewrite Hx; reflexivity).
  cbn [sel map nth]. split.
  - unfold tmap. cbn [tshape]. erewrite deconv_shape by eauto.
    destruct with_bias, (0 <? list_sum [p1; p2; p3])%nat; reflexivity.
  - intros idx V.
    assert (valid [N; cout; o1; o2; o3] idx) as V'.
    { revert V. destruct with_bias, (0 <? list_sum [p1; p2; p3])%nat; exact (fun V => V). }
    inversion V' as [|n ? r ? Hn V1]; subst. inversion V1 as [|o ? r' ? Ho V2]; subst.
    apply valid3 in V2. destruct V2 as (a & b & c & -> & Ha & Hb' & Hc').
    assert (forall kb vs pos, tget (lite_deconv (deconv3d_weight wr) [k1; k2; k3] kb (spatial false [s1; s2; s3]) (spatial false [l1; l2; l3]) vs xt)
               (n :: pos ++ [o]) = kb o + deconv_at w x [s1; s2; s3] [l1; l2; l3] (map (fun _ => 0%nat) pos) [d1; d2; d3] [k1; k2; k3] cin n o pos) as HD.
    { intros kb vs pos. change (spatial false [s1; s2; s3]) with [s1; s2; s3]. change (spatial false [l1; l2; l3]) with [l1; l2; l3].
      apply (lite_deconv_at _ _ _ _ _ _ _ _ _ _ _ _ _ _ _ Hxt).
      - intros q cc Vq Hcc. apply valid3 in Vq. destruct Vq as (u & v & t & -> & _). reflexivity.
      - intros i k Hi Hk. apply valid3 in Hk. destruct Hk as (u & v & t & -> & _). reflexivity. }
    match goal with |- _ = tget (tmap ?f ?D) ?i => change (tget (tmap f D) i) with (f (tget D i)) end.
    erewrite deconv_get by eauto.
    destruct (0 <? list_sum [p1; p2; p3])%nat eqn:Ep.
    + assert (deconv_at w x [s1; s2; s3] [l1; l2; l3] (map (fun _ => 0%nat) (zip_plus [p1; p2; p3] [a; b; c])) [d1; d2; d3] [k1; k2; k3] cin n o (zip_plus [p1; p2; p3] [a; b; c])
            = deconv_at w x [s1; s2; s3] [l1; l2; l3] [p1; p2; p3] [d1; d2; d3] [k1; k2; k3] cin n o [a; b; c]) as HE.
      { unfold deconv_at. apply lsum_ext. intros i _. apply lsum_ext. intros k _. apply lsum_ext. intros q _.
        rewrite hits_shift by reflexivity. reflexivity. }
      destruct with_bias.
      * cbn [transpose tget slice_op tmap]. change (sel [n; o; a; b; c] (inv_perm [0; 4; 1; 2; 3]%nat)) with [n; a; b; c; o].
        change (zip_plus (0%nat :: spatial false [p1; p2; p3] ++ [0%nat]) [n; a; b; c; o]) with (n :: zip_plus [p1; p2; p3] [a; b; c] ++ [o]).
        rewrite HD, HE. reflexivity.
      * destruct Hact as [Hact| ->]; [discriminate|]. cbn [transpose tget tshape slice_op tmap act_fn].
        change (sel [n; o; a; b; c] (inv_perm [0; 4; 1; 2; 3]%nat)) with [n; a; b; c; o].
        change (zip_plus (0%nat :: spatial false [p1; p2; p3] ++ [0%nat]) [n; a; b; c; o]) with (n :: zip_plus [p1; p2; p3] [a; b; c] ++ [o]).
        rewrite HD, HE. cbn [last]. ring.
    + apply pad_zero_sum3 in Ep. destruct Ep as (-> & -> & ->). destruct with_bias.
      * cbn [transpose tget slice_op tmap]. change (sel [n; o; a; b; c] (inv_perm [0; 4; 1; 2; 3]%nat)) with (n :: [a; b; c] ++ [o]).
        rewrite HD. reflexivity.
      * destruct Hact as [Hact| ->]; [discriminate|]. cbn [transpose tget tshape slice_op tmap act_fn].
        change (sel [n; o; a; b; c] (inv_perm [0; 4; 1; 2; 3]%nat)) with (n :: [a; b; c] ++ [o]).
        rewrite HD. cbn [last app map]. ring.
Qed.

Lemma deconv_at_expand w x s p d k cin cout N n o a :
  tshape x = [N; cin; d] -> tshape w = [cin; cout; k] -> (n < N)%nat -> (o < cout)%nat ->
  deconv_at (expand2 w) (expand2 x) [1; s]%nat [1; 1]%nat [0; p]%nat [1; d]%nat [1; k]%nat cin n o [0%nat; a] =
  deconv_at w x [s] [1]%nat [p] [d] [k] cin n o [a].
Proof.
  intros Hx Hw Hn Ho. unfold deconv_at. apply lsum_ext. intros i Hi. apply in_seq in Hi.
  change (indices [1%nat; k]) with (map (cons 0%nat) (indices [k]) ++ []). rewrite app_nil_r, lsum_map. apply lsum_ext.
  intros kk Hk. apply indices_valid in Hk. apply valid1 in Hk. destruct Hk as (t & -> & Ht).
  change (indices [1%nat; d]) with (map (cons 0%nat) (indices [d]) ++ []). rewrite app_nil_r, lsum_map. apply lsum_ext.
  intros q Hq. apply indices_valid in Hq. apply valid1 in Hq. destruct Hq as (u & -> & Hu).
  rewrite (expand2_get w _ _ _ _ _ _ Hw), (expand2_get x _ _ _ _ _ _ Hx) by (auto; lia).
  cbn [hits]. change (0 * 1 + 0 * 1 =? 0 + 0)%nat with true. reflexivity.
Qed.

Lemma generic_deconv1d cin cout N dims ks stride pad odims act with_bias bias x w :
  let dil := map (fun _ => 1%nat) dims in
  deconv_wf cin cout N dims ks stride dil pad odims bias x w -> length dims = 1%nat ->
  with_bias = true \/ act = ANone ->
  exists y, generic_deconv stride pad dil act with_bias (N :: cout :: odims) bias x w = Some y /\
            teq y (tmap (act_fn act) (deconv (mkCA stride dil pad pad 1) odims x w (bias_of bias))).
Proof.
  intros dil W L Hact. pose proof W as [Hx Hw (L1 & L2 & L3 & L4 & L5) Hb]. unfold dil in *. clear dil. rewrite L in *.
  destruct (list1 _ L) as (d & ->). destruct (list1 _ L1) as (k & ->). destruct (list1 _ L2) as (s & ->).
  destruct (list1 _ L4) as (p & ->). destruct (list1 _ L5) as (ol & ->).
  assert (tshape (expand2 x) = [N; cin; 1%nat; d]) as Hx2.
  { unfold expand2. cbn [reshape tshape]. rewrite Hx. reflexivity. }
  assert (tshape (expand2 w) = [cin; cout; 1%nat; k]) as Hw2.
  { unfold expand2. cbn [reshape tshape]. rewrite Hw. reflexivity. }
  assert (deconv_wf cin cout N [1; d]%nat [1; k]%nat [1; s]%nat (map (fun _ => 1%nat) [1; d]%nat) [0; p]%nat [1; ol]%nat bias (expand2 x) (expand2 w)) as W2.
  { constructor; auto. }
  destruct (generic_deconv2d _ _ _ _ _ _ _ _ act with_bias _ _ _ W2 eq_refl Hact) as (y & Ey & Ty).
  exists (reshape [N; cout; ol] y). split.
  - unfold generic_deconv in *. rewrite Hx2, Hw2 in Ey. rewrite Hx, Hw.
    cbn [length Nat.eqb orb andb negb map forallb insert_at firstn skipn app nth] in *. rewrite Hx2 in *.
    cbn [andb orb negb length nchw2nhwc nhwc2nchw obind] in *.
    destruct (conv_bias _ bias); cbn [obind] in *; try discriminate; injection Ey as <-; reflexivity.
  - assert (tshape y = insert_at 2 1 [N; cout; ol]) as Hy.
    { destruct Ty as [Ts _]. rewrite Ts. unfold tmap. cbn [tshape]. erewrite deconv_shape by eauto. reflexivity. }
    split; [unfold tmap; cbn [tshape reshape]; erewrite deconv_shape by eauto; reflexivity|].
    intros idx V. change (tshape (reshape [N; cout; ol] y)) with [N; cout; ol] in V.
    rewrite (reshape_down y 2 _ idx Hy V). destruct Ty as [Ts Tg].
    rewrite Tg by (rewrite Hy; now apply valid_insert).
    apply valid3 in V. destruct V as (n & o & a & -> & Hn & Ho & Ha). unfold tmap. cbn [tget]. f_equal.
    change (insert_at 2 0 [n; o; a]) with [n; o; 0%nat; a].
    erewrite !deconv_get by eauto. f_equal. eapply deconv_at_expand; eauto.
Qed.

(* ------------------------------------------------------------------ *)
(** * All ranks *)

Lemma generic_conv_correct groups ipg opg N dims ks stride dil pad act bias x w :
  conv_wf groups ipg opg N dims ks stride dil pad bias x w ->
  length dims = 1%nat \/ length dims = 2%nat \/
    (length dims = 3%nat /\ groups = 1%nat /\ ~ (ipg = 1%nat /\ opg = 1%nat)) ->
  let ref := conv (mkCA stride dil pad pad groups) x w (bias_of bias) in
  exists y, generic_conv stride pad dil groups act (tshape ref) bias x w = Some y /\ teq y (tmap (act_fn act) ref).
Proof.
  intros W [L|[L|(L & -> & Hne)]] ref.
  - eapply generic_conv1d; eauto.
  - eapply generic_conv2d; eauto.
  - eapply generic_conv3d; eauto.
Qed.

Lemma generic_conv3d_none : exists groups ipg opg N dims ks stride dil pad bias x w,
  conv_wf groups ipg opg N dims ks stride dil pad bias x w /\ length dims = 3%nat /\ groups = 1%nat /\
  forall act oshape, generic_conv stride pad dil groups act oshape bias x w = None.
Proof.
  exists 1%nat, 1%nat, 1%nat, 1%nat, [2; 2; 2]%nat, [1; 1; 1]%nat, [1; 1; 1]%nat, [1; 1; 1]%nat, [0; 0; 0]%nat, None,
    (mkT [1; 1; 2; 2; 2]%nat (fun _ => 1)), (mkT [1; 1; 1; 1; 1]%nat (fun _ => 1)).
  split; [|split; [reflexivity|split; [reflexivity|intros; reflexivity]]].
  constructor; try reflexivity; try lia; try discriminate. cbn [conv_axes]. repeat split; lia.
Qed.

Lemma generic_deconv_correct cin cout N dims ks stride dil pad odims act with_bias bias x w :
  deconv_wf cin cout N dims ks stride dil pad odims bias x w ->
  length dims = 1%nat \/ length dims = 2%nat \/ length dims = 3%nat ->
  length dims = 3%nat \/ dil = map (fun _ => 1%nat) dims ->
  with_bias = true \/ act = ANone ->
  let ref := deconv (mkCA stride dil pad pad 1) odims x w (bias_of bias) in
  exists y, generic_deconv stride pad dil act with_bias (tshape ref) bias x w = Some y /\ teq y (tmap (act_fn act) ref).
Proof.
  intros W L Hd Hact ref.
  assert (tshape ref = N :: cout :: odims) as ->.
  { unfold ref. destruct W as [Hx Hw _ _]. eapply deconv_shape; eauto. }
  destruct L as [L|[L|L]].
  - destruct Hd as [Hd| ->]; [lia|]. apply (generic_deconv1d _ _ _ _ _ _ _ _ act with_bias _ _ _ W L Hact).
  - destruct Hd as [Hd| ->]; [lia|]. apply (generic_deconv2d _ _ _ _ _ _ _ _ act with_bias _ _ _ W L Hact).
  - eapply generic_deconv3d; eauto.
Qed.

(** the two-axis operator has no dilation *)
Lemma generic_deconv_dilated stride pad dil act with_bias oshape bias x w :
  length (tshape w) = 3%nat \/ length (tshape w) = 4%nat -> forallb (Nat.eqb 1) dil = false ->
  generic_deconv stride pad dil act with_bias oshape bias x w = None.
Proof.
  intros Hw Hd. unfold generic_deconv. cbv beta zeta.
  assert (D : forall b, forallb (Nat.eqb 1) (if b : bool then 1%nat :: dil else dil) = false) by (intros []; [cbn [forallb]; rewrite Hd; reflexivity|exact Hd]).
  destruct Hw as [Hw|Hw]; rewrite Hw; change (3 =? 3)%nat with true; change (4 =? 3)%nat with false; change (4 =? 4)%nat with true; cbn [orb andb];
  destruct (length (tshape x) =? 3)%nat; try reflexivity; first [rewrite (D true)|rewrite (D false)]; reflexivity.
Qed.
