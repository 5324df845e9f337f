(** Proofs about the rewriting of pools, batch normalisation and broadcasting (QRewriteModel). *)
From Coq Require Import String List Arith ZArith Bool Reals Lia Lra.
From Verif Require Import Tensor ConvSpec EltSpec MoveSpec PoolSpec LayoutSpec CatSpec FuseModel QatSpec QRewriteSpec QRewriteModel.
From Verif Require Import FuseMiscProofs PassAxesProofs AtenNormProofs.
Import ListNotations.
Local Open Scope R_scope.

(** ** Pools with windows of one element *)

Lemma pool_out_one ceil d s : (0 < d)%nat -> (0 < s)%nat -> pool_out ceil d 1 s 0 = slice_dim d 0 d s.
Proof.
  intros D S. unfold pool_out, slice_dim, cdiv. rewrite Nat.min_id, Nat.sub_0_r, Nat.add_0_r.
  pose proof (Nat.div_mod (d - 1) s ltac:(lia)) as E. pose proof (Nat.mod_upper_bound (d - 1) s ltac:(lia)) as B.
  assert ((d + s - 1) / s = (d - 1) / s + 1)%nat as ->.
  { replace (d + s - 1)%nat with (d - 1 + 1 * s)%nat by lia. now rewrite Nat.div_add by lia. }
  destruct ceil; cbn [andb].
  - replace (d + 2 * 0 - 1)%nat with (d - 1)%nat by lia. set (q := ((d - 1) / s)%nat) in *.
    destruct (Nat.eq_dec ((d - 1) mod s) 0) as [Z|Z].
    + assert ((d - 1 + (s - 1)) / s = q)%nat as -> by (symmetry; apply Nat.div_unique with (s - 1)%nat; lia).
      replace (q + 1 - 1)%nat with q by lia. destruct (Nat.leb_spec d (q * s)); nia.
    + assert ((d - 1 + (s - 1)) / s = q + 1)%nat as -> by (symmetry; apply Nat.div_unique with ((d - 1) mod s - 1)%nat; lia).
      replace (q + 1 + 1 - 1)%nat with (q + 1)%nat by lia. destruct (Nat.leb_spec d ((q + 1) * s)); nia.
  - replace (d + 2 * 0 - 1 + 0)%nat with (d - 1)%nat by lia. reflexivity.
Qed.
Definition zeros (l : list nat) : list nat := map (fun _ => 0%nat) l.
Lemma zeros_repeat l : zeros l = repeat 0%nat (length l).
Proof. induction l as [|a l IH]; [reflexivity|]. cbn [length repeat]. rewrite <- IH. reflexivity. Qed.
Lemma pool_outs_one ceil dims : forall st, length st = length dims -> Forall (lt 0) dims -> Forall (lt 0) st ->
  pool_outs ceil dims (repeat 1%nat (length dims)) st (repeat 0%nat (length dims)) = slice_shape dims (zeros dims) dims st.
Proof.
  induction dims as [|d dims IH]; intros [|s st] L D S; cbn [length] in L; try discriminate; auto.
  inversion D; subst. inversion S; subst. cbn [repeat length pool_outs zeros map slice_shape]. rewrite pool_out_one by auto.
  f_equal. apply IH; auto.
Qed.
Lemma tap_one dims : forall st pos, length st = length dims -> Forall (lt 0) st -> valid (slice_shape dims (zeros dims) dims st) pos ->
  tap dims st (ones dims) (repeat 0%nat (length dims)) pos (repeat 0%nat (length dims)) = Some (slice_idx pos (zeros dims) st).
Proof.
  induction dims as [|d dims IH]; intros [|s st] pos L S V; cbn [length] in L; try discriminate.
  - inversion V; subst. reflexivity.
  - cbn [zeros map slice_shape] in V. destruct pos as [|o pos]; [inversion V|]. inversion V; subst. inversion S; subst.
    cbn [repeat length ones map tap zeros slice_idx]. rewrite Nat.mul_0_l, Nat.add_0_r, Nat.sub_0_r.
    assert (o * s < d)%nat as Q.
    { unfold slice_dim, cdiv in H2. rewrite Nat.min_id, Nat.sub_0_r in H2.
      pose proof (Nat.mul_div_le (d + s - 1) s ltac:(lia)). nia. }
    replace (0 <=? o * s)%nat with true by (symmetry; apply Nat.leb_le; lia).
    replace (o * s <? d)%nat with true by (symmetry; apply Nat.ltb_lt; lia). cbn [andb].
    change (map (fun _ : nat => 1%nat) dims) with (ones dims). rewrite (IH st pos) by auto. cbn [option_map]. f_equal. f_equal. lia.
Qed.
Lemma indices_ones k : indices (repeat 1%nat k) = [repeat 0%nat k].
Proof. induction k as [|k IH]; auto. cbn [repeat indices]. rewrite IH. reflexivity. Qed.
Lemma zip_zero dims : zip_padded dims (repeat 0%nat (length dims)) = dims.
Proof. induction dims as [|d dims IH]; auto. cbn [length repeat zip_padded]. rewrite IH. f_equal. lia. Qed.

Lemma slice_full d : slice_dim d 0 d 1 = d.
Proof. unfold slice_dim, cdiv. rewrite Nat.min_id, Nat.sub_0_r, Nat.div_1_r. lia. Qed.
Section Pool.
Variables (k : nat) (stride : option sizes) (x : tensor R) (st : list nat).
Hypotheses (Hr : length (tshape x) = (k + 2)%nat) (Hd : Forall (lt 0%nat) (skipn 2 (tshape x))) (Hs : Forall (lt 0%nat) st)
  (Hl : length st = k)
  (Hst : match stride with Some s => per_axis k s | None => repeat 1%nat k end = st)
  (Hlist : forall l, stride = Some (SList l) -> length l = k).

Lemma steps_eq : pool_steps (length (tshape x)) stride = 1%nat :: 1%nat :: st.
Proof.
  unfold pool_steps. rewrite Hr. replace (k + 2 - 2)%nat with k by lia. cbn [app]. f_equal. f_equal.
  rewrite <- Hst. destruct stride as [[n|l]|]; auto. cbn [per_axis]. destruct l as [|a [|b l]]; auto.
  pose proof (Hlist [a] eq_refl) as E. cbn in E. rewrite <- E. reflexivity.
Qed.
Lemma shape_parts : exists N C, tshape x = N :: C :: skipn 2 (tshape x) /\ length (skipn 2 (tshape x)) = k.
Proof.
  destruct (tshape x) as [|N [|C r]] eqn:E; cbn in Hr; try lia. exists N, C. split; auto. cbn. lia.
Qed.
Lemma slices_eq : exists N C z, tshape x = N :: C :: skipn 2 (tshape x) /\ length (skipn 2 (tshape x)) = k /\
  rewrite_pool stride x = Some z /\ tshape z = N :: C :: slice_shape (skipn 2 (tshape x)) (zeros (skipn 2 (tshape x))) (skipn 2 (tshape x)) st /\
  forall n c pos, tget z (n :: c :: pos) = tget x (n :: c :: slice_idx pos (zeros (skipn 2 (tshape x))) st).
Proof.
  destruct shape_parts as (N & C & E & L). exists N, C. unfold rewrite_pool. rewrite steps_eq. unfold getitem.
  replace (length (tshape x) <? length (1%nat :: 1%nat :: st))%nat with false by (symmetry; apply Nat.ltb_ge; cbn; lia).
  replace (length (tshape x) - length (1%nat :: 1%nat :: st))%nat with 0%nat by (cbn; lia).
  cbn [repeat]. rewrite app_nil_r. eexists. split; [exact E|]. split; [exact L|]. split; [reflexivity|]. split.
  - unfold strided_slice. cbn [tshape]. rewrite E at 1 2 3. cbn [map slice_shape]. rewrite !slice_full. reflexivity.
  - intros n c pos. unfold strided_slice. cbn [tget]. rewrite E at 1. cbn [map slice_idx].
    rewrite !Nat.mul_1_l. reflexivity.
Qed.
Lemma pool_one {B} (g : list nat -> list (option R) -> B) ceil : exists y z,
  batched k (torch_pool g ceil (repeat 1%nat k) st (repeat 0%nat k)) x = Some y /\ rewrite_pool stride x = Some z /\
  tshape z = tshape y /\
  forall idx, valid (tshape y) idx -> tget y idx = g (skipn 2 idx) [Some (tget z idx)] /\
    valid (slice_shape (skipn 2 (tshape x)) (zeros (skipn 2 (tshape x))) (skipn 2 (tshape x)) st) (skipn 2 idx).
Proof.
  destruct slices_eq as (N & C & z & E & L & Ez & Sz & Gz). unfold batched.
  replace (length (tshape x) =? k + 2)%nat with true by (symmetry; apply Nat.eqb_eq; exact Hr).
  eexists. exists z. split; [reflexivity|]. split; [exact Ez|].
  assert (tshape (torch_pool g ceil (repeat 1%nat k) st (repeat 0%nat k) x) = tshape z) as SH.
  { unfold torch_pool. cbn [tshape]. rewrite Sz. rewrite E at 1 2. cbn [nth]. f_equal. f_equal. rewrite <- L.
    apply pool_outs_one; auto. lia. }
  split; [auto|]. rewrite SH, Sz. intros idx V. destruct idx as [|n [|c pos]]; [inversion V|inversion V; inversion H4|].
  inversion V; subst. inversion H4; subst. split; [|exact H6]. unfold torch_pool. cbn [tget skipn nth]. f_equal.
  unfold pool_win. rewrite indices_ones. cbn [map]. rewrite <- L at 1 2. rewrite L at 2. rewrite <- L.
  rewrite tap_one by (auto; lia). cbn [option_map]. rewrite Gz. reflexivity.
Qed.
End Pool.

Definition stride_list (k : nat) (stride : option sizes) : list nat :=
  match stride with Some s => per_axis k s | None => repeat 1%nat k end.
Lemma stride_list_ok k stride : stride_ok k stride -> length (stride_list k stride) = k /\ Forall (lt 0%nat) (stride_list k stride) /\
  forall l, stride = Some (SList l) -> length l = k.
Proof.
  unfold stride_list. assert (forall n, (0 < n)%nat -> Forall (lt 0%nat) (repeat n k)) as R.
  { intros n P. apply Forall_forall. intros m M. apply repeat_spec in M. now subst. }
  destruct stride as [[n|l]|]; cbn [stride_ok per_axis]; intro H.
  - split; [apply repeat_length|]. split; [auto|]. discriminate.
  - destruct H as [L F]. assert (per_axis k (SList l) = l) as P.
    { destruct l as [|a [|b l]]; auto. cbn in *. subst k. reflexivity. }
    cbn [per_axis] in P. rewrite P. split; auto. split; auto. intros l' E. inversion E; now subst.
  - split; [apply repeat_length|]. split; [apply R; lia|]. discriminate.
Qed.
Lemma max_pool_ok k stride ceil x : length (tshape x) = (k + 2)%nat -> Forall (lt 0%nat) (skipn 2 (tshape x)) -> stride_ok k stride ->
  exists y z, torch_max_pool k stride ceil x = Some y /\ rewrite_pool stride x = Some z /\ teq (tmap Some z) y.
Proof.
  intros Hr Hd Hs. destruct (stride_list_ok k stride Hs) as (L & F & Li).
  destruct (pool_one k stride x (stride_list k stride) Hr Hd F L eq_refl Li (fun _ w => fold_right omax None w) ceil)
    as (y & z & Ey & Ez & S & G).
  exists y, z. split; [exact Ey|]. split; [exact Ez|]. split; [exact S|]. intros idx V. cbn [tmap tshape] in V. rewrite S in V.
  destruct (G idx V) as [-> _]. reflexivity.
Qed.
Lemma avg_pool_ok k stride ceil include x : length (tshape x) = (k + 2)%nat -> Forall (lt 0%nat) (skipn 2 (tshape x)) -> stride_ok k stride ->
  exists y z, torch_avg_pool k stride ceil include None x = Some y /\ rewrite_pool stride x = Some z /\ teq z y.
Proof.
  intros Hr Hd Hs. destruct (stride_list_ok k stride Hs) as (L & F & Li).
  assert (length (skipn 2 (tshape x)) = k) as Lk by (rewrite skipn_length; lia).
  destruct (pool_one k stride x (stride_list k stride) Hr Hd F L eq_refl Li
    (fun pos w => lsum w val0 / INR (if include then padded_taps (skipn 2 (tshape x)) (repeat 1%nat k) (stride_list k stride) (repeat 0%nat k) pos
                                     else count_some w)) ceil)
    as (y & z & Ey & Ez & S & G).
  exists y, z. split; [unfold torch_avg_pool; unfold batched in *; rewrite Hr, Nat.eqb_refl in *; exact Ey|]. split; [exact Ez|]. split; [exact S|]. intros idx V. rewrite S in V.
  destruct (G idx V) as [-> V2].
  assert ((if include then padded_taps (skipn 2 (tshape x)) (repeat 1%nat k) (stride_list k stride) (repeat 0%nat k) (skipn 2 idx)
           else count_some [Some (tget z idx)]) = 1%nat) as ->.
  { destruct include; [|reflexivity]. unfold padded_taps. rewrite indices_ones. cbn [map].
    pose proof (zip_zero (skipn 2 (tshape x))) as Zp. rewrite Lk in Zp. rewrite Zp.
    pose proof (tap_one _ _ _ (eq_trans L (eq_sym Lk)) F V2) as T. rewrite Lk in T.
    change (map (fun _ : nat => 0%nat) (skipn 2 (tshape x))) with (zeros (skipn 2 (tshape x))).
    rewrite (zeros_repeat (skipn 2 (tshape x))), Lk, T. reflexivity. }
  unfold lsum. cbn [fold_right val0]. cbn [INR]. lra.
Qed.
Definition small4 : tensor R := mkT [1; 1; 2; 2]%nat (fun _ => 1).
Definition small3 : tensor R := mkT [1; 2; 2]%nat (fun _ => 1).
Lemma pool_override_wrong : exists x y z, length (tshape x) = 4%nat /\ torch_avg_pool 2 (Some (SOne 1)) false true (Some 2%nat) x = Some y /\
  rewrite_pool (Some (SOne 1)) x = Some z /\ ~ teq z y.
Proof.
  exists small4. eexists. eexists. split; [reflexivity|]. split; [reflexivity|]. split; [reflexivity|].
  intros [_ H]. specialize (H [0; 0; 0; 0]%nat). cbn in H.
  assert (1 = lsum [Some 1] val0 / (1 + 1)) as E by (apply H; repeat constructor).
  unfold lsum in E. cbn in E. lra.
Qed.
Lemma pool_unbatched_wrong : exists x y z, length (tshape x) = 3%nat /\ torch_max_pool 2 (Some (SOne 2)) false x = Some y /\
  rewrite_pool (Some (SOne 2)) x = Some z /\ tshape z <> tshape y.
Proof.
  exists small3. eexists. eexists. split; [reflexivity|]. split; [reflexivity|]. split; [reflexivity|]. cbn. discriminate.
Qed.
Lemma pool_one_stride_wrong : exists x y z, length (tshape x) = 4%nat /\ torch_max_pool 2 (Some (SList [2%nat])) false x = Some y /\
  rewrite_pool (Some (SList [2%nat])) x = Some z /\ tshape z <> tshape y.
Proof.
  exists small4. eexists. eexists. split; [reflexivity|]. split; [reflexivity|]. split; [reflexivity|]. cbn. discriminate.
Qed.

(** ** Batch normalisation *)

Lemma channel_ins (y z : tensor R) (ins : list nat -> list nat) c : indices (tshape z) = map ins (indices (tshape y)) ->
  (forall i, In i (indices (tshape y)) -> nth 1 (ins i) 0%nat = nth 1 i 0%nat /\ tget z (ins i) = tget y i) -> channel z c = channel y c.
Proof.
  intros E H. unfold channel. rewrite E. clear E. induction (indices (tshape y)) as [|i l IH]; auto. cbn [map filter].
  destruct (H i (or_introl eq_refl)) as [H1 H2]. rewrite H1.
  assert (map (tget z) (filter (fun idx => Nat.eqb (nth 1 idx 0%nat) c) (map ins l)) = map (tget y) (filter (fun idx => Nat.eqb (nth 1 idx 0%nat) c) l)) as E.
  { apply IH. intros j J. apply H. now right. }
  destruct (Nat.eqb (nth 1 i 0%nat) c); cbn [map]; rewrite ?H2, E; reflexivity.
Qed.
Lemma bn_ins tr p (y z : tensor R) (ins : list nat -> list nat) : indices (tshape z) = map ins (indices (tshape y)) ->
  (forall i, In i (indices (tshape y)) -> nth 1 (ins i) 0%nat = nth 1 i 0%nat /\ tget z (ins i) = tget y i) ->
  forall i, valid (tshape y) i -> tget (torch_batch_norm tr p z) (ins i) = tget (torch_batch_norm tr p y) i.
Proof.
  intros E H i V. apply indices_valid in V. destruct (H i V) as [H1 H2]. unfold torch_batch_norm, batch_norm. cbn [tget].
  rewrite H1, H2, (channel_ins y z ins) by auto. reflexivity.
Qed.
Lemma indices_insert2 a b s : indices (a :: b :: 1%nat :: s) = map (insert_at 2 0) (indices (a :: b :: s)).
Proof.
  cbn [indices]. rewrite flat_map_concat_map, (flat_map_concat_map _ (seq 0 a)), concat_map, !map_map. f_equal. apply map_ext. intro i.
  rewrite map_map. rewrite (flat_map_concat_map _ (seq 0 b)), (flat_map_concat_map _ (seq 0 b)), !concat_map, !map_map. f_equal.
  apply map_ext. intro j. cbn [seq flat_map]. rewrite app_nil_r, !map_map. apply map_ext. reflexivity.
Qed.
Lemma bn1d_ok tr p x : length (tshape x) = 3%nat -> same_result (rewrite_bn1d tr p x) (batch_norm_1d tr p x).
Proof.
  intro L. destruct (tshape x) as [|a [|b [|c [|]]]] eqn:E; cbn in L; try lia.
  assert (tshape (torch_unsqueeze 2 x) = [a; b; 1; c]%nat) as S by (unfold torch_unsqueeze; cbn [tshape]; rewrite E; reflexivity).
  unfold rewrite_bn1d, batch_norm_2d, batch_norm_1d. rewrite S, E. cbn [length option_map same_result].
  assert (tshape (torch_batch_norm tr p (torch_unsqueeze 2 x)) = [a; b; 1; c]%nat) as S2 by exact S.
  unfold torch_squeeze. rewrite S2. cbn [nth Nat.eqb]. unfold unpack. split; cbn [tshape].
  - rewrite S2. cbn. symmetry. exact E.
  - intros idx V. rewrite S2 in V. cbn in V. cbn [tget].
    apply bn_ins.
    + rewrite S, E. apply indices_insert2.
    + intros i I. apply indices_valid in I. rewrite E in I. pose proof (valid_length _ _ I) as Li.
      destruct i as [|i0 [|i1 [|i2 [|]]]]; cbn in Li; try lia. split; [reflexivity|].
      unfold torch_unsqueeze. rewrite E. reflexivity.
    + rewrite E. exact V.
Qed.
Lemma bn1d_rank2_wrong tr p x : length (tshape x) = 2%nat -> (exists y, batch_norm_1d tr p x = Some y) /\ rewrite_bn1d tr p x = None.
Proof.
  intro L. unfold batch_norm_1d. rewrite L. split; [eauto|]. unfold rewrite_bn1d, batch_norm_2d, torch_unsqueeze. cbn [tshape].
  rewrite insert_at_length, L. reflexivity.
Qed.

Lemma bn1d_rank2_witness : exists tr p x y, tshape x = [2; 3]%nat /\ batch_norm_1d tr p x = Some y /\ rewrite_bn1d tr p x = None.
Proof.
  exists true, (mkBn 1 [1; 1; 1] [0; 0; 0] [0; 0; 0] [1; 1; 1]), (mkT [2; 3]%nat (fun _ => 0)). eexists.
  split; [reflexivity|]. split; reflexivity.
Qed.
Lemma indices_tail N O : indices [N; O; 1; 1]%nat = map (fun i => i ++ [0; 0]%nat) (indices [N; O]).
Proof.
  cbn [indices]. rewrite flat_map_concat_map, (flat_map_concat_map _ (seq 0 N)), concat_map, !map_map. f_equal. apply map_ext. intro i.
  rewrite map_map. rewrite !(flat_map_concat_map _ (seq 0 O)), !concat_map, !map_map. reflexivity.
Qed.
Lemma linear_conv w b x N I O n o : tshape x = [N; I] -> tshape w = [O; I] -> (n < N)%nat -> (o < O)%nat ->
  tget (torch_conv2d (reshape [O; I; 1; 1]%nat w) b (two_axes x)) [n; o; 0; 0]%nat = tget (torch_linear w b x) [n; o].
Proof.
  intros Ex Ew Hn Ho. unfold torch_conv2d, torch_linear, conv, fc. cbn [tget]. rewrite Ew. cbn [tshape reshape nth skipn ca_groups ca_stride ca_dil ca_pad last removelast app].
  rewrite Nat.div_1_r. f_equal. unfold lsum at 1 3.
  assert (forall i, (i < I)%nat -> lsum (indices [1; 1]%nat) (fun k => tget (reshape [O; I; 1; 1]%nat w) (o :: i :: k) *
     read0 (two_axes x) n (o / O * I + i) (tap (skipn 2 (tshape (two_axes x))) [1; 1]%nat [1; 1]%nat [0; 0]%nat [0; 0]%nat k)) =
     tget w [o; i] * tget x [n; i]) as Q.
  { intros i Hi. cbn [indices seq flat_map map app]. unfold lsum. cbn [fold_right]. unfold two_axes at 2. cbn [tshape reshape].
    rewrite Ex. cbn [app skipn tap]. cbn. rewrite Rplus_0_r.
    rewrite (Nat.div_small o O) by exact Ho. cbn. f_equal.
    - f_equal. rewrite Ew. replace (o * (I * 1) + (i * 1 + 0))%nat with (ravel [O; I] [o; i]) by (cbn; lia).
      apply unravel_ravel. repeat constructor; auto.
    - f_equal. rewrite Ex. cbn. replace (n * (I * 1) + (i * 1 + 0))%nat with (ravel [N; I] [n; i]) by (cbn; lia).
      apply (unravel_ravel [N; I] [n; i]). repeat constructor; auto. }
  cbn [tget reshape] in Q |- *. 
  assert (forall l, (forall i, In i l -> (i < I)%nat) -> forall f g : nat -> R, (forall i, (i < I)%nat -> f i = g i) ->
    fold_right (fun a s => f a + s) 0 l = fold_right (fun a s => g a + s) 0 l) as FR.
  { induction l as [|i l IH]; intros HI f g FG; auto. cbn [fold_right]. rewrite (FG i) by (apply HI; now left). f_equal. apply IH; auto. intros j J. apply HI. now right. }
  apply FR. { intros i Hi. apply in_seq in Hi. lia. }
  intros i Hi. rewrite <- Q by exact Hi. reflexivity.
Qed.
Lemma linear_bn_ok tr w b p x N I O : tshape x = [N; I] -> tshape w = [O; I] ->
  same_result (rewrite_linear_bn tr w b p x) (batch_norm_1d tr p (torch_linear w b x)).
Proof.
  intros Ex Ew. unfold rewrite_linear_bn. rewrite Ex, Ew. cbn [length Nat.eqb nth].
  set (z := torch_conv2d (reshape [O; I; 1; 1]%nat w) b (two_axes x)).
  assert (tshape z = [N; O; 1; 1]%nat) as Sz.
  { unfold z, torch_conv2d, conv, two_axes. cbn [tshape reshape]. rewrite Ex. reflexivity. }
  assert (tshape (torch_linear w b x) = [N; O]) as Sl.
  { unfold torch_linear, fc. cbn [tshape]. rewrite Ex, Ew. reflexivity. }
  unfold batch_norm_2d, batch_norm_1d. rewrite Sz, Sl. cbn [length option_map same_result].
  assert (tshape (torch_batch_norm tr p z) = [N; O; 1; 1]%nat) as S2 by exact Sz.
  assert (tshape (torch_batch_norm tr p (torch_linear w b x)) = [N; O]) as S3 by exact Sl.
  unfold flatten1. rewrite S2. split.
  - cbn [tshape reshape]. rewrite S3. cbn. repeat f_equal; lia.
  - intros idx V. cbn [tshape reshape skipn nth prod] in V. replace (O * (1 * (1 * 1)))%nat with O in V by lia.
    pose proof (valid_length _ _ V) as Li. destruct idx as [|n [|o [|]]]; cbn in Li; try lia.
    cbn [tget reshape]. rewrite S2. pose proof (valid_nth _ _ 0 V ltac:(cbn; lia)) as Hn. pose proof (valid_nth _ _ 1 V ltac:(cbn; lia)) as Ho. cbn in Hn, Ho.
    assert (ravel [nth 0 [N; O; 1; 1] 0; prod (skipn 1 [N; O; 1; 1])]%nat [n; o] = ravel [N; O; 1; 1]%nat [n; o; 0; 0]%nat) as -> by (cbn; lia).
    rewrite unravel_ravel by (repeat constructor; auto).
    change [n; o; 0; 0]%nat with ((fun i => i ++ [0; 0]%nat) [n; o]). apply bn_ins.
    + rewrite Sz, Sl. apply indices_tail.
    + intros i J. rewrite Sl in J. apply indices_valid in J. pose proof (valid_length _ _ J) as Lj.
      destruct i as [|n' [|o' [|]]]; cbn in Lj; try lia. pose proof (valid_nth _ _ 0 J ltac:(cbn; lia)) as Hn'. pose proof (valid_nth _ _ 1 J ltac:(cbn; lia)) as Ho'. cbn in Hn', Ho'.
      split; [reflexivity|]. cbn [app]. apply (linear_conv w b x N I O); auto.
    + rewrite Sl. exact V.
Qed.

(** ** Broadcasting *)

Lemma ref_loop_stays l : forall r ri, (ri = Some (Some 0%nat) -> ref_loop l r ri = ri \/ ref_loop l r ri = Some None) /\
  (ri = Some (Some 1%nat) -> ref_loop l r ri = ri \/ ref_loop l r ri = Some None).
Proof.
  induction l as [|a l IH]; intros [|b r] ri; split; intros ->; cbn [ref_loop]; auto.
  - cbn [ref_in Nat.eqb andb]. destruct (b <? a)%nat.
    + destruct (b =? 1)%nat; auto. apply (proj1 (IH r (Some (Some 0%nat)))). reflexivity.
    + destruct (a <? b)%nat; auto. apply (proj1 (IH r (Some (Some 0%nat)))). reflexivity.
  - cbn [ref_in Nat.eqb andb]. destruct (b <? a)%nat; auto. destruct (a <? b)%nat.
    + destruct (a =? 1)%nat; auto. apply (proj2 (IH r (Some (Some 1%nat)))). reflexivity.
    + apply (proj2 (IH r (Some (Some 1%nat)))). reflexivity.
Qed.
Lemma bdim_r1 a : bdim a 1 = Some a.
Proof. unfold bdim. destruct (Nat.eqb_spec a 1); subst; auto. Qed.
Lemma bdim_l1 a : bdim 1 a = Some a.
Proof. unfold bdim. destruct (Nat.eqb_spec 1 a); subst; auto. Qed.
Lemma ref_loop_ok l : forall r ri s, length l = length r -> bshape l r = Some s ->
  (ref_loop l r ri = Some (Some 0%nat) -> s = l) /\ (ref_loop l r ri = Some (Some 1%nat) -> s = r) /\
  (ref_loop l r ri = None -> l = r) /\ (forall i, ref_loop l r ri = Some (Some i) -> ri = Some (Some i) \/ (i < 2)%nat).
Proof.
  induction l as [|a l IH]; intros [|b r] ri s L B; cbn in L; try discriminate.
  - cbn in B. inversion B; subst. cbn [ref_loop]. repeat split; auto.
  - assert (length l = length r) as L' by lia. rewrite bshape_cons in B by exact L'.
    destruct (bdim a b) as [d|] eqn:D; [|discriminate]. destruct (bshape l r) as [s'|] eqn:B'; [|discriminate].
    inversion B; subst s. cbn [ref_loop]. destruct (Nat.ltb_spec b a) as [Q|Q].
    + destruct (ref_in 0 ri && (b =? 1)%nat) eqn:E; [|repeat split; discriminate].
      apply andb_true_iff in E. destruct E as [E1 E2]. apply Nat.eqb_eq in E2. subst b. rewrite bdim_r1 in D. inversion D; subst d.
      destruct (IH r (Some (Some 0%nat)) s' L' B') as (I0 & I1 & I2 & I3).
      destruct (proj1 (ref_loop_stays l r (Some (Some 0%nat))) eq_refl) as [X|X]; rewrite X in *;
        (split; [|split; [|split]]); intros; try discriminate; try (f_equal; auto; fail).
      right. inversion H; lia.
    + destruct (Nat.ltb_spec a b) as [Q'|Q'].
      * destruct (ref_in 1 ri && (a =? 1)%nat) eqn:E; [|repeat split; discriminate].
        apply andb_true_iff in E. destruct E as [E1 E2]. apply Nat.eqb_eq in E2. subst a. rewrite bdim_l1 in D. inversion D; subst d.
        destruct (IH r (Some (Some 1%nat)) s' L' B') as (I0 & I1 & I2 & I3).
        destruct (proj2 (ref_loop_stays l r (Some (Some 1%nat))) eq_refl) as [X|X]; rewrite X in *;
          (split; [|split; [|split]]); intros; try discriminate; try (f_equal; auto; fail).
        right. inversion H; lia.
      * assert (a = b) by lia. subst b. unfold bdim in D. rewrite Nat.eqb_refl in D. inversion D; subst d.
        destruct (IH r ri s' L' B') as (I0 & I1 & I2 & I3).
        split; [|split; [|split]]; intros; auto; f_equal; auto.
Qed.
Lemma bshape_pad k : forall l r, length l = (k + length r)%nat -> bshape l (repeat 1%nat k ++ r) = bshape l r.
Proof.
  induction k as [|k IH]; intros l r L; auto. destruct l as [|a l]; [cbn in L; lia|]. cbn [repeat app].
  rewrite bshape_cons by (rewrite app_length, repeat_length; cbn in L; lia). rewrite bdim_r1, IH by (cbn in L; lia).
  destruct (bshape l r) as [s|] eqn:B.
  - (* the longer list *)
    unfold bshape in *. cbn [rev]. destruct (bshape_rev (rev l) (rev r)) as [q|] eqn:Q; [|discriminate]. inversion B; subst s.
    assert (length (rev r) <= length (rev l))%nat as LE by (rewrite !rev_length; cbn in L; lia).
    assert (forall u v w e, (length v <= length u)%nat -> bshape_rev u v = Some w -> bshape_rev (u ++ [e]) v = Some (w ++ [e])) as X.
    { clear. induction u as [|x u IH]; intros [|y v] w e L H; cbn in *; try lia; try (inversion H; subst; reflexivity).
      destruct (bdim x y); [|discriminate]. destruct (bshape_rev u v) eqn:E; [|discriminate]. inversion H; subst.
      rewrite (IH v l e) by (auto; lia). reflexivity. }
    rewrite (X _ _ _ a LE Q). cbn [option_map]. rewrite rev_unit. reflexivity.
  - unfold bshape in *. cbn [rev]. destruct (bshape_rev (rev l) (rev r)) as [q|] eqn:Q; [discriminate|].
    assert (length (rev r) <= length (rev l))%nat as LE by (rewrite !rev_length; cbn in L; lia).
    assert (forall u v e, (length v <= length u)%nat -> bshape_rev u v = None -> bshape_rev (u ++ [e]) v = None) as X.
    { clear. induction u as [|x u IH]; intros [|y v] e L H; cbn in *; try lia; try discriminate.
      destruct (bdim x y); [|reflexivity]. destruct (bshape_rev u v) eqn:E; [discriminate|]. rewrite (IH v e) by (auto; lia). reflexivity. }
    rewrite (X _ _ a LE Q). reflexivity.
Qed.

Lemma expand_binop {B} (f : R -> R -> B) x y s : bshape (tshape x) (tshape y) = Some s ->
  same_result (binop f (expand s x) (expand s y)) (binop f x y).
Proof.
  intro E. unfold binop. rewrite E. cbn [expand tshape]. rewrite bshape_self. split; [reflexivity|]. intros idx V.
  cbn [tget tshape] in *. rewrite !(bidx_self s idx) by exact V. reflexivity.
Qed.
Lemma expand_self s (x : tensor R) : tshape x = s -> teq (expand s x) x.
Proof. intro E. split; [symmetry; exact E|]. intros idx V. cbn [expand tget tshape] in *. now rewrite E, bidx_self. Qed.
Lemma binop_expand_r {B} (f : R -> R -> B) x y : bshape (tshape x) (tshape y) = Some (tshape x) ->
  same_result (binop f x (expand (tshape x) y)) (binop f x y).
Proof.
  intro E. unfold binop. rewrite E. cbn [expand tshape]. rewrite bshape_self. split; [reflexivity|]. intros idx V.
  cbn [tget tshape] in *. rewrite !(bidx_self (tshape x) idx) by exact V. reflexivity.
Qed.
Lemma binop_expand_l {B} (f : R -> R -> B) x y : bshape (tshape x) (tshape y) = Some (tshape y) ->
  same_result (binop f (expand (tshape y) x) y) (binop f x y).
Proof.
  intro E. unfold binop. rewrite E. cbn [expand tshape]. rewrite bshape_self. split; [reflexivity|]. intros idx V.
  cbn [tget tshape] in *. rewrite !(bidx_self (tshape y) idx) by exact V. reflexivity.
Qed.
Lemma ref_index_ok l r s : bshape l r = Some s -> l <> r ->
  ref_index l r = Some None \/ ref_index l r = Some (Some 0%nat) /\ s = l \/ ref_index l r = Some (Some 1%nat) /\ s = r.
Proof.
  intros B N. unfold ref_index. destruct (Nat.ltb_spec (length r) (length l)) as [Q|Q].
  - set (r' := repeat 1%nat (length l - length r) ++ r).
    assert (length l = length r') as L by (unfold r'; rewrite app_length, repeat_length; lia).
    assert (bshape l r' = Some s) as B' by (unfold r'; rewrite bshape_pad by lia; exact B).
    destruct (ref_loop_ok l r' (Some (Some 0%nat)) s L B') as (I0 & _).
    destruct (proj1 (ref_loop_stays l r' (Some (Some 0%nat))) eq_refl) as [X|X]; auto.
  - destruct (Nat.ltb_spec (length l) (length r)) as [Q'|Q'].
    + set (l' := repeat 1%nat (length r - length l) ++ l).
      assert (length l' = length r) as L by (unfold l'; rewrite app_length, repeat_length; lia).
      assert (bshape l' r = Some s) as B' by (rewrite bshape_comm; unfold l'; rewrite bshape_pad by lia; rewrite bshape_comm; exact B).
      destruct (ref_loop_ok l' r (Some (Some 1%nat)) s L B') as (_ & I1 & _).
      destruct (proj2 (ref_loop_stays l' r (Some (Some 1%nat))) eq_refl) as [X|X]; auto.
    + assert (length l = length r) as L by lia. destruct (ref_loop_ok l r None s L B) as (I0 & I1 & I2 & I3).
      destruct (ref_loop l r None) as [[i|]|] eqn:X; auto.
      * destruct (I3 i eq_refl) as [|I]; [discriminate|]. destruct i as [|[|]]; [right; left; auto|right; right; auto|lia].
      * exfalso. auto.
Qed.
Lemma broadcast_ok (x y : tensor R) s : bshape (tshape x) (tshape y) = Some s ->
  exists x' y', rewrite_broadcast x y = Some (x', y') /\ tshape x' = s /\ tshape y' = s /\
  forall B (f : R -> R -> B), same_result (binop f x' y') (binop f x y).
Proof.
  intro B. unfold rewrite_broadcast. destruct (list_eq_dec Nat.eq_dec (tshape x) (tshape y)) as [E|E].
  - exists x, y. split; auto. rewrite <- E, bshape_self in B. inversion B; subst. split; auto. split; auto.
    intros T f. unfold binop. rewrite <- E, bshape_self. apply teq_refl.
  - destruct (ref_index_ok _ _ _ B E) as [->|[[-> ->]|[-> ->]]].
    + unfold torch_broadcast. rewrite B. eexists. eexists. split; [reflexivity|]. split; [reflexivity|]. split; [reflexivity|].
      intros. now apply expand_binop.
    + unfold torch_expand_as. rewrite bshape_comm, B. destruct (list_eq_dec Nat.eq_dec (tshape x) (tshape x)); [|congruence].
      eexists. eexists. split; [reflexivity|]. split; [reflexivity|]. split; [reflexivity|]. intros. now apply binop_expand_r.
    + unfold torch_expand_as. rewrite B. destruct (list_eq_dec Nat.eq_dec (tshape y) (tshape y)); [|congruence].
      eexists. eexists. split; [reflexivity|]. split; [reflexivity|]. split; [reflexivity|]. intros. now apply binop_expand_l.
Qed.
