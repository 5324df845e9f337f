(** Proofs about moving reshapes across another node: mirrored padding, slices, tiles,
    concatenations, reductions. *)
From Coq Require Import List Arith Lia Permutation Bool Sorted ZArith Reals.
From Verif Require Import Tensor ChainModel ChainProofs ReshapeProofs LowerProofs ConvSpec CatSpec LayoutSpec PassModel PassProofs PassAxesProofs FuseModel PassReshapeModel PassReshapeOpProofs.
Import ListNotations.
Local Open Scope nat_scope.

Lemma tab_error {D} (d v : D) n1 n2 : nth_error (tab d n1 v n2) n1 = Some v.
Proof. unfold tab. rewrite nth_error_app2 by (rewrite repeat_length; lia). rewrite repeat_length, Nat.sub_diag. reflexivity. Qed.
Lemma mid_error {D} (v : D) n1 n2 : nth_error (n1 ++ v :: n2) (length n1) = Some v.
Proof. rewrite nth_error_app2 by lia. rewrite Nat.sub_diag. reflexivity. Qed.

(** MIRROR_PAD with one padded axis *)
Lemma mirror_moved {A} pads ax (x : tensor A) P N : pos (tshape x) -> length pads = length (tshape x) -> dims_pad pads = Some ax ->
  fst (nth ax pads (0, 0)) < nth ax (tshape x) 0 -> snd (nth ax pads (0, 0)) < nth ax (tshape x) 0 ->
  offered KOther (Some ax) [tshape x] [tshape (mirror_pad pads x)] P N ->
  exists pads' x', rp_row (0, 0) P N pads = Some pads' /\ rp_operand KOther P N x = Some x' /\ restored P (mirror_pad pads' x') (mirror_pad pads x).
Proof.
  intros Hp Hlen Hdim Ha Hb Hof. assert (ax < length (tshape x)) as Hax by (apply only_axis_spec in Hdim; lia).
  assert (exists ab, pads = tab (0, 0) ax ab (length (tshape x) - S ax)) as (ab & Epads).
  { destruct (dims_pad_tab pads ax ax (length (tshape x) - S ax) Hdim) as (ab & E & _); [lia|auto|]. exists ab; exact E. }
  destruct ab as [a b]. rewrite Epads, nth_tab in Ha, Hb by lia. rewrite Nat.eqb_refl in Ha, Hb. cbn [fst snd] in Ha, Hb.
  destruct (one_operand ax x _ P N Hof Hp Hax) as (p1 & p2 & n1 & n2 & d & M & Es & La & Hd & Eax & Eop & Rd).
  { intros o [<-|[]]. exists (a + nth ax (tshape x) 0 + b). cbn [tshape mirror_pad]. rewrite Epads. apply pad_shape_upd, Hax. }
  assert (length (tshape x) - S ax = length n2) as L2 by (rewrite Es, mid_length; lia). rewrite L2 in Epads. rewrite <- La in *. clear La L2.
  rewrite Es, nth_mid in Ha, Hb.
  exists (tab (0, 0) (length p1) (a, b) (length p2)), (reshape (p1 ++ d :: p2) x). split; [|split; [exact Eop|]].
  { apply (row_marked _ _ _ _ _ _ _ _ _ M). rewrite Epads. apply tab_error. }
  apply (restore P N p1 p2 n1 n2 (a + d + b)); auto.
  - cbn [tshape mirror_pad]. rewrite Es, Epads. apply pad_shape_tab.
  - cbn [tshape mirror_pad reshape]. apply pad_shape_tab.
  - intros i1 i2 j1 j2 k T Hk. cbn [tget mirror_pad]. rewrite Es, Epads. change (tshape (reshape (p1 ++ d :: p2) x)) with (p1 ++ d :: p2).
    rewrite !reflect_tab by apply T. apply Rd; auto. unfold LayoutSpec.reflect.
    destruct (Nat.ltb_spec k a), (Nat.ltb_spec (k - a) d); lia.
Qed.

(** SLICE that shortens one axis *)
Lemma dims_shape_upd ish osh ax : length ish = length osh -> dims_shape ish osh = Some ax -> ax < length ish /\ osh = upd ish ax (nth ax osh 0).
Proof.
  intros L H. apply only_axis_spec in H. destruct H as (H1 & H2 & H3). split; [exact H1|].
  apply list_eq_nth; [rewrite upd_length; auto|]. intros k Hk. rewrite upd_nth. destruct (Nat.eqb_spec k ax) as [->|n].
  - destruct (Nat.ltb_spec ax (length ish)); [reflexivity|lia].
  - cbn [andb]. specialize (H3 k ltac:(lia) n). apply negb_false_iff, Nat.eqb_eq in H3. exact H3.
Qed.
Lemma zip_plus_zero i : zip_plus (repeat 0 (length i)) i = i.
Proof. induction i as [|k i IH]; cbn; [reflexivity|]. rewrite IH. reflexivity. Qed.
Lemma zip_plus_tab b i1 k i2 : zip_plus (tab 0 (length i1) b (length i2)) (i1 ++ k :: i2) = i1 ++ (b + k) :: i2.
Proof. induction i1 as [|i i1 IH]; unfold tab in *; cbn; [rewrite zip_plus_zero; reflexivity|]. rewrite IH. reflexivity. Qed.
Lemma slice_moved {A} begin size ax (x : tensor A) P N : pos (tshape x) -> length begin = length (tshape x) -> length size = length (tshape x) ->
  (forall k, k < length (tshape x) -> nth k begin 0 + nth k size 0 <= nth k (tshape x) 0) ->
  dims_shape (tshape x) (tshape (slice_op begin size x)) = Some ax ->
  offered KOther (Some ax) [tshape x] [tshape (slice_op begin size x)] P N ->
  exists begin' size' x', rp_row 0 P N begin = Some begin' /\ rp_extent P N size = Some size' /\ rp_operand KOther P N x = Some x' /\
    restored P (slice_op begin' size' x') (slice_op begin size x).
Proof.
  cbn [tshape slice_op]. intros Hp Lb Ls Hin Hdim Hof. destruct (dims_shape_upd _ _ _ (eq_sym Ls) Hdim) as [Hax Esz].
  destruct (one_operand ax x _ P N Hof Hp Hax) as (p1 & p2 & n1 & n2 & d & M & Es & La & Hd & Eax & Eop & Rd).
  { intros o [<-|[]]. eexists. exact Esz. }
  rewrite Es in *. rewrite mid_length in *. subst ax. set (e := nth (length n1) size 0) in *. rewrite upd_app in Esz.
  assert (begin = tab 0 (length n1) (nth (length n1) begin 0) (length n2)) as Eb.
  { apply tab_intro; auto. intros k Hk n. rewrite Lb in Hk. specialize (Hin k Hk). rewrite Esz in Hin. rewrite (nth_mid_ne n1 e d n2 k 0 n) in Hin. lia. }
  set (b := nth (length n1) begin 0) in *.
  assert (b + e <= d) as Hbe by (specialize (Hin (length n1) ltac:(lia)); rewrite nth_mid in Hin; exact Hin).
  exists (tab 0 (length p1) b (length p2)), (p1 ++ e :: p2), (reshape (p1 ++ d :: p2) x).
  split; [|split; [|split; [exact Eop|]]].
  - apply (row_marked _ _ _ _ _ _ _ _ _ M). rewrite Eb. apply tab_error.
  - apply (extent_marked _ _ _ _ _ _ _ _ M). rewrite Esz. apply mid_error.
  - apply (restore P N p1 p2 n1 n2 e); auto.
    intros i1 i2 j1 j2 k T Hk. cbn [tget slice_op]. destruct (twin_length _ _ _ _ _ _ _ _ T) as (L1 & L2 & L3 & L4).
    rewrite Eb, <- L1, <- L2, <- L3, <- L4. rewrite !zip_plus_tab. apply Rd; auto. lia.
Qed.

(** STRIDED_SLICE that shortens one axis *)
Lemma slice_whole d s e st i : 0 < st -> slice_dim d s e st = d -> i < d -> s + st * i = i.
Proof.
  intros Hst E Hi. unfold slice_dim in E. assert (d - 1 < d) as H by lia. rewrite <- E in H at 2. apply (cdiv_spec _ _ _ Hst) in H.
  pose proof (Nat.le_min_r e d) as Hm. assert (st * (d - 1) + s <= d - 1) as H1 by (revert H Hm; generalize (st * (d - 1)), (Nat.min e d); intros; lia). assert (exists q, st = S q) as [q ->] by (exists (st - 1); lia).
  change (S q * (d - 1)) with (d - 1 + q * (d - 1)) in H1. assert (s = 0 /\ q * (d - 1) = 0) as [-> H2] by (revert H1; generalize (q * (d - 1)); intros; lia). apply Nat.eq_mul_0 in H2. destruct H2 as [->|H2]; [lia|]. assert (i = 0) by lia. nia.
Qed.
Lemma slice_shape_tab p1 d p2 s e st : slice_shape (p1 ++ d :: p2) (tab 0 (length p1) s (length p2)) (p1 ++ e :: p2) (tab 1 (length p1) st (length p2)) =
  p1 ++ slice_dim d s e st :: p2.
Proof.
  assert (forall p, slice_dim p 0 p 1 = p) as Hw by (intros p; unfold slice_dim, cdiv; rewrite Nat.min_id, Nat.sub_0_r, Nat.add_sub, Nat.div_1_r; reflexivity).
  assert (forall l, slice_shape l (repeat 0 (length l)) l (repeat 1 (length l)) = l) as Hl.
  { induction l as [|y l IH]; [reflexivity|]. cbn [length repeat slice_shape]. rewrite IH, Hw. reflexivity. }
  induction p1 as [|y p1 IH]; unfold tab in *; cbn [length repeat app slice_shape]; [rewrite Hl; reflexivity|]. rewrite IH, Hw. reflexivity.
Qed.
Lemma slice_idx_tab i1 k i2 s st : slice_idx (i1 ++ k :: i2) (tab 0 (length i1) s (length i2)) (tab 1 (length i1) st (length i2)) = i1 ++ (s + st * k) :: i2.
Proof.
  assert (forall i : nat, 0 + 1 * i = i) as Hw by (intros; lia).
  assert (forall l, slice_idx l (repeat 0 (length l)) (repeat 1 (length l)) = l) as Hl.
  { induction l as [|y l IH]; [reflexivity|]. cbn [length repeat slice_idx]. rewrite IH, Hw. reflexivity. }
  induction i1 as [|y i1 IH]; unfold tab in *; cbn [length repeat app slice_idx]; [rewrite Hl; reflexivity|]. rewrite IH, Hw. reflexivity.
Qed.
Lemma slice_idx_len idx : forall s st, length s = length idx -> length st = length idx -> length (slice_idx idx s st) = length idx.
Proof. induction idx as [|i l IH]; intros [|? s] [|? st] L1 L2; cbn in *; try lia. rewrite IH by lia. reflexivity. Qed.
Lemma slice_idx_at idx : forall s st q, length s = length idx -> length st = length idx -> q < length idx ->
  nth q (slice_idx idx s st) 0 = nth q s 0 + nth q st 0 * nth q idx 0.
Proof. induction idx as [|i l IH]; intros [|? s] [|? st] q L1 L2 Hq; cbn in *; try lia. destruct q; [reflexivity|]. apply IH; lia. Qed.
Lemma strided_moved {A} s e st ax (x : tensor A) P N : pos (tshape x) ->
  length s = length (tshape x) -> length e = length (tshape x) -> length st = length (tshape x) -> pos st ->
  dims_shape (tshape x) (tshape (strided_slice s e st x)) = Some ax ->
  offered KOther (Some ax) [tshape x] [tshape (strided_slice s e st x)] P N ->
  exists s' e' st' x', rp_row 0 P N s = Some s' /\ rp_extent P N e = Some e' /\ rp_row 1 P N st = Some st' /\ rp_operand KOther P N x = Some x' /\
    restored P (strided_slice s' e' st' x') (strided_slice s e st x).
Proof.
  intros Hp Ls Le Lst Hst Hdim Hof.
  assert (length (tshape (strided_slice s e st x)) = length (tshape x)) as Lo.
  { cbn [tshape strided_slice]. clear -Ls Le Lst. revert s e st Ls Le Lst. induction (tshape x) as [|d l IH]; intros [|? s] [|? e] [|? st] L1 L2 L3; cbn in *; try lia. rewrite IH by lia. reflexivity. }
  destruct (dims_shape_upd _ _ _ (eq_sym Lo) Hdim) as [Hax Eo].
  destruct (one_operand ax x _ P N Hof Hp Hax) as (p1 & p2 & n1 & n2 & d & M & Es & La & Hd & Eax & Eop & Rd).
  { intros o [<-|[]]. eexists. exact Eo. }
  assert (forall k, k < length (tshape x) -> nth k (tshape (strided_slice s e st x)) 0 = slice_dim (nth k (tshape x) 0) (nth k s 0) (nth k e 0) (nth k st 0)) as Hnth.
  { cbn [tshape strided_slice]. clear -Ls Le Lst. revert s e st Ls Le Lst. induction (tshape x) as [|d l IH]; intros [|? s] [|? e] [|? st] L1 L2 L3 k Hk; cbn in *; try lia. destruct k; [reflexivity|]. apply IH; lia. }
  pose proof (Hnth _ Hax) as Hat.
  assert (forall k, k < length (tshape x) -> k <> ax -> slice_dim (nth k (tshape x) 0) (nth k s 0) (nth k e 0) (nth k st 0) = nth k (tshape x) 0) as Hoff.
  { intros k Hk n. rewrite <- Hnth by exact Hk. rewrite Eo, upd_nth. destruct (Nat.eqb_spec k ax); [contradiction|reflexivity]. }
  subst ax. set (sa := nth (length n1) s 0) in *. set (ea := nth (length n1) e 0) in *. set (ca := nth (length n1) st 0) in *.
  rewrite Es, nth_mid in Hat. rewrite Hat in Eo. rewrite Es, upd_app in Eo.
  assert (0 < ca) as Hca by (unfold pos in Hst; rewrite Forall_forall in Hst; apply Hst, nth_In; lia).
  exists (tab 0 (length p1) sa (length p2)), (p1 ++ ea :: p2), (tab 1 (length p1) ca (length p2)), (reshape (p1 ++ d :: p2) x).
  split; [|split; [|split; [|split; [exact Eop|]]]].
  - apply (row_marked _ _ _ _ _ _ _ _ _ M). apply nth_error_nth'. lia.
  - apply (extent_marked _ _ _ _ _ _ _ _ M). apply nth_error_nth'. lia.
  - rewrite (row_marked _ _ _ _ _ _ _ _ ca M); [reflexivity|]. unfold ca. apply nth_error_nth'. lia.
  - apply (restore P N p1 p2 n1 n2 (slice_dim d sa ea ca)); auto.
    + cbn [tshape strided_slice reshape]. apply slice_shape_tab.
    + intros i1 i2 j1 j2 k T Hk. destruct (twin_length _ _ _ _ _ _ _ _ T) as (L1 & L2 & L3 & L4). cbn [tget strided_slice].
      assert (slice_idx (j1 ++ k :: j2) s st = j1 ++ (sa + ca * k) :: j2) as ->.
      { assert (length (j1 ++ k :: j2) = length (tshape x)) as Lj by (rewrite Es, !mid_length; lia).
        apply list_eq_nth; [rewrite slice_idx_len by lia; rewrite !mid_length; reflexivity|].
        intros q Hq. rewrite slice_idx_len in Hq by lia. rewrite slice_idx_at by lia.
        rewrite Lj in Hq. pose proof Hq as Hq'.
          destruct (Nat.eq_dec q (length n1)) as [->|n]; [rewrite <- L2, !nth_mid, L2; reflexivity|].
          rewrite (nth_mid_ne j1 k 0 j2 q 0), (nth_mid_ne j1 (sa + ca * k) 0 j2 q 0) by lia.
          apply (slice_whole (nth q (tshape x) 0) _ (nth q e 0)).
          + unfold pos in Hst. rewrite Forall_forall in Hst. apply Hst, nth_In. lia.
          + apply Hoff; auto.
          + assert (valid (n1 ++ 1 :: n2) (j1 ++ 0 :: j2)) as V by (apply valid_mid; auto; apply T).
            pose proof (valid_nth _ _ q V) as Hv. rewrite mid_length in Hv. rewrite Es, mid_length in Hq'. specialize (Hv Hq').
            rewrite Es. rewrite (nth_mid_ne n1 d 1 n2 q 0 n). exact Hv. }
      rewrite <- L1, <- L3. rewrite slice_idx_tab. apply Rd; auto. unfold slice_dim in Hk. apply (cdiv_spec _ _ _ Hca) in Hk. lia.
Qed.

(** TILE along one axis *)
Lemma zipmul_one s : zipmul s (repeat 1 (length s)) = s.
Proof. induction s as [|d s IH]; [reflexivity|]. cbn [length repeat zipmul]. rewrite IH, Nat.mul_1_r. reflexivity. Qed.
Lemma zipmul_tab n1 d n2 v : zipmul (n1 ++ d :: n2) (tab 1 (length n1) v (length n2)) = n1 ++ (d * v) :: n2.
Proof. induction n1 as [|x n1 IH]; unfold tab in *; cbn [length repeat app zipmul]; [rewrite zipmul_one; reflexivity|]. rewrite IH, Nat.mul_1_r. reflexivity. Qed.
Lemma modidx_valid s i : valid s i -> modidx s i = i.
Proof. induction 1 as [|i d is s Hi V IH]; [reflexivity|]. cbn [modidx]. rewrite IH, Nat.mod_small by exact Hi. reflexivity. Qed.
Lemma modidx_mid n1 d n2 i1 k i2 : valid n1 i1 -> valid n2 i2 -> modidx (n1 ++ d :: n2) (i1 ++ k :: i2) = i1 ++ (k mod d) :: i2.
Proof.
  intros V1 V2. induction V1 as [|i x is s Hi V IH]; cbn [app modidx]; [rewrite modidx_valid by exact V2; reflexivity|].
  rewrite IH, Nat.mod_small by exact Hi. reflexivity.
Qed.
Lemma tile_moved {A} m ax (x : tensor A) P N : pos (tshape x) -> length m = length (tshape x) ->
  dims_shape (tshape x) (tshape (tile m x)) = Some ax ->
  offered KOther (Some ax) [tshape x] [tshape (tile m x)] P N ->
  exists m' x', rp_row 1 P N m = Some m' /\ rp_operand KOther P N x = Some x' /\ restored P (tile m' x') (tile m x).
Proof.
  intros Hp Lm Hdim Hof.
  assert (length (tshape (tile m x)) = length (tshape x)) as Lo.
  { cbn [tshape tile]. clear -Lm. revert m Lm. induction (tshape x) as [|d l IH]; intros [|? m] L1; cbn in *; try lia. rewrite IH by lia. reflexivity. }
  assert (forall k, nth k (tshape (tile m x)) 0 = nth k (tshape x) 0 * nth k m 0) as Hnth.
  { cbn [tshape tile]. clear -Lm. revert m Lm. induction (tshape x) as [|d l IH]; intros [|? m] L1 [|k]; cbn in *; try lia. apply IH; lia. }
  destruct (dims_shape_upd _ _ _ (eq_sym Lo) Hdim) as [Hax Eo].
  destruct (one_operand ax x _ P N Hof Hp Hax) as (p1 & p2 & n1 & n2 & d & M & Es & La & Hd & Eax & Eop & Rd).
  { intros o [<-|[]]. eexists. exact Eo. }
  assert (m = tab 1 (length n1) (nth (length n1) m 1) (length n2)) as Em.
  { apply tab_intro; [rewrite Lm, Es, mid_length; reflexivity|reflexivity|]. intros k Hk n. specialize (Hnth k). rewrite Eo, upd_nth in Hnth.
    destruct (Nat.eqb_spec k ax) as [E|_]; [congruence|]. cbn [andb] in Hnth. rewrite Lm in Hk.
    assert (0 < nth k (tshape x) 0) as Hk0 by (unfold pos in Hp; rewrite Forall_forall in Hp; apply Hp, nth_In, Hk).
    rewrite (nth_indep m 1 0) by lia. nia. }
  set (v := nth (length n1) m 1) in *. clear Hnth Eo Lo.
  exists (tab 1 (length p1) v (length p2)), (reshape (p1 ++ d :: p2) x). split; [|split; [exact Eop|]].
  { apply (row_marked _ _ _ _ _ _ _ _ _ M). rewrite Em. apply tab_error. }
  apply (restore P N p1 p2 n1 n2 (d * v)); auto.
  - cbn [tshape tile]. rewrite Es, Em. apply zipmul_tab.
  - cbn [tshape tile reshape]. apply zipmul_tab.
  - intros i1 i2 j1 j2 k T Hk. cbn [tget tile]. rewrite Es. change (tshape (reshape (p1 ++ d :: p2) x)) with (p1 ++ d :: p2).
    rewrite !modidx_mid by apply T. apply Rd; auto. apply Nat.mod_upper_bound. lia.
Qed.
