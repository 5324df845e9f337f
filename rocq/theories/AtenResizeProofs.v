(** Proofs about the lowering of padding and resampling. *)
From Coq Require Import List Arith Bool Reals ZArith Lia Lra.
From Verif Require Import Tensor FuseModel LowerProofs ConvSpec LayoutSpec AtenPoolModel QuantSpec AtenConvProofs AtenPoolProofs AtenMoveProofs ResizeSpec AtenResizeModel.
Import ListNotations.

Lemma rows2_spec l : forall m, length l = (2 * m)%nat -> exists p, rows2 l = Some p /\ length p = m /\
  forall i, nth i p (0, 0)%Z = (nth (2 * i) l 0%Z, nth (2 * i + 1) l 0%Z).
Proof.
  intro m. revert l. induction m as [|m IH]; intros l H.
  - destruct l; [|cbn in H; lia]. exists []. split; [reflexivity|]. split; [reflexivity|].
    intro i. rewrite !nth_overflow by (cbn; lia). reflexivity.
  - destruct l as [|a [|b l]]; cbn [length] in H; try lia. destruct (IH l ltac:(lia)) as (p & E & L & N).
    exists ((a, b) :: p). cbn [rows2]. rewrite E. split; [reflexivity|]. split; [cbn [length]; lia|].
    intros [|i]; [reflexivity|]. replace (2 * S i)%nat with (S (S (2 * i))) by lia. exact (N i).
Qed.

Lemma pad_arr_spec n pads m : length pads = (2 * m)%nat -> (m <= n)%nat ->
  exists arr, pad_arr n pads = Some arr /\ length arr = n /\
  forall k, (k < n)%nat -> nth k arr (0, 0)%Z = (pad_front pads n k, pad_back pads n k).
Proof.
  intros L H. destruct (rows2_spec pads m L) as (p & E & Lp & N).
  unfold pad_arr. rewrite E. cbn [obind]. rewrite Lp. destruct (Nat.ltb_spec n m); [lia|].
  assert (Ln : length (p ++ repeat (0, 0)%Z (n - m)) = n) by (rewrite app_length, repeat_length; lia).
  eexists. split; [reflexivity|]. split; [now rewrite rev_length|].
  intros k Hk. rewrite rev_nth by lia. rewrite Ln. unfold pad_front, pad_back.
  replace (n - S k)%nat with (n - 1 - k)%nat by lia. set (i := (n - 1 - k)%nat).
  destruct (Nat.lt_ge_cases i m).
  - rewrite app_nth1 by lia. apply N.
  - rewrite app_nth2 by lia. rewrite nth_repeat. rewrite !nth_overflow by lia. reflexivity.
Qed.

Lemma forallb_map_S f n : forallb f (seq 1 n) = forallb (fun k => f (S k)) (seq 0 n).
Proof. rewrite <- seq_shift. induction (seq 0 n); cbn [map forallb]; [reflexivity|]. now rewrite IHl. Qed.
Lemma map_map_S {A} (f : nat -> A) n : map f (seq 1 n) = map (fun k => f (S k)) (seq 0 n).
Proof. rewrite <- seq_shift. apply map_map. Qed.

Lemma pad_shape_nth : forall sh pads, length pads = length sh ->
  pad_shape sh pads = map (fun k => (fst (nth k pads (0, 0)) + nth k sh 0 + snd (nth k pads (0, 0)))%nat) (seq 0 (length sh)).
Proof.
  induction sh as [|d sh IH]; intros pads H; [reflexivity|]. destruct pads as [|[a b] pads]; [cbn in H; lia|].
  cbn [pad_shape length seq map nth fst snd]. rewrite map_map_S. f_equal. apply IH. cbn in H; lia.
Qed.
Lemma unpad_nth : forall sh pads idx, length pads = length sh -> length idx = length sh ->
  unpad sh pads idx =
  if forallb (fun k => (fst (nth k pads (0, 0)) <=? nth k idx 0)%nat &&
                       (nth k idx 0 - fst (nth k pads (0, 0)) <? nth k sh 0)%nat) (seq 0 (length sh))
  then Some (map (fun k => (nth k idx 0 - fst (nth k pads (0, 0)))%nat) (seq 0 (length sh))) else None.
Proof.
  induction sh as [|d sh IH]; intros pads idx H1 H2; [reflexivity|].
  destruct pads as [|[a b] pads]; [cbn in H1; lia|]. destruct idx as [|i idx]; [cbn in H2; lia|].
  cbn [unpad length seq map nth fst snd forallb]. rewrite map_map_S, forallb_map_S. cbn [nth].
  rewrite IH by (cbn in *; lia). destruct (_ && _); [|reflexivity]. cbn [andb]. now destruct (forallb _ _).
Qed.
Lemma reflect_idx_nth : forall sh pads idx, length pads = length sh -> length idx = length sh ->
  reflect_idx sh pads idx =
  map (fun k => LayoutSpec.reflect (nth k sh 0) (fst (nth k pads (0, 0))) (nth k idx 0)) (seq 0 (length sh)).
Proof.
  induction sh as [|d sh IH]; intros pads idx H1 H2; [reflexivity|].
  destruct pads as [|[a b] pads]; [cbn in H1; lia|]. destruct idx as [|i idx]; [cbn in H2; lia|].
  cbn [reflect_idx length seq map nth fst snd]. rewrite map_map_S. f_equal. apply IH; cbn in *; lia.
Qed.

Lemma nrows_nth arr k : nth k (nrows arr) (0, 0)%nat = (Z.to_nat (fst (nth k arr (0, 0)%Z)), Z.to_nat (snd (nth k arr (0, 0)%Z))).
Proof. exact (map_nth (fun ab => (Z.to_nat (fst ab), Z.to_nat (snd ab))) arr (0, 0)%Z k). Qed.
Lemma nrows_length arr : length (nrows arr) = length arr.
Proof. apply map_length. Qed.

Definition is_arr (arr : list (Z * Z)) (n : nat) (pads : list Z) : Prop :=
  length arr = n /\ forall k, (k < n)%nat -> nth k arr (0, 0)%Z = (pad_front pads n k, pad_back pads n k).
Lemma front_nonneg pads n k : Forall (fun p => 0 <= p)%Z pads -> (0 <= pad_front pads n k)%Z.
Proof.
  intro H. unfold pad_front. destruct (Nat.lt_ge_cases (2 * (n - 1 - k)) (length pads)); [|rewrite nth_overflow by lia; lia].
  apply (proj1 (Forall_forall _ _) H), nth_In. lia.
Qed.
Lemma back_nonneg pads n k : Forall (fun p => 0 <= p)%Z pads -> (0 <= pad_back pads n k)%Z.
Proof.
  intro H. unfold pad_back. destruct (Nat.lt_ge_cases (2 * (n - 1 - k) + 1) (length pads)); [|rewrite nth_overflow by lia; lia].
  apply (proj1 (Forall_forall _ _) H), nth_In. lia.
Qed.
Lemma is_arr_ok arr n pads : is_arr arr n pads -> Forall (fun p => 0 <= p)%Z pads -> rows_ok n arr = true.
Proof.
  intros [L N] H. unfold rows_ok. rewrite L, Nat.eqb_refl. cbn [andb]. apply forallb_forall. intros ab Hi.
  destruct (In_nth _ _ (0, 0)%Z Hi) as (k & Hk & E). rewrite N in E by lia. subst ab. cbn [fst snd].
  pose proof (front_nonneg pads n k H). pose proof (back_nonneg pads n k H).
  apply andb_true_intro. split; apply Z.leb_le; lia.
Qed.
Lemma is_arr_shape arr pads sh : is_arr arr (length sh) pads -> Forall (fun p => 0 <= p)%Z pads ->
  pad_shape sh (nrows arr) = torch_pad_shape pads sh.
Proof.
  intros [L N] H. rewrite pad_shape_nth by now rewrite nrows_length. unfold torch_pad_shape.
  apply map_ext_in. intros k Hk. apply in_seq in Hk. rewrite nrows_nth, N by lia. cbn [fst snd].
  pose proof (front_nonneg pads (length sh) k H). pose proof (back_nonneg pads (length sh) k H). lia.
Qed.

Lemma run_pad_ok {A} (v : A) arr pads x :
  is_arr arr (length (tshape x)) pads -> Forall (fun p => 0 <= p)%Z pads ->
  exists y, run_pad v arr x = Some y /\ teq y (torch_pad v pads x).
Proof.
  intros Ha Hp. unfold run_pad. rewrite (is_arr_ok _ _ _ Ha Hp). eexists. split; [reflexivity|].
  pose proof (is_arr_shape _ _ _ Ha Hp) as Es. destruct Ha as [L N].
  split; [exact Es|]. intros idx V. cbn [pad_op tshape] in V. pose proof (valid_length _ _ V) as Li.
  rewrite Es in Li. unfold torch_pad_shape in Li. rewrite map_length, seq_length in Li.
  cbn [pad_op tget torch_pad]. rewrite unpad_nth by (try rewrite nrows_length; lia).
  set (n := length (tshape x)) in *.
  assert (E : forallb (fun k => (fst (nth k (nrows arr) (0, 0)) <=? nth k idx 0)%nat && (nth k idx 0 - fst (nth k (nrows arr) (0, 0)) <? nth k (tshape x) 0)%nat) (seq 0 n)
            = forallb (fun k => (0 <=? Z.of_nat (nth k idx 0%nat) - pad_front pads n k)%Z && (Z.of_nat (nth k idx 0%nat) - pad_front pads n k <? Z.of_nat (nth k (tshape x) 0%nat))%Z) (seq 0 n)).
  { apply eq_true_iff_eq. rewrite !forallb_forall. split; intros G k Hk; specialize (G k Hk); apply in_seq in Hk;
      rewrite nrows_nth, N in * by lia; cbn [fst] in *; pose proof (front_nonneg pads n k Hp);
      apply andb_prop in G as [G1 G2]; apply andb_true_intro; split.
    - apply Z.leb_le. apply Nat.leb_le in G1. lia.
    - apply Z.ltb_lt. apply Nat.leb_le in G1. apply Nat.ltb_lt in G2. lia.
    - apply Nat.leb_le. apply Z.leb_le in G1. lia.
    - apply Nat.ltb_lt. apply Z.leb_le in G1. apply Z.ltb_lt in G2. lia. }
  rewrite E. clear E. destruct (forallb _ _); [|reflexivity]. f_equal. apply map_ext_in. intros k Hk.
  apply in_seq in Hk. rewrite nrows_nth, N by lia. cbn [fst]. pose proof (front_nonneg pads n k Hp). lia.
Qed.

Lemma torch_pad_shape_length pads sh : length (torch_pad_shape pads sh) = length sh.
Proof. unfold torch_pad_shape. now rewrite map_length, seq_length. Qed.
Lemma torch_pad_shape_nth pads sh k : (k < length sh)%nat ->
  nth k (torch_pad_shape pads sh) 0%nat = Z.to_nat (pad_front pads (length sh) k + Z.of_nat (nth k sh 0%nat) + pad_back pads (length sh) k).
Proof.
  intro H. unfold torch_pad_shape. set (F := fun k => Z.to_nat _). rewrite (nth_indep _ 0%nat (F 0%nat)) by (rewrite map_length, seq_length; lia).
  rewrite map_nth, seq_nth by lia. reflexivity.
Qed.

Lemma run_mirror_ok {A} arr pads (x : tensor A) :
  is_arr arr (length (tshape x)) pads -> Forall (fun p => 0 <= p)%Z pads -> refl_ok (tshape x) pads ->
  exists y, run_mirror arr x = Some y /\ teq y (torch_reflect pads x).
Proof.
  intros Ha Hp Hr. unfold run_mirror. rewrite (is_arr_ok _ _ _ Ha Hp). cbn [andb].
  pose proof (is_arr_shape _ _ _ Ha Hp) as Es. destruct Ha as [L N].
  replace (forallb _ _) with true.
  2:{ symmetry. apply forallb_forall. intros [d ab] Hi. destruct (In_nth _ _ (0%nat, (0, 0)%Z) Hi) as (k & Hk & E).
      rewrite combine_length, L, Nat.min_id in Hk. rewrite combine_nth, N in E by lia. inversion E; subst. cbn [fst snd].
      destruct (Hr k Hk). apply Z.ltb_lt. lia. }
  eexists. split; [reflexivity|]. split; [exact Es|].
  intros idx V. cbn [mirror_pad tshape] in V. rewrite Es in V. pose proof (valid_length _ _ V) as Li.
  unfold torch_pad_shape in Li. rewrite map_length, seq_length in Li.
  cbn [mirror_pad tget torch_reflect]. rewrite reflect_idx_nth by (try rewrite nrows_length; lia).
  f_equal. apply map_ext_in. intros k Hk. apply in_seq in Hk. rewrite nrows_nth, N by lia. cbn [fst].
  pose proof (front_nonneg pads (length (tshape x)) k Hp) as Hf. destruct (Hr k ltac:(lia)) as [H1 H2].
  pose proof (valid_nth _ _ k V) as Hv. rewrite torch_pad_shape_length, torch_pad_shape_nth in Hv by lia. specialize (Hv ltac:(lia)).
  unfold LayoutSpec.reflect, fold_back.
  set (f := pad_front pads (length (tshape x)) k) in *. set (b := pad_back pads (length (tshape x)) k) in *.
  set (d := nth k (tshape x) 0%nat) in *. set (i := nth k idx 0%nat) in *.
  destruct (Nat.ltb_spec i (Z.to_nat f)).
  - destruct (Z.ltb_spec (Z.abs (Z.of_nat i - f)) (Z.of_nat d)); lia.
  - destruct (Nat.ltb_spec (i - Z.to_nat f) d); destruct (Z.ltb_spec (Z.abs (Z.of_nat i - f)) (Z.of_nat d)); lia.
Qed.

Theorem aten_constant_pad_ok flt v pads m x :
  length pads = (2 * m)%nat -> (m <= length (tshape x))%nat -> Forall (fun p => 0 <= p)%Z pads ->
  flt = true \/ v = 0%R ->
  exists y, aten_constant_pad flt v pads x = Some y /\ teq y (torch_pad v pads x).
Proof.
  intros L H Hp Hf. destruct (pad_arr_spec _ _ _ L H) as (arr & E & La & Na).
  unfold aten_constant_pad. rewrite E. cbn [obind]. pose proof (conj La Na : is_arr _ _ _) as Ha.
  destruct (Req_EM_T v 0) as [-> |Hv]; [now apply run_pad_ok|]. destruct Hf as [-> |Hf]; [|tauto]. now apply run_pad_ok.
Qed.
Theorem aten_pad_ok flt v pads m x :
  length pads = (2 * m)%nat -> (m <= length (tshape x))%nat -> Forall (fun p => 0 <= p)%Z pads ->
  flt = true \/ fill v = 0%R ->
  exists y, aten_pad MConstant flt v pads x = Some y /\ teq y (torch_pad (fill v) pads x).
Proof.
  intros L H Hp Hf. destruct (pad_arr_spec _ _ _ L H) as (arr & E & La & Na).
  unfold aten_pad. rewrite E. cbn [obind]. pose proof (conj La Na : is_arr _ _ _) as Ha.
  destruct v as [c|]; cbn [fill] in *; [|now apply run_pad_ok].
  destruct (Req_EM_T c 0) as [-> |Hv]; [now apply run_pad_ok|]. destruct Hf as [-> |Hf]; [|tauto]. now apply run_pad_ok.
Qed.
Theorem aten_pad_reflect_ok flt v pads m x :
  length pads = (2 * m)%nat -> (m <= length (tshape x))%nat -> Forall (fun p => 0 <= p)%Z pads ->
  refl_ok (tshape x) pads -> fill v = 0%R ->
  exists y, aten_pad MReflect flt v pads x = Some y /\ teq y (torch_reflect pads x).
Proof.
  intros L H Hp Hr Hf. destruct (pad_arr_spec _ _ _ L H) as (arr & E & La & Na).
  unfold aten_pad. rewrite E. cbn [obind]. pose proof (conj La Na : is_arr _ _ _) as Ha.
  destruct v as [c|]; cbn [fill] in *; [|now apply run_mirror_ok].
  destruct (Req_EM_T c 0) as [-> |Hv]; [now apply run_mirror_ok|]. tauto.
Qed.
Theorem aten_reflection_pad2d_ok {A} p0 p1 p2 p3 (x : tensor A) :
  length (tshape x) = 4%nat -> Forall (fun p => 0 <= p)%Z [p0; p1; p2; p3] -> refl_ok (tshape x) [p0; p1; p2; p3] ->
  exists y, aten_reflection_pad2d [p0; p1; p2; p3] x = Some y /\ teq y (torch_reflect [p0; p1; p2; p3] x).
Proof.
  intros L Hp Hr. unfold aten_reflection_pad2d. apply run_mirror_ok; [|exact Hp|exact Hr]. rewrite L. split; [reflexivity|].
  intros k Hk. do 4 (destruct k as [|k]; [reflexivity|]). lia.
Qed.
Theorem aten_reflection_pad1d_ok {A} p0 p1 (x : tensor A) :
  length (tshape x) = 3%nat -> Forall (fun p => 0 <= p)%Z [p0; p1] -> refl_ok (tshape x) [p0; p1] ->
  exists y, aten_reflection_pad1d [p0; p1] x = Some y /\ teq y (torch_reflect [p0; p1] x).
Proof.
  intros L Hp Hr. unfold aten_reflection_pad1d. apply run_mirror_ok; [|exact Hp|exact Hr]. rewrite L. split; [reflexivity|].
  intros k Hk. do 3 (destruct k as [|k]; [reflexivity|]). lia.
Qed.

(** where it fails *)
Theorem constant_pad_crop_refuted : exists pads x, length pads = 2%nat /\ length (tshape x) = 1%nat /\
  tshape (torch_pad 0%R pads x) = [2%nat] /\ aten_constant_pad true 0%R pads x = None.
Proof.
  exists [-1; 0]%Z, (mkT [3%nat] (fun _ => 0%R)). do 3 (split; [reflexivity|]).
  unfold aten_constant_pad. cbn. destruct (Req_EM_T 0 0); [reflexivity|lra].
Qed.
Theorem constant_pad_integer_refuted : exists v pads x, length pads = 2%nat /\ Forall (fun p => 0 <= p)%Z pads /\
  tshape (torch_pad v pads x) = [4%nat] /\ aten_constant_pad false v pads x = None.
Proof.
  exists 1%R, [1; 0]%Z, (mkT [3%nat] (fun _ => 0%R)). do 3 (split; [repeat constructor; lia|]).
  unfold aten_constant_pad. cbn. destruct (Req_EM_T 1 0); [lra|reflexivity].
Qed.
Theorem reflection_unbatched_refuted : exists pads (x : tensor R), length (tshape x) = 3%nat /\
  Forall (fun p => 0 <= p)%Z pads /\ refl_ok (tshape x) pads /\
  tshape (torch_reflect pads x) = [1%nat; 4%nat; 4%nat] /\ aten_reflection_pad2d pads x = None.
Proof.
  exists [1; 1; 1; 1]%Z, (mkT [1; 2; 2]%nat (fun _ => 0%R)). repeat split; try (repeat constructor; lia).
  all: cbn [tshape length] in *; do 3 (destruct k as [|k]; [vm_compute; reflexivity|]); lia.
Qed.

(** ** Nearest *)
Lemma INR_IZR_to_nat z : (0 <= z)%Z -> INR (Z.to_nat z) = IZR z.
Proof. intro H. rewrite INR_IZR_INZ, Z2Nat.id by lia. reflexivity. Qed.
Lemma floor_div a b : (0 < b)%nat -> Z.to_nat (Int_part (INR a / INR b)) = (a / b)%nat.
Proof.
  intro H. assert (Hb : (0 < INR b)%R) by (now apply lt_0_INR).
  rewrite (Int_part_unique _ (Z.of_nat (a / b))); [apply Nat2Z.id|]. rewrite <- INR_IZR_INZ.
  pose proof (Nat.div_mod a b ltac:(lia)) as E. pose proof (Nat.mod_upper_bound a b ltac:(lia)) as Hm.
  assert (Ea : INR a = (INR b * INR (a / b) + INR (a mod b))%R) by (rewrite <- mult_INR, <- plus_INR; now f_equal).
  assert (H0 : (0 <= INR (a mod b))%R) by apply pos_INR. assert (H1 : (INR (a mod b) < INR b)%R) by now apply lt_INR.
  split.
  - apply Rmult_le_reg_r with (INR b); [exact Hb|]. replace (INR a / INR b * INR b)%R with (INR a) by (field; lra). nra.
  - apply Rmult_lt_reg_r with (INR b); [exact Hb|]. replace (INR a / INR b * INR b)%R with (INR a) by (field; lra). nra.
Qed.
(** the scale factor, if any, is the exact quotient of the sizes *)
Definition exact_sf (sf : option R) (inp out : nat) : Prop :=
  match sf with None => True | Some s => (INR out = INR inp * s)%R end.
Lemma near_eq sf inp out d : (0 < inp)%nat -> (0 < out)%nat -> exact_sf sf inp out ->
  nearest_src sf inp out d = near_in inp out d.
Proof.
  intros Hi Ho He. assert (Hb : (0 < INR out)%R) by (now apply lt_0_INR). assert (Ha : (0 < INR inp)%R) by (now apply lt_0_INR).
  unfold nearest_src, near_in. f_equal. rewrite <- floor_div by exact Ho. rewrite mult_INR.
  destruct sf as [s|]; cbn [exact_sf] in He; [|reflexivity]. f_equal. f_equal. rewrite He. field.
  split; [|lra]. intro Hs. rewrite Hs in He. lra.
Qed.

Definition arg_sf (a : resize_arg) : option R * option R :=
  match a with BySize _ _ => (None, None) | ByScale sh sw => (Some sh, Some sw) end.

Theorem aten_upsample_nearest_ok a x N C H W :
  tshape x = [N; C; H; W] -> (0 < H)%nat -> (0 < W)%nat ->
  (0 < fst (resize_out a x))%nat -> (0 < snd (resize_out a x))%nat ->
  exact_sf (fst (arg_sf a)) H (fst (resize_out a x)) -> exact_sf (snd (arg_sf a)) W (snd (resize_out a x)) ->
  teq (aten_upsample_nearest a x)
      (torch_nearest (fst (arg_sf a)) (snd (arg_sf a)) (fst (resize_out a x)) (snd (resize_out a x)) x).
Proof.
  intros Hx HH HW Ho1 Ho2 E1 E2. unfold aten_upsample_nearest. destruct (resize_out a x) as [oh ow]. cbn [fst snd] in *.
  split.
  - unfold wrap_nhwc. cbn [transpose tshape resize_nearest torch_nearest]. rewrite Hx. reflexivity.
  - intros idx V. unfold wrap_nhwc in V. cbn [transpose tshape resize_nearest] in V. rewrite Hx in V.
    destruct (valid4 _ _ _ _ _ V) as (n & c & i & j & -> & Hn & Hc & Hi & Hj).
    unfold wrap_nhwc. cbn [transpose tget resize_nearest torch_nearest tshape]. rewrite Hx.
    cbn [nth sel map inv_perm length seq find_pos Nat.eqb]. rewrite !near_eq by assumption. reflexivity.
Qed.

(** ** Bilinear *)
Lemma rb_lerp n s f : (0 < n)%nat -> (-1 < s < INR n)%R ->
  ((1 - (s - INR (rb_lo s))) * f (rb_lo s) + (s - INR (rb_lo s)) * f (rb_hi s n) = lerp n (Rmax 0 s) f)%R.
Proof.
  intros Hn [H1 H2]. unfold lerp, rb_lo, rb_hi.
  pose proof (Int_part_bound (- s)) as [C1 C2]. pose proof (Int_part_bound s) as [F1 F2].
  set (z := Int_part s) in *. set (c := Int_part (- s)) in *.
  destruct (Rlt_dec s 0) as [Hs|Hs].
  - rewrite Rmax_left by lra.
    assert (z = -1)%Z. { assert (z < 0)%Z by (apply lt_IZR; lra). assert (-2 < z)%Z by (apply lt_IZR; lra). lia. }
    assert (c = 0)%Z. { assert (c < 1)%Z by (apply lt_IZR; lra). assert (-1 < c)%Z by (apply lt_IZR; lra). lia. }
    rewrite (Int_part_unique 0 0) by lra. subst z. rewrite H, H0. cbn [Z.to_nat Z.max Z.compare Z.opp].
    replace (Z.to_nat (Z.min 0 (Z.of_nat n - 1))) with 0%nat by lia. cbn [INR]. ring.
  - rewrite Rmax_right by lra. fold z. assert (Hz : (0 <= z)%Z). { assert (-1 < z)%Z by (apply lt_IZR; lra). lia. }
    rewrite Z.max_r by exact Hz. rewrite (INR_IZR_to_nat z Hz).
    assert (Hzn : (z < Z.of_nat n)%Z). { apply lt_IZR. rewrite <- INR_IZR_INZ. lra. }
    destruct (Req_EM_T s (IZR z)) as [E|E].
    + rewrite E. ring.
    + assert (c = - z - 1)%Z.
      { assert (c < - z)%Z by (apply lt_IZR; rewrite opp_IZR; lra). assert (- z - 2 < c)%Z by (apply lt_IZR; rewrite minus_IZR, opp_IZR; lra). lia. }
      destruct (Nat.ltb_spec (Z.to_nat z) (n - 1)).
      * replace (Z.to_nat (Z.min (- c) (Z.of_nat n - 1))) with (S (Z.to_nat z)) by lia. reflexivity.
      * replace (Z.to_nat (Z.min (- c) (Z.of_nat n - 1))) with (Z.to_nat z) by lia. reflexivity.
Qed.

Lemma src_eq align sf inp out d : (0 < inp)%nat -> (d < out)%nat -> (align = true \/ exact_sf sf inp out) ->
  (-1 < rb_pos align (negb align) inp out d < INR inp)%R /\
  linear_src align sf inp out d = Rmax 0 (rb_pos align (negb align) inp out d).
Proof.
  intros Hi Hd He. assert (Ho : (0 < INR out)%R) by (apply lt_0_INR; lia). assert (Ha : (0 < INR inp)%R) by (apply lt_0_INR; lia).
  assert (Hdd : (0 <= INR d)%R) by apply pos_INR.
  assert (Hd1 : (INR d <= INR out - 1)%R). { replace 1%R with (INR 1) by reflexivity. rewrite <- minus_INR by lia. apply le_INR. lia. }
  unfold rb_pos, linear_src, rb_scale. destruct align; cbn [negb andb].
  - destruct (Nat.leb_spec out 1) as [H|H].
    + assert (out = 1%nat) as -> by lia. assert (d = 0%nat) as -> by lia. cbn [Nat.ltb Nat.leb INR].
      replace (0 * (INR inp / 1))%R with 0%R by field. rewrite Rmax_left by lra. lra.
    + destruct (Nat.ltb_spec 1 out) as [_|]; [|lia].
      assert (Hp : (0 < INR (out - 1))%R) by (apply lt_0_INR; lia).
      assert (Eo : (INR (out - 1) = INR out - 1)%R) by (rewrite minus_INR by lia; reflexivity).
      assert (Ei : (INR (inp - 1) = INR inp - 1)%R) by (rewrite minus_INR by lia; reflexivity).
      assert (H0 : (0 <= INR (inp - 1))%R) by apply pos_INR.
      assert (B0 : (0 <= INR d * (INR (inp - 1) / INR (out - 1)))%R).
      { apply Rmult_le_pos; [exact Hdd|]. apply Rmult_le_pos; [exact H0|]. left. now apply Rinv_0_lt_compat. }
      assert (B1 : (INR d * (INR (inp - 1) / INR (out - 1)) <= INR (inp - 1))%R).
      { apply Rmult_le_reg_r with (INR (out - 1)); [exact Hp|].
        replace (INR d * (INR (inp - 1) / INR (out - 1)) * INR (out - 1))%R with (INR d * INR (inp - 1))%R by (field; lra). nra. }
      rewrite Rmax_right by exact B0. lra.
  - assert (E : (match sf with Some s => 1 / s | None => INR inp / INR out end = INR inp / INR out)%R).
    { destruct He as [He|He]; [discriminate|]. destruct sf as [s|]; [|reflexivity]. cbn [exact_sf] in He. rewrite He. field.
      split; [|lra]. intro Hs. rewrite Hs in He. lra. }
    rewrite E. split; [|reflexivity].
    assert (Hq : (0 < INR inp / INR out)%R) by (apply Rdiv_lt_0_compat; assumption).
    assert (Hu : ((INR d + 1 / 2) * (INR inp / INR out) < INR inp)%R).
    { apply Rmult_lt_reg_r with (INR out); [exact Ho|].
      replace ((INR d + 1 / 2) * (INR inp / INR out) * INR out)%R with ((INR d + 1 / 2) * INR inp)%R by (field; lra). nra. }
    assert (0 <= (INR d + 1 / 2) * (INR inp / INR out))%R by (apply Rmult_le_pos; lra). lra.
Qed.

Theorem aten_upsample_bilinear_ok align a x N C H W :
  tshape x = [N; C; H; W] -> (0 < H)%nat -> (0 < W)%nat ->
  align = true \/ exact_sf (fst (arg_sf a)) H (fst (resize_out a x)) ->
  align = true \/ exact_sf (snd (arg_sf a)) W (snd (resize_out a x)) ->
  teq (aten_upsample_bilinear align a x)
      (torch_bilinear align (fst (arg_sf a)) (snd (arg_sf a)) (fst (resize_out a x)) (snd (resize_out a x)) x).
Proof.
  intros Hx HH HW E1 E2. unfold aten_upsample_bilinear. destruct (resize_out a x) as [oh ow]. cbn [fst snd] in *.
  split.
  - unfold wrap_nhwc. cbn [transpose tshape resize_bilinear torch_bilinear]. rewrite Hx. reflexivity.
  - intros idx V. unfold wrap_nhwc in V. cbn [transpose tshape resize_bilinear] in V. rewrite Hx in V.
    destruct (valid4 _ _ _ _ _ V) as (n & c & i & j & -> & Hn & Hc & Hi & Hj).
    unfold wrap_nhwc. cbn [transpose tget resize_bilinear torch_bilinear tshape]. rewrite Hx.
    cbn [nth sel map inv_perm length seq find_pos Nat.eqb] in Hi, Hj |- *.
    destruct (src_eq align (fst (arg_sf a)) H oh i HH Hi E1) as [B1 L1].
    destruct (src_eq align (snd (arg_sf a)) W ow j HW Hj E2) as [B2 L2]. rewrite L1, L2.
    rewrite <- (rb_lerp H _ _ HH B1). rewrite <- !(rb_lerp W _ _ HW B2). ring.
Qed.

Theorem upsample_nearest_scale_refuted : exists s x, tshape x = [1; 1; 5; 1]%nat /\ (0 < s)%R /\
  resize_out (ByScale s 1) x = (6, 1)%nat /\
  tget (aten_upsample_nearest (ByScale s 1) x) [0; 0; 5; 0]%nat <> tget (torch_nearest (Some s) (Some 1%R) 6 1 x) [0; 0; 5; 0]%nat.
Proof.
  exists (13 / 10)%R, (mkT [1; 1; 5; 1]%nat (fun idx => INR (nth 2 idx 0%nat))).
  assert (Er : resize_out (ByScale (13 / 10) 1) (mkT [1; 1; 5; 1]%nat (fun idx => INR (nth 2 idx 0%nat))) = (6, 1)%nat).
  { cbn [resize_out tshape nth]. unfold scaled_size. rewrite (Int_part_unique (INR 5 * (13 / 10)) 6), (Int_part_unique (INR 1 * 1) 1); [reflexivity|cbn [INR]; lra|cbn [INR]; lra]. }
  split; [reflexivity|]. split; [lra|]. split; [exact Er|].
  unfold aten_upsample_nearest. rewrite Er. unfold torch_nearest. cbn [tget tshape nth]. unfold nearest_src.
  rewrite (Int_part_unique (INR 5 / (13 / 10)) 3) by (cbn [INR]; lra).
  change (INR 4 <> INR 3). cbn [INR]. lra.
Qed.
Theorem upsample_bilinear_scale_refuted : exists s x, tshape x = [1; 1; 5; 1]%nat /\ (0 < s)%R /\
  resize_out (ByScale s 1) x = (6, 1)%nat /\
  tget (aten_upsample_bilinear false (ByScale s 1) x) [0; 0; 1; 0]%nat <> tget (torch_bilinear false (Some s) (Some 1%R) 6 1 x) [0; 0; 1; 0]%nat.
Proof.
  exists (13 / 10)%R, (mkT [1; 1; 5; 1]%nat (fun idx => INR (nth 2 idx 0%nat))).
  assert (Er : resize_out (ByScale (13 / 10) 1) (mkT [1; 1; 5; 1]%nat (fun idx => INR (nth 2 idx 0%nat))) = (6, 1)%nat).
  { cbn [resize_out tshape nth]. unfold scaled_size. rewrite (Int_part_unique (INR 5 * (13 / 10)) 6), (Int_part_unique (INR 1 * 1) 1); [reflexivity|cbn [INR]; lra|cbn [INR]; lra]. }
  split; [reflexivity|]. split; [lra|]. split; [exact Er|].
  unfold aten_upsample_bilinear. rewrite Er. unfold wrap_nhwc. cbn [transpose tget resize_bilinear torch_bilinear tshape].
  cbn [nth sel map inv_perm length seq find_pos Nat.eqb negb].
  destruct (src_eq false None 5 6 1 ltac:(lia) ltac:(lia) (or_intror I)) as [B1 _].
  destruct (src_eq false None 1 1 0 ltac:(lia) ltac:(lia) (or_intror I)) as [B2 _]. cbn [negb] in B1, B2.
  unfold rb_pos, rb_scale, linear_src, rb_lo, rb_hi, lerp. cbn [andb negb].
  replace ((INR 1 + 1 / 2) * (INR 5 / INR 6) - 1 / 2)%R with (3 / 4)%R by (cbn [INR]; field).
  replace ((INR 0 + 1 / 2) * (INR 1 / INR 1) - 1 / 2)%R with 0%R by (cbn [INR]; field).
  replace ((INR 1 + 1 / 2) * (1 / (13 / 10)) - 1 / 2)%R with (17 / 26)%R by (cbn [INR]; field).
  replace ((INR 0 + 1 / 2) * (1 / 1) - 1 / 2)%R with 0%R by (cbn [INR]; field).
  rewrite !Rmax_right by lra. rewrite (Int_part_unique (3 / 4) 0), (Int_part_unique (- (3 / 4)) (-1)), (Int_part_unique (17 / 26) 0) by lra.
  rewrite (Int_part_unique 0 0) by lra. rewrite ?Ropp_0. rewrite ?(Int_part_unique 0 0) by lra. change (INR (Z.to_nat (Z.max 0 0))) with 0%R.
  change (INR (Z.to_nat (Z.min (- (-1)) (Z.of_nat 5 - 1)))) with 1%R. change (INR (Z.to_nat 0)) with 0%R.
  change (INR (if Z.to_nat 0 <? 5 - 1 then S (Z.to_nat 0) else Z.to_nat 0)) with 1%R.
  intro E. lra.
Qed.

Theorem upsample_nearest_size oh ow x N C H W :
  tshape x = [N; C; H; W] -> (0 < H)%nat -> (0 < W)%nat -> (0 < oh)%nat -> (0 < ow)%nat ->
  teq (aten_upsample_nearest (BySize oh ow) x) (torch_nearest None None oh ow x).
Proof. intros Hx HH HW H1 H2. exact (aten_upsample_nearest_ok (BySize oh ow) x N C H W Hx HH HW H1 H2 I I). Qed.
Lemma scaled_exact inp s out : (INR out = INR inp * s)%R -> scaled_size inp s = out.
Proof.
  intro E. unfold scaled_size. rewrite <- E. rewrite (Int_part_unique _ (Z.of_nat out)); [apply Nat2Z.id|].
  rewrite <- INR_IZR_INZ. lra.
Qed.
Theorem upsample_nearest_scale sh sw oh ow x N C H W :
  tshape x = [N; C; H; W] -> (0 < H)%nat -> (0 < W)%nat -> (0 < oh)%nat -> (0 < ow)%nat ->
  (INR oh = INR H * sh)%R -> (INR ow = INR W * sw)%R ->
  teq (aten_upsample_nearest (ByScale sh sw) x) (torch_nearest (Some sh) (Some sw) oh ow x).
Proof.
  intros Hx HH HW H1 H2 E1 E2. pose proof (aten_upsample_nearest_ok (ByScale sh sw) x N C H W Hx HH HW) as G.
  cbn [resize_out fst snd arg_sf exact_sf] in G. rewrite Hx in G. cbn [nth] in G.
  rewrite (scaled_exact H sh oh E1), (scaled_exact W sw ow E2) in G. auto.
Qed.
Theorem upsample_bilinear_size align oh ow x N C H W :
  tshape x = [N; C; H; W] -> (0 < H)%nat -> (0 < W)%nat ->
  teq (aten_upsample_bilinear align (BySize oh ow) x) (torch_bilinear align None None oh ow x).
Proof. intros Hx HH HW. exact (aten_upsample_bilinear_ok align (BySize oh ow) x N C H W Hx HH HW (or_intror I) (or_intror I)). Qed.
Theorem upsample_bilinear_aligned sh sw x N C H W :
  tshape x = [N; C; H; W] -> (0 < H)%nat -> (0 < W)%nat ->
  teq (aten_upsample_bilinear true (ByScale sh sw) x)
      (torch_bilinear true (Some sh) (Some sw) (scaled_size H sh) (scaled_size W sw) x).
Proof.
  intros Hx HH HW. pose proof (aten_upsample_bilinear_ok true (ByScale sh sw) x N C H W Hx HH HW (or_introl eq_refl) (or_introl eq_refl)) as G.
  cbn [resize_out fst snd arg_sf] in G. rewrite Hx in G. exact G.
Qed.
Theorem upsample_bilinear_scale sh sw oh ow x N C H W :
  tshape x = [N; C; H; W] -> (0 < H)%nat -> (0 < W)%nat ->
  (INR oh = INR H * sh)%R -> (INR ow = INR W * sw)%R ->
  teq (aten_upsample_bilinear false (ByScale sh sw) x) (torch_bilinear false (Some sh) (Some sw) oh ow x).
Proof.
  intros Hx HH HW E1 E2. pose proof (aten_upsample_bilinear_ok false (ByScale sh sw) x N C H W Hx HH HW) as G.
  cbn [resize_out fst snd arg_sf exact_sf] in G. rewrite Hx in G. cbn [nth] in G.
  rewrite (scaled_exact H sh oh E1), (scaled_exact W sw ow E2) in G. auto.
Qed.
