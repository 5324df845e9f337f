(** Proofs about SAME padding (FuseModel.v). *)
From Coq Require Import List Arith Bool Reals Lia Lra ZArith.
From Verif Require Import Tensor ConvSpec ChainModel FuseModel.
Import ListNotations.
Local Open Scope nat_scope.

(** spatial axis attributes: size, kernel, stride, dilation, all positive *)
Fixpoint axes_ok (dims ks stride dil : list nat) : Prop :=
  match dims, ks, stride, dil with
  | d :: dims', k :: ks', s :: stride', l :: dil' =>
      (0 < d /\ 0 < k /\ 0 < s) /\ axes_ok dims' ks' stride' dil'
  | [], [], [], [] => True
  | _, _, _, _ => False
  end.

(* ------------------------------------------------------------------ *)
(** * One axis *)

Lemma same_out_spec d s : 0 < d -> 0 < s ->
  same_out d s = if d mod s =? 0 then d / s else d / s + 1.
Proof.
  intros Hd Hs. unfold same_out, cdiv. pose proof (Nat.div_mod d s ltac:(lia)) as E.
  pose proof (Nat.mod_upper_bound d s ltac:(lia)).
  destruct (Nat.eqb_spec (d mod s) 0) as [E0|E0].
  - symmetry. apply Nat.div_unique with (r := s - 1); nia.
  - symmetry. apply Nat.div_unique with (r := d mod s - 1); nia.
Qed.

Lemma same_padding_dim_spec d k s l : 0 < d -> 0 < k -> 0 < s ->
  same_padding_dim d k s l = (same_out d s - 1) * s + (l * (k - 1) + 1) - d.
Proof.
  intros Hd Hk Hs. rewrite same_out_spec by auto. unfold same_padding_dim.
  pose proof (Nat.div_mod d s ltac:(lia)) as E. pose proof (Nat.mod_upper_bound d s ltac:(lia)) as U.
  destruct k as [|k]; [lia|]. replace (S k - 1) with k by lia. rewrite (Nat.mul_comm l k).
  replace (Z.of_nat (S k) - 1)%Z with (Z.of_nat k) by lia. rewrite <- Nat2Z.inj_mul.
  set (kl := k * l) in *. set (q := d / s) in *. set (r := d mod s) in *.
  destruct (Nat.eqb_spec r 0) as [E0|E0].
  - assert (0 < q) by nia. assert ((q - 1) * s + s = d) by nia. lia.
  - replace (q + 1 - 1) with q by lia. replace (q * s) with (s * q) by lia. lia.
Qed.

Lemma same_before_spec d k s l : 0 < d -> 0 < k -> 0 < s -> same_before d s l k = same_padding_dim d k s l / 2.
Proof. intros. rewrite same_padding_dim_spec by auto. reflexivity. Qed.

Lemma same_valid_out d k s l : 0 < d -> 0 < k -> 0 < s ->
  let P := same_padding_dim d k s l in
  valid_out (P / 2 + d + (P - P / 2)) s l k = same_out d s /\ l * (k - 1) + 1 <= d + P /\
  (same_out d s - 1) * s + l * (k - 1) < d + P.
Proof.
  intros Hd Hk Hs P. pose proof (same_padding_dim_spec d k s l Hd Hk Hs) as EP. fold P in EP.
  assert (P / 2 <= P) by (apply Nat.div_le_upper_bound; lia).
  replace (P / 2 + d + (P - P / 2)) with (d + P) by lia.
  rewrite same_out_spec in * by auto.
  pose proof (Nat.div_mod d s ltac:(lia)) as E. pose proof (Nat.mod_upper_bound d s ltac:(lia)) as U.
  unfold valid_out. set (eff := l * (k - 1)) in *. set (q := d / s) in *. set (r := d mod s) in *.
  destruct (Nat.eqb_spec r 0) as [E0|E0].
  - assert (0 < q) by nia. assert ((q - 1) * s + s = d) as Es by nia.
    rewrite (Nat.mul_comm s) in E. set (A := (q - 1) * s) in *. split; [|split; lia].
    enough ((d + P - (eff + 1)) / s = q - 1) by lia.
    symmetry. apply Nat.div_unique with (r := d + P - (eff + 1) - A); [lia|].
    rewrite (Nat.mul_comm s). fold A. lia.
  - replace (q + 1 - 1) with q in * by lia. rewrite (Nat.mul_comm q s) in *.
    split; [|split; lia].
    enough ((d + P - (eff + 1)) / s = q) by lia.
    symmetry. apply Nat.div_unique with (r := d + P - (eff + 1) - s * q); lia.
Qed.

Lemma same_out_pos d s : 0 < d -> 0 < s -> 0 < same_out d s /\ (same_out d s - 1) * s < d.
Proof.
  intros Hd Hs. rewrite same_out_spec by auto. pose proof (Nat.div_mod d s ltac:(lia)) as E.
  pose proof (Nat.mod_upper_bound d s ltac:(lia)) as U.
  destruct (Nat.eqb_spec (d mod s) 0) as [E0|E0].
  - assert (0 < d / s) by nia. split; [auto|]. nia.
  - replace (d / s + 1 - 1) with (d / s) by lia. split; nia.
Qed.

(* ------------------------------------------------------------------ *)
(** * All axes *)

Lemma pads_eqb_eq a b : pads_eqb a b = true -> a = b.
Proof.
  revert b. induction a as [|[x y] a IH]; intros [|[u v] b] H; simpl in H; try discriminate; auto.
  apply andb_prop in H. destruct H as [H1 H2]. apply andb_prop in H1. destruct H1 as [H0 H1].
  apply Nat.eqb_eq in H0, H1. apply IH in H2. congruence.
Qed.

Definition halves (P : list nat) : list (nat * nat) := map (fun x => (x / 2, x - x / 2)) P.

Lemma same_befores_eq dims ks stride dil : axes_ok dims ks stride dil ->
  same_befores dims stride dil ks = map fst (halves (same_padding_dims dims ks stride dil)).
Proof.
  revert ks stride dil. induction dims as [|d dims IH]; intros [|k ks] [|s stride] [|l dil] H; simpl in H; try contradiction; auto.
  destruct H as ((H1 & H2 & H3) & H). cbn. f_equal; [|apply IH; auto]. apply same_before_spec; auto.
Qed.

Lemma same_valid_outs dims ks stride dil : axes_ok dims ks stride dil ->
  valid_outs (pad_shape dims (halves (same_padding_dims dims ks stride dil))) stride dil ks = same_outs dims stride.
Proof.
  revert ks stride dil. induction dims as [|d dims IH]; intros [|k ks] [|s stride] [|l dil] H; simpl in H; try contradiction; auto.
  destruct H as ((H1 & H2 & H3) & H). cbn [same_padding_dims halves map pad_shape valid_outs same_outs].
  f_equal; [|apply IH; auto]. apply same_valid_out; auto.
Qed.

(** a tap of the padded operand falls on the tap of the SAME operator, or in the padding *)
Lemma padded_tap dims ks stride dil pos t : axes_ok dims ks stride dil ->
  valid (same_outs dims stride) pos -> valid ks t ->
  let pads := halves (same_padding_dims dims ks stride dil) in
  exists q, tap (pad_shape dims pads) stride dil (map (fun _ => 0) (pad_shape dims pads)) pos t = Some q /\
            length q = length dims /\
            unpad dims pads q = tap dims stride dil (map fst pads) pos t.
Proof.
  revert ks stride dil pos t. induction dims as [|d dims IH];
    intros [|k ks] [|s stride] [|l dil] pos t H V Vt; simpl in H; try contradiction.
  - exists []. cbn. inversion V; inversion Vt; auto.
  - destruct H as ((H1 & H2 & H3) & H). cbn [same_outs] in V.
    inversion V as [|o ? pos' ? Ho V']; subst. inversion Vt as [|tt ? t' ? Ht Vt']; subst.
    destruct (IH _ _ _ _ _ H V' Vt') as (q & E1 & E2 & E3).
    cbn [same_padding_dims halves map pad_shape tap]. unfold halves in E1. rewrite E1.
    destruct (same_valid_out d k s l H1 H2 H3) as (_ & _ & L). set (P := same_padding_dim d k s l) in *.
    assert (P / 2 <= P) by (apply Nat.div_le_upper_bound; lia).
    assert (o * s + tt * l < P / 2 + d + (P - P / 2)).
    { assert (o * s <= (same_out d s - 1) * s) by (apply Nat.mul_le_mono_r; lia).
      assert (tt * l <= l * (k - 1)) by (rewrite Nat.mul_comm; apply Nat.mul_le_mono_l; lia). lia. }
    cbn [Nat.leb andb]. rewrite Nat.sub_0_r.
    destruct (Nat.ltb_spec (o * s + tt * l) (P / 2 + d + (P - P / 2))); [|lia]. cbn [option_map].
    eexists. split; [reflexivity|]. split; [simpl; lia|]. cbn [unpad fst]. unfold halves in E3. rewrite E3. reflexivity.
Qed.

Lemma pad_shape_length sh pads : length pads = length sh -> length (pad_shape sh pads) = length sh.
Proof. revert pads. induction sh as [|d sh IH]; intros [|[a b] pads] H; simpl in *; try discriminate; auto. Qed.

Lemma same_padding_dims_length dims ks stride dil : axes_ok dims ks stride dil ->
  length (same_padding_dims dims ks stride dil) = length dims.
Proof.
  revert ks stride dil. induction dims as [|d dims IH]; intros [|k ks] [|s stride] [|l dil] H; simpl in H; try contradiction; auto.
  cbn. f_equal. apply IH. tauto.
Qed.

Lemma removelast_snoc {A} (l : list A) a : removelast (l ++ [a]) = l.
Proof. apply removelast_last. Qed.

(** shape and index surgery for [N; dims...; C] *)
Lemma pad_shape_full N dims C pads : length pads = length dims ->
  pad_shape (N :: dims ++ [C]) ((0, 0) :: pads ++ [(0, 0)]) = N :: pad_shape dims pads ++ [C].
Proof.
  intro H. cbn. rewrite Nat.add_0_r. f_equal. revert pads H.
  induction dims as [|d dims IH]; intros [|[a b] pads] H; simpl in *; try discriminate.
  - f_equal. lia.
  - f_equal. apply IH. lia.
Qed.

Lemma unpad_full N dims C pads n q c : length pads = length dims -> length q = length dims -> n < N -> c < C ->
  unpad (N :: dims ++ [C]) ((0, 0) :: pads ++ [(0, 0)]) (n :: q ++ [c]) =
  option_map (fun q' => n :: q' ++ [c]) (unpad dims pads q).
Proof.
  intros H1 H2 Hn Hc. cbn [unpad]. cbn [Nat.leb andb]. rewrite Nat.sub_0_r. destruct (Nat.ltb_spec n N); [|lia].
  assert (unpad (dims ++ [C]) (pads ++ [(0, 0)]) (q ++ [c]) = option_map (fun q' => q' ++ [c]) (unpad dims pads q)) as ->.
  { revert pads q H1 H2. induction dims as [|d dims IH]; intros [|[a b] pads] [|i q] H1 H2; simpl in *; try discriminate.
    - rewrite Nat.sub_0_r. destruct (Nat.ltb_spec c C); [reflexivity|lia].
    - rewrite IH by lia. destruct ((a <=? i) && (i - a <? d)); [|reflexivity]. destruct (unpad dims pads q); reflexivity. }
  destruct (unpad dims pads q); reflexivity.
Qed.

Lemma valid_split N sp C idx : valid (N :: sp ++ [C]) idx ->
  exists n pos o, idx = n :: pos ++ [o] /\ n < N /\ valid sp pos /\ o < C.
Proof.
  intro V. inversion V as [|n ? r ? Hn Vr]; subst. apply Forall2_app_inv_r in Vr.
  destruct Vr as (pos & l2 & V1 & V2 & ->). inversion V2 as [|o ? r2 ? Ho V3]; subst. inversion V3; subst.
  exists n, pos, o. auto.
Qed.

(* ------------------------------------------------------------------ *)
(** * Windows *)

Definition fill {A} (v : A) (e : option A) : option A := Some (match e with Some a => a | None => v end).

(** the window read at output position [n], [pos] *)
Definition window {A} (stride dil pad ks : list nat) (x : tensor A) (n : nat) (pos : list nat) : list (list (option A)) :=
  map (fun k => map (fun c =>
               option_map (fun q => tget x (n :: q ++ [c])) (tap (removelast (tl (tshape x))) stride dil pad pos k))
             (seq 0 (last (tshape x) 0))) (indices ks).

Lemma last_snoc {A} (l : list A) a d : last (l ++ [a]) d = a.
Proof. apply last_last. Qed.

Lemma last_full N (dims : list nat) C : last (N :: dims ++ [C]) 0 = C.
Proof. change (N :: dims ++ [C]) with ((N :: dims) ++ [C]). apply last_snoc. Qed.

Lemma padded_window {A} (v : A) x N dims C ks stride dil n pos :
  tshape x = N :: dims ++ [C] -> axes_ok dims ks stride dil -> n < N -> valid (same_outs dims stride) pos ->
  let pads := get_same_padding_args dims ks stride dil in
  window stride dil (map (fun _ => 0) (removelast (tl (tshape (pad_op v pads x))))) ks (pad_op v pads x) n pos =
  map (map (fill v)) (window stride dil (same_befores dims stride dil ks) ks x n pos).
Proof.
  intros Hs Hok Hn V pads. unfold window. rewrite map_map. apply map_ext_in. intros k Hk. rewrite map_map.
  apply indices_valid in Hk. set (hp := halves (same_padding_dims dims ks stride dil)) in *.
  assert (pads = (0, 0) :: hp ++ [(0, 0)]) as Ep by reflexivity.
  assert (length hp = length dims) as Lp by (unfold hp, halves; rewrite map_length; now apply same_padding_dims_length).
  unfold pad_op. cbn [tshape tget]. rewrite Hs, Ep. rewrite pad_shape_full by exact Lp. rewrite !last_full.
  cbn [tl]. rewrite !removelast_snoc.
  destruct (padded_tap dims ks stride dil pos k Hok V Hk) as (q & E1 & E2 & E3). fold hp in E1, E3.
  rewrite E1, same_befores_eq by exact Hok. fold hp. rewrite <- E3. apply map_ext_in. intros c Hc. apply in_seq in Hc.
  cbn [option_map]. rewrite unpad_full by (auto; lia). destruct (unpad dims hp q); reflexivity.
Qed.

Lemma windowed_get {A B} (F : nat -> list (list (option A)) -> B) odims cout stride dil pad ks x n pos o :
  tget (windowed F odims cout stride dil pad ks x) (n :: pos ++ [o]) = F o (window stride dil pad ks x n pos).
Proof.
  unfold windowed. cbn [tget nth tl]. rewrite last_full. rewrite removelast_snoc. reflexivity.
Qed.

(** The general statement: an operator whose kernel does not see the difference between a
    padding tap and the value [v]. *)
Lemma same_padding_general {A B} (F : nat -> list (list (option A)) -> B) cout v x N dims C ks stride dil :
  tshape x = N :: dims ++ [C] -> axes_ok dims ks stride dil ->
  (forall n pos o, n < N -> valid (same_outs dims stride) pos -> o < cout ->
     let win := window stride dil (same_befores dims stride dil ks) ks x n pos in
     F o (map (map (fill v)) win) = F o win) ->
  teq (op_same F cout stride dil ks x)
      (op_valid F cout stride dil ks (pad_op v (get_same_padding_args dims ks stride dil) x)).
Proof.
  intros Hs Hok HF. set (pads := get_same_padding_args dims ks stride dil).
  set (hp := halves (same_padding_dims dims ks stride dil)).
  assert (pads = (0, 0) :: hp ++ [(0, 0)]) as Ep by reflexivity.
  assert (length hp = length dims) as Lp by (unfold hp, halves; rewrite map_length; now apply same_padding_dims_length).
  split.
  - unfold op_same, op_valid, windowed. cbn [tshape pad_op]. rewrite Hs, Ep, pad_shape_full by exact Lp.
    cbn [tl nth]. rewrite !removelast_snoc. unfold hp. rewrite same_valid_outs by exact Hok. reflexivity.
  - intros idx V. unfold op_same, windowed in V. cbn [tshape] in V. rewrite Hs in V. cbn [tl nth] in V.
    rewrite removelast_snoc in V. destruct (valid_split _ _ _ _ V) as (n & pos & o & -> & Hn & Vp & Ho).
    unfold op_same, op_valid. rewrite !windowed_get. unfold pads. rewrite padded_window with (N := N) (C := C) by auto.
    rewrite Hs. cbn [tl]. rewrite removelast_snoc. symmetry. apply HF; auto.
Qed.

(* ------------------------------------------------------------------ *)
(** * Convolutions: padding counts as zero *)

Definition zero_padded (F : nat -> list (list (option R)) -> R) : Prop :=
  forall o win win', map (map val0) win = map (map val0) win' -> F o win = F o win'.

Lemma lsum_combine_val {K} (ks : list K) win win' (f : K -> list (option R) -> R) :
  map (map val0) win = map (map val0) win' ->
  (forall k r r', map val0 r = map val0 r' -> f k r = f k r') ->
  lsum (combine ks win) (fun kv => f (fst kv) (snd kv)) = lsum (combine ks win') (fun kv => f (fst kv) (snd kv)).
Proof.
  intros H Hf. revert win win' H. induction ks as [|k ks IH]; intros [|r win] [|r' win'] H; simpl in *; try discriminate; auto.
  injection H as H1 H2. rewrite !lsum_cons. f_equal; [|apply IH; auto]. apply Hf, H1.
Qed.

Lemma val0_nth i : forall r r', map val0 r = map val0 r' -> val0 (nth i r None) = val0 (nth i r' None).
Proof.
  intros r r' H. rewrite <- !(map_nth val0). rewrite H. reflexivity.
Qed.

Lemma conv_kernel_zero w b cin : zero_padded (conv_kernel w b cin).
Proof.
  intros o win win' H. unfold conv_kernel. f_equal.
  apply (lsum_combine_val (indices (removelast (tl (tshape w)))) win win'
    (fun k r => lsum (seq 0 (last (tshape w) 0)) (fun i => (tget w (o :: k ++ [i]) *
       val0 (nth (o / (nth 0 (tshape w) 0 / (cin / last (tshape w) 0)) * last (tshape w) 0 + i)%nat r None))%R))); auto.
  intros k r r' Hr. apply lsum_ext. intros i _. f_equal. now apply val0_nth.
Qed.
Lemma depthwise_kernel_zero w b cin : zero_padded (depthwise_kernel w b cin).
Proof.
  intros o win win' H. unfold depthwise_kernel. f_equal.
  apply (lsum_combine_val (indices (removelast (tl (tshape w)))) win win'
    (fun k r => (tget w (0%nat :: k ++ [o]) * val0 (nth (o / (last (tshape w) 0 / cin))%nat r None))%R)); auto.
  intros k r r' Hr. f_equal. now apply val0_nth.
Qed.

(** value written by the pad node *)
Definition pad_value (lowest : R) (c : pad_const) : option R :=
  match c with PadAbsent | PadZero => Some 0%R | PadLowest => Some lowest | PadOther => None end.

Lemma same_padding_conv op c shape ks stride dil pads lowest v (F : nat -> list (list (option R)) -> R) cout x N dims C :
  op <> WMaxPool -> zero_padded F -> tshape x = N :: dims ++ [C] -> shape = tshape x -> axes_ok dims ks stride dil ->
  pad_value lowest c = Some v ->
  fuse_same_padding op c shape ks stride dil pads = true ->
  teq (op_same F cout stride dil ks x) (op_valid F cout stride dil ks (pad_op v pads x)).
Proof.
  intros Hop HF Hs -> Hok Hv H. unfold fuse_same_padding in H. apply andb_prop in H. destruct H as [H1 H2].
  apply pads_eqb_eq in H2. rewrite Hs in H2. cbn [tl] in H2. rewrite removelast_snoc in H2.
  replace (match op with WMaxPool => map (fun _ : nat => 1) dil | _ => dil end) with dil in H2 by (destruct op; congruence).
  subst pads.
  assert (v = 0%R) as -> by (destruct c, op; cbn in *; congruence).
  eapply same_padding_general; eauto. intros n pos o Hn Vp Ho win. apply HF.
  rewrite map_map. apply map_ext. intro r. rewrite map_map. apply map_ext. intros [e|]; reflexivity.
Qed.

(* ------------------------------------------------------------------ *)
(** * Max pooling *)

(** every SAME window of an undilated operator touches the operand *)
Lemma same_window_hits dims ks stride pos :
  axes_ok dims ks stride (map (fun _ => 1) dims) -> valid (same_outs dims stride) pos ->
  exists t q, valid ks t /\ tap dims stride (map (fun _ => 1) dims) (same_befores dims stride (map (fun _ => 1) dims) ks) pos t = Some q /\ valid dims q.
Proof.
  revert ks stride pos. induction dims as [|d dims IH]; intros [|k ks] [|s stride] pos H V; simpl in H; try contradiction.
  - exists [], []. inversion V; subst. repeat split; constructor.
  - destruct H as ((H1 & H2 & H3) & H). cbn [same_outs] in V. inversion V as [|o ? pos' ? Ho V']; subst.
    destruct (IH _ _ _ H V') as (t & q & Vt & E & Vq).
    cbn [map same_befores tap]. destruct (same_out_pos d s H1 H3) as [L1 L2].
    assert (o * s <= (same_out d s - 1) * s) by (apply Nat.mul_le_mono_r; lia).
    set (p := same_before d s 1 k) in *.
    assert (p <= k - 1).
    { unfold p, same_before. apply Nat.div_le_upper_bound; lia. }
    destruct (le_lt_dec p (o * s)) as [L|L].
    + exists (0 :: t), ((o * s - p) :: q). split; [constructor; auto|].
      rewrite Nat.mul_0_l, Nat.add_0_r.
      destruct (Nat.leb_spec p (o * s)); [|lia]. destruct (Nat.ltb_spec (o * s - p) d); [|lia]. cbn [andb].
      rewrite E. split; [reflexivity|]. constructor; [lia|auto].
    + exists ((p - o * s) :: t), (0 :: q). split; [constructor; [lia|auto]|].
      replace (o * s + (p - o * s) * 1) with p by lia. rewrite Nat.leb_refl, Nat.sub_diag.
      destruct (Nat.ltb_spec 0 d); [|lia]. cbn [andb]. rewrite E. split; [reflexivity|]. constructor; auto.
Qed.

Lemma omax_fill (v : R) (L : list (option R)) :
  (forall a, In (Some a) L -> (v <= a)%R) ->
  (forall m, fold_right omax None L = Some m -> (v <= m)%R) /\
  fold_right omax None (map (fill v) L) =
  match fold_right omax None L with Some m => Some m | None => match L with [] => None | _ => Some v end end.
Proof.
  induction L as [|e L IH]; simpl; intro H; [split; [discriminate|reflexivity]|].
  destruct IH as [IH1 IH2]; [auto|]. rewrite IH2. set (m := fold_right omax None L) in *.
  assert (forall a, e = Some a -> (v <= a)%R) as He by (intros a ->; apply H; auto).
  split.
  - intros r. destruct e as [a|], m as [b|]; cbn; intro E; try discriminate; injection E as <-; auto.
    + specialize (He a eq_refl). pose proof (Rmax_l a b). lra.
  - destruct e as [a|]; cbn.
    + specialize (He a eq_refl). destruct m as [b|]; cbn; auto.
      destruct L; cbn; auto. rewrite Rmax_left by lra. reflexivity.
    + destruct m as [b|]; cbn.
      * rewrite Rmax_right; auto.
      * destruct L; cbn; auto. rewrite Rmax_left by lra. reflexivity.
Qed.

Lemma maxpool_fold o win : maxpool_kernel o win = fold_right omax None (map (fun r => nth o r None) win).
Proof. unfold maxpool_kernel. induction win; simpl; auto. now rewrite IHwin. Qed.

Lemma omax_some L a : In (Some a) L -> exists m, fold_right omax None L = Some m.
Proof.
  induction L as [|e L IH]; simpl; [tauto|]. intros [->|H].
  - destruct (fold_right omax None L); cbn; eauto.
  - destruct (IH H) as [m ->]. destruct e; cbn; eauto.
Qed.

Lemma same_padding_maxpool c shape ks stride dil pads lowest v x N dims C :
  tshape x = N :: dims ++ [C] -> shape = tshape x -> axes_ok dims ks stride (map (fun _ => 1) dims) -> length dil = length dims ->
  pad_value lowest c = Some v -> (forall idx, valid (tshape x) idx -> (v <= tget x idx)%R) ->
  fuse_same_padding WMaxPool c shape ks stride dil pads = true ->
  teq (op_same maxpool_kernel C stride (map (fun _ => 1) dims) ks x)
      (op_valid maxpool_kernel C stride (map (fun _ => 1) dims) ks (pad_op v pads x)).
Proof.
  intros Hs -> Hok Hdil Hv Hlow H. unfold fuse_same_padding in H. apply andb_prop in H. destruct H as [H1 H2].
  apply pads_eqb_eq in H2. rewrite Hs in H2. cbn [tl] in H2. rewrite removelast_snoc in H2.
  assert (map (fun _ : nat => 1) dil = map (fun _ => 1) dims) as Ed.
  { clear -Hdil. revert dims Hdil. induction dil; intros [|d dims] H; simpl in *; try discriminate; auto. f_equal. apply IHdil; lia. }
  rewrite Ed in H2. subst pads. eapply same_padding_general; eauto. intros n pos o Hn Vp Ho win.
  rewrite !maxpool_fold.
  assert (map (fun r => nth o r None) (map (map (fill v)) win) = map (fill v) (map (fun r => nth o r None) win)) as ->.
  { unfold win, window. rewrite !map_map. apply map_ext. intro k. rewrite Hs, last_full.
    rewrite nth_indep with (d' := fill v None) by (rewrite !map_length, seq_length; auto). rewrite map_nth. f_equal. }
  set (L := map (fun r => nth o r None) win).
  assert (forall k, nth o (map (fun c0 => option_map (fun q => tget x (n :: q ++ [c0])) (tap dims stride (map (fun _ => 1) dims)
            (same_befores dims stride (map (fun _ => 1) dims) ks) pos k)) (seq 0 C)) None =
          option_map (fun q => tget x (n :: q ++ [o])) (tap dims stride (map (fun _ => 1) dims)
            (same_befores dims stride (map (fun _ => 1) dims) ks) pos k)) as Hnth.
  { intro k. rewrite nth_indep with (d' := option_map (fun q => tget x (n :: q ++ [C])) (tap dims stride (map (fun _ => 1) dims)
            (same_befores dims stride (map (fun _ => 1) dims) ks) pos k)) by (rewrite map_length, seq_length; auto).
    rewrite (map_nth (fun c0 => option_map (fun q => tget x (n :: q ++ [c0])) _) (seq 0 C) C o). rewrite seq_nth by auto. reflexivity. }
  assert (L = map (fun k => option_map (fun q => tget x (n :: q ++ [o])) (tap dims stride (map (fun _ => 1) dims)
            (same_befores dims stride (map (fun _ => 1) dims) ks) pos k)) (indices ks)) as EL.
  { unfold L, win, window. rewrite Hs, last_full. cbn [tl]. rewrite removelast_snoc, map_map. apply map_ext. intro k. apply Hnth. }
  assert (forall s l p ps k q, tap dims s l p ps k = Some q -> length dims = length s -> length s = length l -> length l = length p ->
            length p = length ps -> length ps = length k -> valid dims q) as Htap.
  { clear. induction dims as [|d dims IH]; intros [|a s] [|b l] [|c p] [|e ps] [|f k] q; simpl; intros; try discriminate.
    - injection H as <-. constructor.
    - destruct ((c <=? e * a + f * b) && (e * a + f * b - c <? d)) eqn:E; [|discriminate].
      destruct (tap dims s l p ps k) eqn:Et; [|discriminate]. injection H as <-.
      apply andb_prop in E. destruct E as [_ E]. apply Nat.ltb_lt in E. constructor; auto. eapply IH; eauto. }
  assert (length dims = length stride /\ length ks = length dims /\
          length (same_befores dims stride (map (fun _ => 1) dims) ks) = length dims /\ length (same_outs dims stride) = length dims) as (A1 & A2 & A3 & A4).
  { clear -Hok. revert ks stride Hok. induction dims as [|d dims IH]; intros [|k ks] [|s stride] H; simpl in H; try contradiction; auto.
    destruct (IH ks stride) as (B1 & B2 & B3 & B4); [tauto|]. cbn [map same_befores same_outs length]. auto. }
  assert (forall a, In (Some a) L -> (v <= a)%R) as HL.
  { intros a Ha. rewrite EL in Ha. apply in_map_iff in Ha. destruct Ha as (k & Ek & Hk). apply indices_valid in Hk.
    destruct (tap _ _ _ _ _ k) eqn:Et; [|discriminate]. injection Ek as <-. apply Hlow. rewrite Hs.
    apply Htap in Et; rewrite ?map_length; try lia;
      [|rewrite (valid_length _ _ Vp); lia|rewrite (valid_length _ _ Vp), (valid_length _ _ Hk); lia].
    constructor; [exact Hn|]. apply Forall2_app; [exact Et|]. constructor; [exact Ho|constructor]. }
  destruct (omax_fill v L HL) as [_ E]. rewrite E.
  destruct (same_window_hits dims ks stride pos Hok Vp) as (t & q & Vt & Et & Vq).
  destruct (omax_some L (tget x (n :: q ++ [o]))) as [m ->]; [|reflexivity].
  rewrite EL. apply in_map_iff. exists t. rewrite Et. split; [reflexivity|]. now apply indices_valid.
Qed.

(** The PAD node without a constant operand writes zeros, which the pooling then sees. *)
(** An explicit constant is only accepted when it is the lowest float; only an absent one
    (zeros) needs an assumption on the elements. *)
Lemma same_padding_maxpool_const c shape ks stride dil pads lowest v x N dims C :
  tshape x = N :: dims ++ [C] -> shape = tshape x -> axes_ok dims ks stride (map (fun _ => 1) dims) -> length dil = length dims ->
  pad_value lowest c = Some v -> (forall idx, valid (tshape x) idx -> (lowest <= tget x idx)%R) ->
  (c = PadAbsent -> forall idx, valid (tshape x) idx -> (0 <= tget x idx)%R) ->
  fuse_same_padding WMaxPool c shape ks stride dil pads = true ->
  teq (op_same maxpool_kernel C stride (map (fun _ => 1) dims) ks x)
      (op_valid maxpool_kernel C stride (map (fun _ => 1) dims) ks (pad_op v pads x)).
Proof.
  intros Hs Hsh Hok Hdil Hv Hlow Habs H. eapply same_padding_maxpool; eauto. intros idx V.
  unfold fuse_same_padding in H. apply andb_prop in H. destruct H as [H _].
  destruct c; cbn in H, Hv; try discriminate; injection Hv as <-; auto.
Qed.

Lemma same_padding_maxpool_refuted :
  exists c shape ks stride dil pads v x,
    shape = tshape x /\ axes_ok [1; 1] ks stride dil /\ tshape x = [1; 1; 1; 1] /\
    pad_value 0 c = Some v /\ fuse_same_padding WMaxPool c shape ks stride dil pads = true /\
    ~ teq (op_same maxpool_kernel 1 stride dil ks x) (op_valid maxpool_kernel 1 stride dil ks (pad_op v pads x)).
Proof.
  exists PadAbsent, [1; 1; 1; 1], [3; 3], [1; 1], [1; 1], [(0, 0); (1, 1); (1, 1); (0, 0)], 0%R, (mkT [1; 1; 1; 1] (fun _ => (-1)%R)).
  split; [reflexivity|]. split; [cbn; repeat split; lia|]. split; [reflexivity|]. split; [reflexivity|]. split; [reflexivity|].
  intros [_ H]. specialize (H [0; 0; 0; 0]).
  assert (valid [1; 1; 1; 1] [0; 0; 0; 0]) as V by (repeat constructor). specialize (H V). cbn in H.
  injection H as H. revert H. unfold Rmax. repeat destruct Rle_dec; lra.
Qed.

(* ------------------------------------------------------------------ *)
(** * Transposed convolution followed by a slice *)

(** TRANSPOSE_CONV / CONV_3D_TRANSPOSE: operand [N; dims...; Cin], weight given as a function
    of output channel, tap and input channel; [pad] is the offset the padding scheme subtracts.
    The output shape is an operand of the operator. *)
Definition tconv (wt : nat -> list nat -> nat -> R) (b : nat -> R) (ks stride dil pad oshape : list nat) (x : tensor R) : tensor R :=
  let dims := removelast (tl (tshape x)) in
  mkT oshape (fun idx =>
    let n := nth 0 idx 0 in let pos := removelast (tl idx) in let o := last idx 0 in
    (b o + lsum (indices ks) (fun k => lsum (indices dims) (fun q =>
       if hits stride dil pad q k pos
       then lsum (seq 0 (last (tshape x) 0%nat)) (fun c => wt o k c * tget x (n :: q ++ [c])) else 0)))%R).
Definition tconv_valid wt b ks stride dil oshape x :=
  tconv wt b ks stride dil (map (fun _ => 0) (removelast (tl oshape))) oshape x.
Definition tconv_same wt b ks stride dil oshape x :=
  tconv wt b ks stride dil (same_befores (removelast (tl oshape)) stride dil ks) oshape x.

Fixpoint zipadd (a b : list nat) : list nat :=
  match a, b with x :: a', y :: b' => (x + y) :: zipadd a' b' | _, _ => [] end.
(** SLICE: begin and resulting shape *)
Definition cut {A} (start oshape : list nat) (t : tensor A) : tensor A :=
  mkT oshape (fun idx => tget t (zipadd start idx)).

Lemma hits_shift stride dil pad q k pos z : length stride = length pos -> length dil = length pos -> length pad = length pos ->
  length z = length pos -> Forall (fun a => a = 0) z ->
  hits stride dil z q k (zipadd pad pos) = hits stride dil pad q k pos.
Proof.
  revert dil pad q k pos z. induction stride as [|s stride IH]; intros [|l dil] [|p pad] [|i q] [|t k] [|o pos] [|a z]; simpl; intros H1 H2 H3 H4 H5;
    try discriminate; auto.
  inversion H5; subst. rewrite (IH dil pad q k pos z) by (auto; lia). f_equal.
  rewrite Nat.add_0_r, (Nat.add_comm p o). reflexivity.
Qed.

Lemma zipadd_full s pos n o : length s = length pos -> zipadd (0 :: s ++ [0]) (n :: pos ++ [o]) = n :: zipadd s pos ++ [o].
Proof.
  intro H. cbn. f_equal. revert pos H. induction s as [|a s IH]; intros [|p pos] H; simpl in *; try discriminate; auto.
  f_equal. apply IH. lia.
Qed.

Lemma margins_fst v s o : length v = length s -> length s = length o -> map fst (slice_margins v s o) = s.
Proof.
  revert s o. induction v as [|a v IH]; intros [|b s] [|c o] H1 H2; simpl in *; try discriminate; auto.
  f_equal. apply IH; lia.
Qed.

Lemma same_slicing_correct wt b ks stride dil vshape start x N dims C :
  let oshape := N :: dims ++ [C] in
  length vshape = length oshape -> length start = length oshape -> axes_ok dims ks stride dil ->
  fuse_same_padding_slicing vshape start oshape ks stride dil = true ->
  teq (tconv_same wt b ks stride dil oshape x) (cut start oshape (tconv_valid wt b ks stride dil vshape x)).
Proof.
  intros oshape Hv Hs Hok H. unfold fuse_same_padding_slicing in H. apply pads_eqb_eq in H.
  unfold oshape in H at 1. cbn [tl] in H. rewrite removelast_snoc in H.
  pose proof (f_equal (map fst) H) as E. rewrite margins_fst in E by congruence.
  unfold get_same_padding_args in E. cbn [map fst] in E. rewrite map_app in E. cbn [map fst] in E.
  fold (halves (same_padding_dims dims ks stride dil)) in E. rewrite <- same_befores_eq in E by exact Hok.
  set (bf := same_befores dims stride dil ks) in *.
  assert (length bf = length dims /\ length stride = length dims /\ length dil = length dims) as (L1 & L2 & L3).
  { unfold bf. clear -Hok. revert ks stride dil Hok. induction dims as [|d dims IH]; intros [|k ks] [|s stride] [|l dil] H; simpl in H; try contradiction; auto.
    destruct (IH ks stride dil) as (A & B & D); [tauto|]. cbn [same_befores length]. auto. }
  assert (exists N' dims' C', vshape = N' :: dims' ++ [C'] /\ length dims' = length dims) as (N' & dims' & C' & -> & Ld).
  { unfold oshape in Hv. cbn in Hv. rewrite app_length in Hv. cbn in Hv. destruct vshape as [|N' r]; [simpl in Hv; lia|].
    destruct (exists_last (l := r)) as (dims' & C' & ->); [intros ->; simpl in Hv; lia|].
    exists N', dims', C'. split; auto. simpl in Hv. rewrite app_length in Hv. simpl in Hv. lia. }
  split; [reflexivity|]. intros idx V. unfold tconv_same, tconv in V. cbn [tshape] in V.
  destruct (valid_split _ _ _ _ V) as (n & pos & o & -> & Hn & Vp & Ho).
  pose proof (valid_length _ _ Vp) as Lpos.
  unfold tconv_same, tconv_valid, cut, tconv. cbn [tget]. rewrite <- E. rewrite zipadd_full by lia.
  cbn [nth tl]. rewrite !removelast_snoc, !last_full. unfold oshape. cbn [tl]. rewrite removelast_snoc. fold bf.
  f_equal. apply lsum_ext. intros k _. apply lsum_ext. intros q _.
  rewrite (hits_shift stride dil bf q k pos) by
    (rewrite ?map_length; try lia; apply Forall_forall; intros a Ha; apply in_map_iff in Ha; destruct Ha as (? & <- & _); reflexivity).
  reflexivity.
Qed.
