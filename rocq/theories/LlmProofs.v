(** Proofs about LLM compression (C49-C51). *)
From Coq Require Import List Arith ZArith Bool Reals Lia Lra.
From Verif Require Import Tensor ConvSpec QuantSpec FuseModel QuantModel QuantProofs FuseMiscProofs PassAxesProofs LlmModel.
Import ListNotations.
Local Open Scope R_scope.

(* ------------------------------------------------------------------ *)
(** C50 *)

Lemma fold_max_in l : forall a, In (fold_left Rmax l a) (a :: l).
Proof.
  induction l as [|b l IH]; intros a; cbn [fold_left]; [left; reflexivity|].
  destruct (IH (Rmax a b)) as [H|H].
  - rewrite <- H. unfold Rmax. destruct (Rle_dec a b); [right; left; reflexivity|left; reflexivity].
  - right. right. exact H.
Qed.

Lemma lmax_ok l m : lmax l = Some m -> is_max m l.
Proof.
  destruct l as [|a l]; cbn [lmax]; [discriminate|]. intro H. injection H as <-.
  split; [apply fold_max_in|]. intros x Hx. apply fold_max_ge. exact Hx.
Qed.

Lemma row_absmax_ok t pre : last (tshape t) 0%nat <> 0%nat ->
  is_max (row_absmax t pre) (map (fun i => Rabs (tget t (pre ++ [i]))) (seq 0 (last (tshape t) 0%nat))).
Proof.
  intro H. unfold row_absmax. destruct (lmax _) as [m|] eqn:E.
  - apply lmax_ok. exact E.
  - destruct (last (tshape t) 0%nat) as [|k]; [congruence|]. cbn in E. discriminate.
Qed.

Lemma indices_ne s : existsb (Nat.eqb 0) s = false -> indices s <> [].
Proof.
  intros H E.
  assert (V : valid s (map (fun _ => 0%nat) s)).
  { clear E. induction s as [|d s IH]; cbn in *; [constructor|]. apply orb_false_iff in H. destruct H as [H1 H2].
    constructor; [destruct d; [discriminate|lia]|apply IH; exact H2]. }
  apply indices_valid in V. rewrite E in V. exact V.
Qed.

Lemma tensor_absmax_ok t : existsb (Nat.eqb 0) (tshape t) = false -> is_max (tensor_absmax t) (map Rabs (elements t)).
Proof.
  intro H. unfold tensor_absmax. destruct (lmax _) as [m|] eqn:E; [apply lmax_ok; exact E|].
  unfold elements in E. destruct (indices (tshape t)) eqn:E2; [|discriminate E].
  exfalso. apply (indices_ne _ H E2).
Qed.

Lemma is_max_abs_nonneg {A} m (f : A -> R) l : is_max m (map (fun a => Rabs (f a)) l) -> 0 <= m.
Proof. intros [H _]. apply in_map_iff in H. destruct H as (a & <- & _). apply Rabs_pos. Qed.

Lemma q_max_pos b : (1 <= b)%nat -> (0 <= q_max b)%Z.
Proof. intro H. unfold q_max. pose proof (Z.pow_pos_nonneg 2 (Z.of_nat b - 1)). lia. Qed.
Lemma q_max_pos2 b : (2 <= b)%nat -> (1 <= q_max b)%Z.
Proof.
  intro H. unfold q_max. assert (2 ^ 1 <= 2 ^ (Z.of_nat b - 1))%Z by (apply Z.pow_le_mono_r; lia). lia.
Qed.
Lemma q_max_le b : (b <= 8)%nat -> (q_max b <= 127)%Z.
Proof.
  intro H. unfold q_max. assert (2 ^ (Z.of_nat b - 1) <= 2 ^ 7)%Z by (apply Z.pow_le_mono_r; lia). lia.
Qed.
Lemma q_max_double b : (1 <= b)%nat -> (2 ^ Z.of_nat b - 1 = 2 * q_max b + 1)%Z.
Proof.
  intro H. unfold q_max. replace (Z.of_nat b) with (Z.succ (Z.of_nat b - 1)) at 1 by lia.
  rewrite Z.pow_succ_r by lia. lia.
Qed.

(** rounding and clamping a value that exceeds the range by at most one half *)
Lemma clamp_half Q y : (0 <= Q)%Z -> Rabs y <= IZR Q + 1 / 2 ->
  (- Q <= clampZ (- Q) Q (rne y) <= Q)%Z /\ Rabs (y - IZR (clampZ (- Q) Q (rne y))) <= 1 / 2.
Proof.
  intros HQ H. pose proof (rne_half y) as Hr. apply Rabs_between in H. apply Rabs_between in Hr.
  unfold clampZ. split; [lia|]. apply Rabs_le.
  destruct (Z_le_gt_dec (rne y) Q) as [H1|H1]; destruct (Z_le_gt_dec (- Q) (rne y)) as [H2|H2].
  - rewrite Z.max_r, Z.min_r by lia. lra.
  - rewrite Z.max_l, Z.min_r by lia.
    assert (IZR (rne y) <= IZR (- Q - 1)) by (apply IZR_le; lia). rewrite minus_IZR, !opp_IZR in *. lra.
  - rewrite Z.max_r, Z.min_l by lia.
    assert (IZR (Q + 1) <= IZR (rne y)) by (apply IZR_le; lia). rewrite plus_IZR in *. lra.
  - lia.
Qed.

Lemma compress_elem_ok nan_int b s x : (1 <= b <= 8)%nat -> 0 <= s -> Rabs x <= s * (IZR (q_max b) + 1 / 2) ->
  let q := compress_elem nan_int b s x in
  Rabs (x - s * IZR q) <= s / 2 /\ (0 < s -> (- q_max b <= q <= q_max b)%Z) /\ (x = 0 -> 0 < s -> q = 0%Z).
Proof.
  intros Hb Hs Hx q. unfold q, compress_elem. destruct (Req_EM_T s 0) as [E|E].
  - rewrite E in *. rewrite Rmult_0_l in Hx. apply Rabs_between in Hx.
    replace x with 0 by lra. split; [|split; intros; lra].
    rewrite Rmult_0_l, Rminus_0_r, Rabs_R0. lra.
  - assert (Hp : 0 < s) by lra.
    assert (Hy : Rabs (x / s) <= IZR (q_max b) + 1 / 2).
    { unfold Rdiv. rewrite Rabs_mult, Rabs_inv, (Rabs_right s) by lra.
      apply Rmult_le_reg_r with s; [exact Hp|]. rewrite Rmult_assoc, Rinv_l by lra. lra. }
    destruct (clamp_half _ _ (q_max_pos b ltac:(lia)) Hy) as [H1 H2].
    rewrite wrap_id by (pose proof (q_max_le b ltac:(lia)); unfold in_ity; cbn; lia).
    split; [|split].
    + replace (x - s * IZR (clampZ (- q_max b) (q_max b) (rne (x / s))))
        with (s * (x / s - IZR (clampZ (- q_max b) (q_max b) (rne (x / s))))) by (field; lra).
      rewrite Rabs_mult, (Rabs_right s) by lra.
      replace (s / 2) with (s * (1 / 2)) by field. apply Rmult_le_compat_l; [lra|exact H2].
    + intros _. exact H1.
    + intros -> _. unfold Rdiv. rewrite Rmult_0_l, (rne_IZR 0). unfold clampZ.
      pose proof (q_max_pos b ltac:(lia)). lia.
Qed.

(** the elements that share a scale with the element at [idx] *)
Definition shares (mode : cmode) (idx jdx : list nat) : Prop :=
  match mode with CPerTensor => True | _ => removelast jdx = removelast idx end.
(** number of steps from zero to the largest element *)
Definition steps (mode : cmode) (b : nat) : R :=
  match mode with CPerChannel => IZR (2 ^ Z.of_nat b - 1) / 2 | _ => IZR (2 ^ (Z.of_nat b - 1) - 1) end.
Definition scale_index (mode : cmode) (idx : list nat) : list nat :=
  match mode with CPerChannel => removelast idx | CPerToken => removelast idx ++ [0%nat] | CPerTensor => [] end.
Definition scale_shape (mode : cmode) (sh : list nat) : list nat :=
  match mode with CPerChannel => removelast sh | CPerToken => removelast sh ++ [1%nat] | CPerTensor => [] end.

(** what compression owes for the element [x] stored as [q] with scale [s] *)
Definition compressed (b : nat) (s x : R) (q : Z) : Prop :=
  0 <= s /\ Rabs (x - s * IZR q) <= s / 2 /\
  (0 < s -> (- (2 ^ (Z.of_nat b - 1) - 1) <= q <= 2 ^ (Z.of_nat b - 1) - 1)%Z) /\ (x = 0 -> 0 < s -> q = 0%Z).

Lemma valid_last s idx : valid s idx -> s <> [] -> exists pre i, idx = pre ++ [i] /\ (i < last s 0)%nat /\ valid (removelast s) pre.
Proof.
  intros V Hs. destruct (exists_last Hs) as (s' & d & ->).
  assert (Hi : idx <> []) by (intros ->; pose proof (valid_length _ _ V) as L; rewrite app_length in L; cbn in L; lia).
  destruct (exists_last Hi) as (pre & i & ->). exists pre, i. split; [reflexivity|].
  rewrite last_last, removelast_last. unfold valid in *.
  assert (L : length pre = length s') by (apply valid_length in V; rewrite !app_length in V; cbn in V; lia).
  clear Hs Hi. revert s' L V. induction pre as [|a pre IH]; intros [|b s'] L V; cbn in *; try discriminate.
  - inversion V; subst. split; [assumption|constructor].
  - inversion V; subst. destruct (IH s') as [Ha Hb]; [lia|assumption|]. split; [exact Ha|constructor; assumption].
Qed.
Lemma valid_snoc s d pre i : valid s pre -> (i < d)%nat -> valid (s ++ [d]) (pre ++ [i]).
Proof. intros V H. apply Forall2_app; [exact V|repeat constructor; exact H]. Qed.

Lemma nonempty_last sh : existsb (Nat.eqb 0) sh = false -> sh <> [] -> last sh 0%nat <> 0%nat.
Proof.
  intros H Hn. destruct (exists_last Hn) as (s & d & ->). rewrite last_last. rewrite existsb_app in H.
  apply orb_false_iff in H. destruct H as [_ H]. cbn in H. destruct d; [discriminate|lia].
Qed.

(** a row with the scale [absmax / k], [k <= q_max + 1/2] *)
Lemma row_compressed nan_int b t pre i k : (1 <= b <= 8)%nat -> existsb (Nat.eqb 0) (tshape t) = false ->
  tshape t <> [] -> valid (removelast (tshape t)) pre -> (i < last (tshape t) 0)%nat ->
  0 < k <= IZR (q_max b) + 1 / 2 ->
  let s := row_absmax t pre / k in
  compressed b s (tget t (pre ++ [i])) (compress_elem nan_int b s (tget t (pre ++ [i]))) /\
  exists j, (j < last (tshape t) 0)%nat /\ Rabs (tget t (pre ++ [j])) = s * k.
Proof.
  intros Hb Hz Hn Vp Hi Hk s.
  pose proof (row_absmax_ok t pre (nonempty_last _ Hz Hn)) as Hm.
  assert (H0 : 0 <= row_absmax t pre) by (eapply (is_max_abs_nonneg _ (fun i => tget t (pre ++ [i]))); exact Hm).
  assert (Hs : 0 <= s) by (apply Rmult_le_pos; [exact H0|left; apply Rinv_0_lt_compat; lra]).
  assert (Hsk : row_absmax t pre = s * k) by (unfold s; field; lra).
  destruct Hm as [Hin Hle].
  assert (Hx : Rabs (tget t (pre ++ [i])) <= s * (IZR (q_max b) + 1 / 2)).
  { apply Rle_trans with (s * k).
    - rewrite <- Hsk. apply Hle. apply in_map_iff. exists i. split; [reflexivity|apply in_seq; lia].
    - apply Rmult_le_compat_l; lra. }
  destruct (compress_elem_ok nan_int b s _ Hb Hs Hx) as (H1 & H2 & H3).
  split; [repeat split; [exact Hs|exact H1|apply H2; assumption|apply H2; assumption|exact H3]|].
  apply in_map_iff in Hin. destruct Hin as (j & Hj & Hjin). apply in_seq in Hjin.
  exists j. split; [lia|]. rewrite Hj. exact Hsk.
Qed.

Lemma compress_int_ok nan_int b mode t sc q : (1 <= b <= 8)%nat ->
  compress_int nan_int b mode t = Some (sc, q) ->
  tshape q = tshape t /\ tshape sc = scale_shape mode (tshape t) /\
  forall idx, valid (tshape t) idx ->
    let s := tget sc (scale_index mode idx) in
    compressed b s (tget t idx) (tget q idx) /\
    exists jdx, valid (tshape t) jdx /\ shares mode idx jdx /\ Rabs (tget t jdx) = s * steps mode b.
Proof.
  intros Hb H. unfold compress_int in H.
  destruct (existsb (Nat.eqb 0) (tshape t)) eqn:Hz; [discriminate|].
  assert (Qp := q_max_pos b ltac:(lia)).
  destruct mode.
  - destruct (tshape t) as [|r [|c [|? ?]]] eqn:E; try discriminate. injection H as <- <-.
    split; [reflexivity|]. split; [reflexivity|]. intros idx V.
    assert (Hn : tshape t <> []) by (rewrite E; discriminate).
    destruct (valid_last _ _ V ltac:(discriminate)) as (pre & i & -> & Hi & Vp).
    cbn [scale_index]. cbn [tget tshape]. rewrite removelast_last.
    rewrite <- E in Hz, Hi, Vp |- *.
    destruct (row_compressed nan_int b t pre i (IZR (2 ^ Z.of_nat b - 1) / 2) Hb Hz Hn Vp Hi) as [H1 (j & Hj & H2)].
    { rewrite (q_max_double b) by lia. rewrite plus_IZR, mult_IZR.
      assert (0 <= IZR (q_max b)) by (apply IZR_le; lia). lra. }
    assert (Hne : IZR (2 ^ Z.of_nat b - 1) <> 0) by (apply IZR_neq; rewrite q_max_double by lia; lia).
    replace (2 * (row_absmax t pre / IZR (2 ^ Z.of_nat b - 1))) with (row_absmax t pre / (IZR (2 ^ Z.of_nat b - 1) / 2)) by (field; exact Hne).
    split; [exact H1|]. exists (pre ++ [j]). split.
    { rewrite (app_removelast_last 0%nat Hn). apply valid_snoc; assumption. }
    split; [cbn; rewrite !removelast_last; reflexivity|]. exact H2.
  - destruct (q_max b =? 0)%Z eqn:EQ; [discriminate|]. apply Z.eqb_neq in EQ.
    destruct ((length (tshape t) =? 2)%nat || (length (tshape t) =? 3)%nat) eqn:EL; [|discriminate].
    injection H as <- <-. split; [reflexivity|]. split; [reflexivity|]. intros idx V.
    assert (Hn : tshape t <> []) by (intro E; rewrite E in EL; discriminate).
    destruct (valid_last _ _ V Hn) as (pre & i & -> & Hi & Vp).
    cbn [scale_index]. cbn [tget]. rewrite !removelast_last.
    assert (1 <= IZR (q_max b)) by (apply IZR_le; lia).
    destruct (row_compressed nan_int b t pre i (IZR (q_max b)) Hb Hz Hn Vp Hi ltac:(lra)) as [H1 (j & Hj & H2)].
    split; [exact H1|]. exists (pre ++ [j]). split.
    { rewrite (app_removelast_last 0%nat Hn). apply valid_snoc; assumption. }
    split; [cbn; rewrite !removelast_last; reflexivity|]. exact H2.
  - destruct (q_max b =? 0)%Z eqn:EQ; [discriminate|]. apply Z.eqb_neq in EQ.
    injection H as <- <-. split; [reflexivity|]. split; [reflexivity|]. intros idx V.
    cbn [scale_index tget tmap].
    destruct (tensor_absmax_ok t Hz) as [Hin Hle].
    assert (H1 : 1 <= IZR (q_max b)) by (apply IZR_le; lia).
    assert (H0 : 0 <= tensor_absmax t) by (apply in_map_iff in Hin; destruct Hin as (x & <- & _); apply Rabs_pos).
    assert (Hs : 0 <= tensor_absmax t / IZR (q_max b)) by (apply Rmult_le_pos; [exact H0|left; apply Rinv_0_lt_compat; lra]).
    assert (Hx : Rabs (tget t idx) <= tensor_absmax t / IZR (q_max b) * (IZR (q_max b) + 1 / 2)).
    { apply Rle_trans with (tensor_absmax t).
      - apply Hle. apply in_map. unfold elements. apply in_map. apply indices_valid. exact V.
      - replace (tensor_absmax t) with (tensor_absmax t / IZR (q_max b) * IZR (q_max b)) at 1 by (field; lra).
        apply Rmult_le_compat_l; lra. }
    destruct (compress_elem_ok nan_int b _ _ Hb Hs Hx) as (H2 & H3 & H4).
    split; [repeat split; [exact Hs|exact H2|apply H3; assumption|apply H3; assumption|exact H4]|].
    apply in_map_iff in Hin. destruct Hin as (x & Hx2 & Hin). unfold elements in Hin. apply in_map_iff in Hin.
    destruct Hin as (j & <- & Hj). apply indices_valid in Hj. exists j. split; [exact Hj|]. split; [exact I|].
    rewrite Hx2. unfold steps. fold (q_max b). field. lra.
Qed.

Lemma compress_int_defined nan_int b mode t : Forall (lt 0%nat) (tshape t) ->
  match mode with
  | CPerChannel => length (tshape t) = 2%nat
  | CPerToken => (2 <= length (tshape t) <= 3)%nat /\ (2 <= b)%nat
  | CPerTensor => (2 <= b)%nat
  end -> exists r, compress_int nan_int b mode t = Some r.
Proof.
  intros Hp Hm. unfold compress_int.
  assert (Hz : existsb (Nat.eqb 0) (tshape t) = false).
  { clear Hm. induction Hp as [|d s Hd Hs IH]; [reflexivity|]. cbn. destruct d; [lia|]. exact IH. }
  rewrite Hz. destruct mode.
  - destruct (tshape t) as [|r [|c [|? ?]]]; try discriminate Hm. eexists; reflexivity.
  - destruct Hm as [Hl Hb]. pose proof (q_max_pos2 b Hb). destruct (q_max b =? 0)%Z eqn:E; [apply Z.eqb_eq in E; lia|].
    destruct ((length (tshape t) =? 2)%nat || (length (tshape t) =? 3)%nat) eqn:EL; [eexists; reflexivity|].
    apply orb_false_iff in EL. destruct EL as [E1 E2]. apply Nat.eqb_neq in E1, E2. lia.
  - pose proof (q_max_pos2 b Hm). destruct (q_max b =? 0)%Z eqn:E; [apply Z.eqb_eq in E; lia|]. eexists; reflexivity.
Qed.

(* ------------------------------------------------------------------ *)
(** C49 *)

Definition nib (v : Z) : Prop := (-8 <= v <= 7)%Z.
Definition nibs : list Z := map (fun n => Z.of_nat n - 8)%Z (seq 0 16).
Lemma nib_in v : nib v -> In v nibs.
Proof. intros [H1 H2]. unfold nibs. apply in_map_iff. exists (Z.to_nat (v + 8)). split; [lia|]. apply in_seq. lia. Qed.
Lemma nib_table :
  forallb (fun a => forallb (fun b =>
    (unpack_hi (pack_pair a b) =? a)%Z && (unpack_lo (pack_pair a b) =? b)%Z &&
    (-128 <=? pack_pair a b)%Z && (pack_pair a b <=? 127)%Z) nibs) nibs = true.
Proof. vm_compute. reflexivity. Qed.
Lemma pack_pair_ok a b : nib a -> nib b ->
  unpack_hi (pack_pair a b) = a /\ unpack_lo (pack_pair a b) = b /\ in_ity S8 (pack_pair a b).
Proof.
  intros Ha Hb. pose proof nib_table as H. rewrite forallb_forall in H. specialize (H a (nib_in a Ha)).
  rewrite forallb_forall in H. specialize (H b (nib_in b Hb)).
  apply andb_true_iff in H. destruct H as [H H4]. apply andb_true_iff in H. destruct H as [H H3].
  apply andb_true_iff in H. destruct H as [H1 H2].
  apply Z.eqb_eq in H1, H2. apply Z.leb_le in H3, H4. unfold in_ity. cbn. auto.
Qed.

(** the low four bits as a signed number *)
Definition low4 (v : Z) : Z := ((v + 8) mod 16 - 8)%Z.
Lemma low4_nib v : nib (low4 v).
Proof. unfold nib, low4. pose proof (Z.mod_pos_bound (v + 8) 16). lia. Qed.
Lemma low4_id v : nib v -> low4 v = v.
Proof. unfold nib, low4. intro H. rewrite Z.mod_small; lia. Qed.
Lemma land_low4 v : Z.land (low4 v) 15 = Z.land v 15.
Proof.
  change 15%Z with (Z.ones 4). rewrite !Z.land_ones by lia. unfold low4. change (2 ^ 4)%Z with 16%Z.
  rewrite Zminus_mod_idemp_l. f_equal. lia.
Qed.
Lemma pack_pair_low4 a b : pack_pair a b = pack_pair (low4 a) (low4 b).
Proof. unfold pack_pair. rewrite !land_low4. reflexivity. Qed.

Lemma reshape_ext {A} s sh (f g : list nat -> A) idx : (forall j, f j = g j) ->
  tget (reshape s (mkT sh f)) idx = tget (reshape s (mkT sh g)) idx.
Proof. intro H. cbn. apply H. Qed.

Lemma pack_roundtrip_gen (w0 : tensor Z) o i : tshape w0 = [o; i] -> (i mod 2 = 0)%nat ->
  exists p, pack_weight w0 = Some p /\ tshape p = [o; (i / 2)%nat] /\ all_in S8 p /\
            teq (unpack_weight o i p) (tmap low4 w0).
Proof.
  intros Hs0 He. set (w := tmap low4 w0).
  assert (Hs : tshape w = [o; i]) by exact Hs0.
  assert (Hn : forall idx, valid (tshape w) idx -> nib (tget w idx)) by (intros idx _; apply low4_nib).
  assert (EP : pack_weight w0 = Some (mkT [o; (i / 2)%nat] (fun idx =>
      pack_pair (tget (reshape [o; (i / 2)%nat; 2%nat] w0) (idx ++ [0%nat]))
                (tget (reshape [o; (i / 2)%nat; 2%nat] w0) (idx ++ [1%nat]))))).
  { unfold pack_weight. rewrite Hs0, He. reflexivity. }
  cut (exists p, pack_weight w = Some p /\ tshape p = [o; (i / 2)%nat] /\ all_in S8 p /\ teq (unpack_weight o i p) w).
  { intros (p & E1 & E2 & E3 & E4).
    unfold pack_weight in E1. rewrite Hs, He in E1. cbn [Nat.eqb] in E1. injection E1 as <-.
    eexists. split; [exact EP|]. split; [reflexivity|].
    assert (EQ : forall idx,
      pack_pair (tget (reshape [o; (i / 2)%nat; 2%nat] w0) (idx ++ [0%nat]))
                (tget (reshape [o; (i / 2)%nat; 2%nat] w0) (idx ++ [1%nat])) =
      pack_pair (tget (reshape [o; (i / 2)%nat; 2%nat] w) (idx ++ [0%nat]))
                (tget (reshape [o; (i / 2)%nat; 2%nat] w) (idx ++ [1%nat]))).
    { intro idx. rewrite pack_pair_low4. reflexivity. }
    split.
    - intros idx V. cbn [tget]. rewrite EQ. apply (E3 idx V).
    - eapply teq_trans; [|exact E4]. unfold unpack_weight. split; [reflexivity|]. intros idx V.
      apply reshape_ext. intro j. cbn [tget]. rewrite EQ. reflexivity. }
  clear EP. unfold pack_weight. rewrite Hs, He. cbn [Nat.eqb].
  set (pre := reshape [o; (i / 2)%nat; 2%nat] w).
  eexists. split; [reflexivity|]. split; [reflexivity|].
  assert (Hi : i = (i / 2 * 2)%nat) by (pose proof (Nat.div_mod i 2 ltac:(lia)); lia).
  assert (HP : prod [o; (i / 2)%nat; 2%nat] = prod (tshape w)) by (rewrite Hs; cbn [prod]; rewrite !Nat.mul_1_r, <- Hi; reflexivity).
  assert (Hpn : forall idx, valid [o; (i / 2)%nat; 2%nat] idx -> nib (tget pre idx)).
  { intros idx V. unfold pre. cbn [tget reshape]. apply Hn. apply unravel_valid. rewrite <- HP. apply ravel_lt. exact V. }
  split.
  - intros idx V. cbn [tshape tget] in *. apply pack_pair_ok; apply Hpn;
      change [o; (i / 2)%nat; 2%nat] with ([o; (i / 2)%nat] ++ [2%nat]); apply valid_snoc; auto.
  - unfold unpack_weight.
    apply teq_trans with (reshape [o; i] pre).
    + apply reshape_congr; [cbn [tshape app]; rewrite HP, Hs; reflexivity|].
      split; [reflexivity|]. cbn [tshape tget app]. intros idx V.
      destruct (valid_last _ _ V ltac:(discriminate)) as (pr & k & -> & Hk & Vp).
      cbn [last removelast] in Hk, Vp. rewrite last_last, removelast_last.
      assert (V0 : valid [o; (i / 2)%nat; 2%nat] (pr ++ [0%nat])) by (apply (valid_snoc [o; (i / 2)%nat] 2 pr 0); [exact Vp|lia]).
      assert (V1 : valid [o; (i / 2)%nat; 2%nat] (pr ++ [1%nat])) by (apply (valid_snoc [o; (i / 2)%nat] 2 pr 1); [exact Vp|lia]).
      destruct (pack_pair_ok _ _ (Hpn _ V0) (Hpn _ V1)) as (H1 & H2 & _).
      destruct k as [|[|k]]; [exact H1|exact H2|lia].
    + apply teq_trans with (reshape [o; i] w).
      * apply reshape_reshape; [exact HP|rewrite Hs; reflexivity].
      * rewrite <- Hs. apply reshape_id.
Qed.

Lemma teq_low4 (w : tensor Z) : (forall idx, valid (tshape w) idx -> nib (tget w idx)) -> teq (tmap low4 w) w.
Proof. intro H. split; [reflexivity|]. intros idx V. cbn [tget tmap]. apply low4_id. apply H. exact V. Qed.

Lemma pack_roundtrip (w : tensor Z) o i : tshape w = [o; i] -> (i mod 2 = 0)%nat ->
  (forall idx, valid (tshape w) idx -> nib (tget w idx)) ->
  exists p, pack_weight w = Some p /\ tshape p = [o; (i / 2)%nat] /\ all_in S8 p /\ teq (unpack_weight o i p) w.
Proof.
  intros Hs He Hn. destruct (pack_roundtrip_gen w o i Hs He) as (p & E1 & E2 & E3 & E4).
  exists p. split; [exact E1|]. split; [exact E2|]. split; [exact E3|].
  eapply teq_trans; [exact E4|apply teq_low4; exact Hn].
Qed.

Lemma pack_odd (w : tensor Z) o i : tshape w = [o; i] -> (i mod 2 = 1)%nat -> pack_weight w = None.
Proof. intros Hs Ho. unfold pack_weight. rewrite Hs, Ho. reflexivity. Qed.

(** the float weight of the 4-bit layer *)
Lemma weight4_ok nan_int w o i : tshape w = [o; i] -> (0 < o)%nat -> (0 < i)%nat -> (i mod 2 = 0)%nat ->
  exists fp, weight4_fp nan_int w = Some fp /\ tshape fp = tshape w /\
    forall r c, (r < o)%nat -> (c < i)%nat ->
      exists c', (c' < i)%nat /\ Rabs (tget w [r; c] - tget fp [r; c]) <= Rabs (tget w [r; c']) / 15.
Proof.
  intros Hs Ho Hi He. unfold weight4_fp.
  destruct (compress_int_defined nan_int 4 CPerChannel w) as ([sc q] & E).
  { rewrite Hs. repeat constructor; assumption. } { rewrite Hs. reflexivity. }
  rewrite E. cbn [obind fst snd].
  destruct (compress_int_ok nan_int 4 CPerChannel w sc q ltac:(lia) E) as (Hq & Hsc & Hok).
  assert (Hq2 : tshape q = [o; i]) by congruence.
  destruct (pack_roundtrip_gen q o i Hq2 He) as (p & Ep & _ & _ & [Hpe1 Hpe2]).
  rewrite Ep. cbn [obind]. rewrite Hs. cbn [nth]. eexists. split; [reflexivity|]. split; [reflexivity|].
  intros r c Hr Hc. cbn [tget nth].
  assert (V : valid (tshape w) [r; c]) by (rewrite Hs; repeat constructor; assumption).
  rewrite Hpe2 by (cbn [tshape unpack_weight reshape]; rewrite <- Hs; exact V).
  destruct (Hok _ V) as [(H0 & H1 & Hr1 & _) (jdx & Vj & Hsh & Hj)].
  cbn [shares scale_index removelast] in *.
  rewrite Hs in Vj. inversion Vj as [|r' ? jdx' ? Hr' Vj']; subst. inversion Vj' as [|c' ? jd ? Hc' Vj'']; subst.
  inversion Vj''; subst. cbn [removelast] in Hsh. injection Hsh as ->.
  exists c'. split; [exact Hc'|]. rewrite Hj.
  rewrite (Rmult_comm (IZR _) _). replace (_ * steps CPerChannel 4 / 15) with (tget sc [r] / 2).
  { cbn [tget tmap]. destruct (Req_dec (tget sc [r]) 0) as [Z0|NZ].
    - rewrite Z0 in *. rewrite !Rmult_0_l in *. exact H1.
    - assert (Hp : 0 < tget sc [r]) by lra. specialize (Hr1 Hp).
      change (2 ^ (Z.of_nat 4 - 1) - 1)%Z with 7%Z in Hr1.
      rewrite low4_id by (unfold nib; lia). exact H1. }
  unfold steps. change (2 ^ Z.of_nat 4 - 1)%Z with 15%Z. field.
Qed.

(* ------------------------------------------------------------------ *)
(** C51 *)

(** every element of [xq] differs from that of [x] by at most the largest element of its row over [d] *)
Definition close (d : R) (x xq : tensor R) : Prop :=
  tshape xq = tshape x /\
  forall pre i, valid (tshape x) (pre ++ [i]) ->
    exists j, valid (tshape x) (pre ++ [j]) /\ Rabs (tget x (pre ++ [i]) - tget xq (pre ++ [i])) <= Rabs (tget x (pre ++ [j])) / d.
(** [s pre] is the largest element of the row over [d] *)
Definition step_of (d : R) (x : tensor R) (s : list nat -> R) : Prop :=
  forall pre i, valid (tshape x) (pre ++ [i]) -> exists j, valid (tshape x) (pre ++ [j]) /\ Rabs (tget x (pre ++ [j])) = s pre * d.

Definition dequant (sc : tensor R) (f : list nat -> list nat) (q : tensor Z) : tensor R :=
  mkT (tshape q) (fun idx => tget sc (f idx) * IZR (tget q idx)).

Lemma compress_close nan_int mode t sc q : mode <> CPerTensor -> compress_int nan_int 8 mode t = Some (sc, q) ->
  let d := match mode with CPerChannel => 255 | _ => 254 end in
  close d t (dequant sc (scale_index mode) q) /\ step_of (d / 2) t (fun pre => tget sc (scale_index mode (pre ++ [0%nat]))).
Proof.
  intros Hm E d. destruct (compress_int_ok nan_int 8 mode t sc q ltac:(lia) E) as (Hq & Hsc & Hok).
  assert (Hst : steps mode 8 = d / 2).
  { unfold steps, d. destruct mode; [|change (2 ^ (Z.of_nat 8 - 1) - 1)%Z with 127%Z; lra|congruence].
    change (2 ^ Z.of_nat 8 - 1)%Z with 255%Z. lra. }
  assert (Hd : 0 < d) by (unfold d; destruct mode; lra).
  assert (Hrow : forall pre i, valid (tshape t) (pre ++ [i]) ->
    exists j, valid (tshape t) (pre ++ [j]) /\ Rabs (tget t (pre ++ [j])) = tget sc (scale_index mode (pre ++ [i])) * (d / 2)).
  { intros pre i V. destruct (Hok _ V) as [_ (jdx & Vj & Hsh & Hj)].
    assert (Hjr : removelast jdx = pre) by (destruct mode; cbn in Hsh; rewrite ?removelast_last in Hsh; congruence).
    assert (Hne : tshape t <> []) by (intro E0; rewrite E0 in V; apply valid_length in V; rewrite app_length in V; cbn in V; lia).
    destruct (valid_last _ _ Vj Hne) as (pr & j & -> & _ & _). rewrite removelast_last in Hjr. subst pr.
    exists j. split; [exact Vj|]. rewrite Hj, Hst. reflexivity. }
  assert (Hsi : forall pre i, scale_index mode (pre ++ [i]) = scale_index mode (pre ++ [0%nat]))
    by (intros; destruct mode; cbn; rewrite ?removelast_last; reflexivity).
  split; [split; [exact Hq|]|].
  - intros pre i V. destruct (Hrow _ _ V) as (j & Vj & Hj). exists j. split; [exact Vj|].
    destruct (Hok _ V) as [(_ & H1 & _) _]. rewrite Hj. cbn [dequant tget].
    replace (tget sc (scale_index mode (pre ++ [i])) * (d / 2) / d) with (tget sc (scale_index mode (pre ++ [i])) / 2) by (field; lra).
    exact H1.
  - intros pre i V. destruct (Hrow _ _ V) as (j & Vj & Hj). exists j. split; [exact Vj|]. rewrite Hj, Hsi. reflexivity.
Qed.

(** the stored weight without its padding *)
Definition plain_weight (l : dyn_linear) : tensor Z :=
  if negb (dl_in l mod 4 =? 0)%nat then drop_cols (4 - dl_in l mod 4) (dl_weight l) else dl_weight l.

Lemma dyn_init_ok nan_int w o i b : tshape w = [o; i] -> (0 < o)%nat -> (0 < i)%nat ->
  exists l sc q, dyn_init nan_int w b = Some l /\ compress_int nan_int 8 CPerChannel w = Some (sc, q) /\
    dl_in l = i /\ dl_scale l = sc /\ dl_bias l = b /\ teq (plain_weight l) q.
Proof.
  intros Hs Ho Hi. destruct (compress_int_defined nan_int 8 CPerChannel w) as ([sc q] & E).
  { rewrite Hs. repeat constructor; assumption. } { rewrite Hs. reflexivity. }
  destruct (compress_int_ok nan_int 8 CPerChannel w sc q ltac:(lia) E) as (Hq & _ & _).
  unfold dyn_init. rewrite E. cbn [obind fst snd]. rewrite Hs. cbn [nth].
  eexists _, sc, q. split; [reflexivity|]. split; [reflexivity|]. split; [reflexivity|]. split; [reflexivity|].
  split; [reflexivity|]. unfold plain_weight. cbn [dl_in dl_weight].
  destruct (i mod 4 =? 0)%nat eqn:E4; cbn [negb]; [apply teq_refl|].
  assert (Hlt : (i mod 4 < 4)%nat) by (apply Nat.mod_upper_bound; lia).
  set (k := (4 - i mod 4)%nat). assert (Hsq : tshape q = [o; i]) by congruence.
  unfold drop_cols, pad_cols, pad_op. cbn [tshape tget]. rewrite Hsq. cbn [pad_shape nth].
  split; cbn [tshape tget].
  - rewrite Hsq. f_equal; [lia|]. f_equal. lia.
  - intros idx V. inversion V as [|a ? idx1 ? Ha V1]; subst. inversion V1 as [|c ? idx2 ? Hc V2]; subst. inversion V2; subst.
    cbn [unpad]. replace (0 <=? a)%nat with true by reflexivity. replace (0 <=? c)%nat with true by reflexivity.
    rewrite !Nat.sub_0_r.
    replace (a <? o)%nat with true by (symmetry; apply Nat.ltb_lt; lia).
    replace (c <? i)%nat with true by (symmetry; apply Nat.ltb_lt; lia). reflexivity.
Qed.

(** all the scales of the products: weight scale times row scale *)
Lemma scales_ok (ws : tensor R) (xs : tensor R) o n : tshape ws = [o] -> tshape xs = [n; 1%nat] -> (0 < o)%nat -> (0 < n)%nat ->
  exists s, binop Rmult ws xs = Some s /\ tshape s = [n; o] /\
    forall a k, (a < n)%nat -> (k < o)%nat -> tget s [a; k] = tget ws [k] * tget xs [a; 0%nat].
Proof.
  intros H1 H2 Ho Hn. unfold binop. rewrite H1, H2.
  assert (Eb : bshape [o] [n; 1%nat] = Some [n; o]).
  { unfold bshape. cbn [rev app bshape_rev]. unfold bdim.
    destruct (o =? 1)%nat eqn:E1; [apply Nat.eqb_eq in E1; subst; reflexivity|]. reflexivity. }
  rewrite Eb. eexists. split; [reflexivity|]. split; [reflexivity|]. intros a k Ha Hk. cbn [tget].
  f_equal; f_equal; unfold bidx; cbn [rev app bidx_rev].
  - destruct (o =? 1)%nat eqn:E1; [apply Nat.eqb_eq in E1; f_equal; lia|reflexivity].
  - destruct (n =? 1)%nat eqn:E1; [apply Nat.eqb_eq in E1; cbn; f_equal; lia|reflexivity].
Qed.

Definition bias_of (b : option (list R)) (k : nat) : R := match b with Some b => nth k b 0 | None => 0 end.
(** the two layouts of an input with [n] rows that the layer treats correctly *)
Definition lead_ok (lead : list nat) (n : nat) : Prop := lead = [n] \/ lead = [1%nat; n].

Lemma out_scaled (y s : tensor R) lead n o : lead_ok lead n -> tshape y = lead ++ [o] -> tshape s = [n; o] ->
  exists z, binop Rmult y s = Some z /\ tshape z = lead ++ [o] /\
    forall pre k, valid (lead ++ [o]) (pre ++ [k]) ->
      tget z (pre ++ [k]) = tget y (pre ++ [k]) * tget s [last pre 0%nat; k].
Proof.
  intros HL Hy Hs. unfold binop. rewrite Hy, Hs. destruct HL as [-> | ->]; cbn [app].
  - rewrite bshape_self. eexists. split; [reflexivity|]. split; [reflexivity|]. intros pre k V.
    pose proof (valid_length _ _ V) as L. rewrite app_length in L. cbn in L.
    destruct pre as [|a [|? ?]]; cbn in L; try lia. cbn [app last tget] in *.
    rewrite bidx_self by exact V. reflexivity.
  - rewrite (bshape_short_cons 1 [n; o] [n; o] [n; o] eq_refl (bshape_self _)).
    eexists. split; [reflexivity|]. split; [reflexivity|]. intros pre k V.
    pose proof (valid_length _ _ V) as L. rewrite app_length in L. cbn in L.
    destruct pre as [|a [|c [|? ?]]]; cbn in L; try lia. cbn [app last tget] in *.
    rewrite (bidx_short a [n; o] [c; k] eq_refl). rewrite bidx_self by exact V.
    inversion V; subst. rewrite bidx_self by assumption. reflexivity.
Qed.

Lemma dyn_forward_ok nan_int w b x o i lead n :
  tshape w = [o; i] -> tshape x = lead ++ [i] -> lead_ok lead n -> (0 < o)%nat -> (0 < i)%nat -> (0 < n)%nat ->
  exists l y xq wq xs ws,
    dyn_init nan_int w b = Some l /\ dyn_forward nan_int l x = Some y /\
    close 254 x xq /\ step_of 127 x xs /\ close 255 w wq /\ step_of (255 / 2) w ws /\
    tshape y = lead ++ [o] /\
    forall pre k, valid (lead ++ [o]) (pre ++ [k]) ->
      tget y (pre ++ [k]) = tget (fc xq wq (fun _ => 0)) (pre ++ [k]) + bias_of b k * (ws [k] * xs pre).
Proof.
  intros Hw Hx HL Ho Hi Hn.
  destruct (dyn_init_ok nan_int w o i b Hw Ho Hi) as (l & ws & qw & El & Ew & Hlin & Hlsc & Hlb & [Hws Hwg]).
  destruct (compress_int_defined nan_int 8 CPerToken x) as ([xs qx] & Ex).
  { rewrite Hx. destruct HL as [-> | ->]; cbn [app]; repeat constructor; assumption. }
  { rewrite Hx. destruct HL as [-> | ->]; cbn; lia. }
  destruct (compress_int_ok nan_int 8 CPerChannel w ws qw ltac:(lia) Ew) as (Hqw & Hsw & _).
  destruct (compress_int_ok nan_int 8 CPerToken x xs qx ltac:(lia) Ex) as (Hqx & Hsx & _).
  destruct (compress_close _ CPerChannel _ _ _ ltac:(discriminate) Ew) as [Hcw Hstw].
  destruct (compress_close _ CPerToken _ _ _ ltac:(discriminate) Ex) as [Hcx Hstx].
  assert (Hsx2 : tshape xs = lead ++ [1%nat]) by (rewrite Hsx, Hx; cbn [scale_shape]; rewrite removelast_last; reflexivity).
  assert (Hsw2 : tshape ws = [o]) by (rewrite Hsw, Hw; reflexivity).
  assert (HP : prod (tshape xs) = n) by (rewrite Hsx2; destruct HL as [-> | ->]; cbn; lia).
  assert (Hqw2 : tshape qw = [o; i]) by congruence.
  assert (Hpw : tshape (plain_weight l) = [o; i]) by congruence.
  set (out := fc (tmap IZR qx) (tmap IZR (plain_weight l)) (fun k => bias_of b k)).
  assert (Hlinear : linear (tmap IZR qx) (tmap IZR (plain_weight l)) (dl_bias l) = Some out).
  { unfold linear. cbn [tshape tmap]. rewrite Hqx, Hx, Hpw, last_last. cbn [nth]. rewrite Nat.eqb_refl, Hlb. reflexivity. }
  assert (Hout : tshape out = lead ++ [o]).
  { unfold out, fc. cbn [tshape tmap]. rewrite Hqx, Hx, Hpw, removelast_last. reflexivity. }
  destruct (scales_ok (dl_scale l) (reshape [n; 1%nat] xs) o n) as (s & Es & Hss & Hsg); try assumption; try reflexivity; [congruence|].
  destruct (out_scaled out s lead n o HL Hout Hss) as (y & Ey & Hys & Hyg).
  exists l, y, (dequant xs (scale_index CPerToken) qx), (dequant ws (scale_index CPerChannel) qw),
    (fun pre => tget xs (scale_index CPerToken (pre ++ [0%nat]))), (fun pre => tget ws (scale_index CPerChannel (pre ++ [0%nat]))).
  split; [exact El|]. split.
  { unfold dyn_forward. rewrite Ex. cbn [obind fst snd]. fold (plain_weight l). rewrite Hlinear. cbn [obind].
    rewrite HP, Es. cbn [obind]. exact Ey. }
  split; [exact Hcx|]. split.
  { intros pre j V. destruct (Hstx pre j V) as (j' & H1 & H2). exists j'. split; [exact H1|]. rewrite H2. lra. }
  split; [exact Hcw|]. split; [exact Hstw|]. split; [exact Hys|].
  intros pre k V. rewrite Hyg by exact V.
  destruct (valid_last _ _ V) as (pre' & k' & E & Hk & Vp); [destruct lead; discriminate|].
  apply app_inj_tail in E. destruct E as [<- <-]. rewrite last_last in Hk. rewrite removelast_last in Vp.
  assert (Hlast : (last pre 0 < n)%nat /\ unravel (lead ++ [1%nat]) (last pre 0%nat) = pre ++ [0%nat]).
  { destruct HL as [-> | ->].
    - inversion Vp as [|a ? p1 ? Ha V1]; subst. inversion V1; subst. cbn [last]. split; [exact Ha|].
      cbn [app unravel prod]. rewrite !Nat.div_1_r, Nat.mod_1_r. reflexivity.
    - inversion Vp as [|a ? p1 ? Ha V1]; subst. inversion V1 as [|c ? p2 ? Hc V2]; subst. inversion V2; subst. cbn [last].
      split; [exact Hc|]. cbn [app unravel prod]. rewrite !Nat.mul_1_r, !Nat.div_1_r, !Nat.mod_1_r.
      rewrite (Nat.div_small c _ Hc), (Nat.mod_small c _ Hc). replace a with 0%nat by lia. reflexivity. }
  destruct Hlast as [Hl1 Hl2]. rewrite Hsg by assumption.
  cbn [reshape tget]. rewrite Hsx2. cbn [ravel prod]. rewrite Nat.mul_1_r, !Nat.add_0_r, Hl2, Hlsc.
  cbn [scale_index]. rewrite !removelast_last. change (removelast ([k] ++ [0%nat])) with [k].
  unfold out, fc. cbn [tget tshape tmap dequant]. rewrite !last_last, !removelast_last, Hpw, Hqw2. cbn [nth].
  rewrite Rplus_0_l, Rmult_plus_distr_r, Rplus_comm. f_equal.
  - rewrite <- lsum_scal_r. apply lsum_ext. intros j Hj. apply in_seq in Hj.
    rewrite Hwg by (rewrite Hpw; repeat constructor; lia).
    cbn [scale_index]. rewrite !removelast_last. cbn [removelast]. ring.
Qed.

Lemma dyn_forward_no_bias nan_int w x o i lead n :
  tshape w = [o; i] -> tshape x = lead ++ [i] -> lead_ok lead n -> (0 < o)%nat -> (0 < i)%nat -> (0 < n)%nat ->
  exists l y xq wq, dyn_init nan_int w None = Some l /\ dyn_forward nan_int l x = Some y /\
    close 254 x xq /\ close 255 w wq /\ teq y (fc xq wq (fun _ => 0)).
Proof.
  intros Hw Hx HL Ho Hi Hn.
  destruct (dyn_forward_ok nan_int w None x o i lead n Hw Hx HL Ho Hi Hn)
    as (l & y & xq & wq & xs & ws & H1 & H2 & H3 & _ & H4 & _ & H5 & H6).
  exists l, y, xq, wq. split; [exact H1|]. split; [exact H2|]. split; [exact H3|]. split; [exact H4|].
  destruct H3 as [H3 _]. destruct H4 as [H4 _].
  split.
  - rewrite H5. unfold fc. cbn [tshape]. rewrite H3, H4, Hx, Hw, removelast_last. reflexivity.
  - rewrite H5. intros idx V. destruct (valid_last _ _ V) as (pre & k & -> & _); [destruct lead; discriminate|].
    rewrite H6 by exact V. cbn [bias_of]. ring.
Qed.

(** weight, input and bias all 1 *)
Lemma dyn_bias_refuted nan_int : exists w x b l y,
  dyn_init nan_int w (Some b) = Some l /\ dyn_forward nan_int l x = Some y /\
  forall xq wq, close 254 x xq -> close 255 w wq -> ~ teq y (fc xq wq (fun k => nth k b 0)).
Proof.
  set (one := mkT [1; 1]%nat (fun _ => 1)).
  destruct (dyn_forward_ok nan_int one (Some [1]) one 1 1 [1%nat] 1 eq_refl eq_refl (or_introl eq_refl))
    as (l & y & xq & wq & xs & ws & H1 & H2 & H3 & Sx & H4 & Sw & H5 & H6); try lia.
  exists one, one, [1], l, y. split; [exact H1|]. split; [exact H2|].
  intros xq' wq' C1 C2 [Hs Hg].
  assert (V : valid [1; 1]%nat [0; 0]%nat) by (repeat constructor).
  assert (Hb : forall d t, 1 <= d -> close d one t -> 1 - / d <= tget t [0; 0]%nat <= 1 + / d).
  { intros d t Hd [_ C]. destruct (C [0%nat] 0%nat V) as (j & _ & H). cbn [one tget app] in H.
    rewrite (Rabs_right 1) in H by lra. apply Rabs_between in H. unfold Rdiv in H. rewrite Rmult_1_l in H. lra. }
  pose proof (Hb 254 xq ltac:(lra) H3). pose proof (Hb 255 wq ltac:(lra) H4).
  pose proof (Hb 254 xq' ltac:(lra) C1). pose proof (Hb 255 wq' ltac:(lra) C2).
  destruct (Sx [0%nat] 0%nat V) as (j1 & _ & E1). destruct (Sw [0%nat] 0%nat V) as (j2 & _ & E2).
  cbn [one tget] in E1, E2. rewrite (Rabs_right 1) in E1, E2 by lra.
  specialize (Hg [0; 0]%nat). rewrite H5 in Hg. specialize (Hg V).
  pose proof (H6 [0%nat] 0%nat V) as Hy. cbn [app] in Hy. rewrite Hy in Hg.
  assert (W1 : tshape wq = [1; 1]%nat) by apply H4. assert (W2 : tshape wq' = [1; 1]%nat) by apply C2.
  unfold fc in Hg. cbn [tget last removelast bias_of app] in Hg. rewrite W1, W2 in Hg. cbn [nth seq] in Hg.
  rewrite !lsum_cons, !lsum_nil in Hg.
  assert (X1 : xs [0%nat] = / 127) by lra. assert (X2 : ws [0%nat] = 2 / 255) by lra.
  rewrite X1, X2 in Hg.
  set (a := tget wq [0; 0]%nat) in *. set (b := tget xq [0; 0]%nat) in *.
  set (a' := tget wq' [0; 0]%nat) in *. set (b' := tget xq' [0; 0]%nat) in *.
  assert (a * b <= (1 + / 255) * (1 + / 254)) by (apply Rmult_le_compat; lra).
  assert ((1 - / 255) * (1 - / 254) <= a' * b') by (apply Rmult_le_compat; lra).
  lra.
Qed.

(** more than one batch and more than one row *)
Lemma dyn_batch_raises nan_int w b x o i m n l :
  tshape w = [o; i] -> tshape x = [m; n; i] -> (0 < o)%nat -> (0 < i)%nat -> (2 <= n)%nat -> (2 <= m)%nat ->
  dyn_init nan_int w b = Some l -> dyn_forward nan_int l x = None.
Proof.
  intros Hw Hx Ho Hi Hn Hm El.
  destruct (dyn_init_ok nan_int w o i b Hw Ho Hi) as (l' & ws & qw & El' & Ew & Hlin & Hlsc & Hlb & [Hws Hwg]).
  assert (l' = l) by congruence. subst l'.
  destruct (compress_int_defined nan_int 8 CPerToken x) as ([xs qx] & Ex).
  { rewrite Hx. repeat constructor; lia. } { rewrite Hx. cbn. lia. }
  destruct (compress_int_ok nan_int 8 CPerChannel w ws qw ltac:(lia) Ew) as (Hqw & Hsw & _).
  destruct (compress_int_ok nan_int 8 CPerToken x xs qx ltac:(lia) Ex) as (Hqx & Hsx & _).
  unfold dyn_forward. rewrite Ex. cbn [obind fst snd]. fold (plain_weight l).
  unfold linear. cbn [tshape tmap]. rewrite Hqx, Hx, Hws, Hqw, Hw. cbn [last nth]. rewrite Nat.eqb_refl. cbn [obind].
  assert (HP : prod (tshape xs) = (m * n)%nat) by (rewrite Hsx, Hx; cbn; lia).
  rewrite HP.
  destruct (scales_ok (dl_scale l) (reshape [(m * n)%nat; 1%nat] xs) o (m * n)) as (s & Es & Hss & _); try reflexivity; try lia.
  { rewrite Hlsc, Hsw, Hw. reflexivity. }
  rewrite Es. cbn [obind]. unfold binop, fc. cbn [tshape tmap]. rewrite Hqx, Hx, Hws, Hqw, Hw, Hss. cbn [removelast nth app].
  unfold bshape. cbn [rev app bshape_rev]. unfold bdim. rewrite Nat.eqb_refl.
  destruct (n =? m * n)%nat eqn:E1; [apply Nat.eqb_eq in E1; nia|].
  destruct (n =? 1)%nat eqn:E2; [apply Nat.eqb_eq in E2; lia|].
  destruct (m * n =? 1)%nat eqn:E3; [apply Nat.eqb_eq in E3; nia|]. reflexivity.
Qed.

(** more than one batch of one row: wrong shape *)
Lemma dyn_batch_shape nan_int w b x o i m l :
  tshape w = [o; i] -> tshape x = [m; 1%nat; i] -> (0 < o)%nat -> (0 < i)%nat -> (2 <= m)%nat ->
  dyn_init nan_int w b = Some l -> exists y, dyn_forward nan_int l x = Some y /\ tshape y = [m; m; o].
Proof.
  intros Hw Hx Ho Hi Hm El.
  destruct (dyn_init_ok nan_int w o i b Hw Ho Hi) as (l' & ws & qw & El' & Ew & Hlin & Hlsc & Hlb & [Hws Hwg]).
  assert (l' = l) by congruence. subst l'.
  destruct (compress_int_defined nan_int 8 CPerToken x) as ([xs qx] & Ex).
  { rewrite Hx. repeat constructor; lia. } { rewrite Hx. cbn. lia. }
  destruct (compress_int_ok nan_int 8 CPerChannel w ws qw ltac:(lia) Ew) as (Hqw & Hsw & _).
  destruct (compress_int_ok nan_int 8 CPerToken x xs qx ltac:(lia) Ex) as (Hqx & Hsx & _).
  unfold dyn_forward. rewrite Ex. cbn [obind fst snd]. fold (plain_weight l).
  unfold linear. cbn [tshape tmap]. rewrite Hqx, Hx, Hws, Hqw, Hw. cbn [last nth]. rewrite Nat.eqb_refl. cbn [obind].
  assert (HP : prod (tshape xs) = m) by (rewrite Hsx, Hx; cbn; lia).
  rewrite HP.
  destruct (scales_ok (dl_scale l) (reshape [m; 1%nat] xs) o m) as (s & Es & Hss & _); try reflexivity; try lia.
  { rewrite Hlsc, Hsw, Hw. reflexivity. }
  rewrite Es. cbn [obind]. unfold binop, fc. cbn [tshape tmap]. rewrite Hqx, Hx, Hws, Hqw, Hw, Hss. cbn [removelast nth app].
  unfold bshape. cbn [rev app bshape_rev]. unfold bdim. rewrite Nat.eqb_refl.
  destruct (1 =? m)%nat eqn:E1; [apply Nat.eqb_eq in E1; lia|]. cbn [Nat.eqb option_map rev app].
  eexists. split; [reflexivity|]. reflexivity.
Qed.
