(** Proofs about the lowering of operators that move elements. *)
From Coq Require Import List Arith Bool Reals Lia ZArith Permutation.
From Verif Require Import Tensor ConvSpec CatSpec LayoutSpec PassAxesProofs FuseModel FuseMiscProofs AtenConvProofs AtenPoolModel MoveSpec AtenMoveModel.
Import ListNotations.

Lemma list_eqb_spec a b : Bool.reflect (a = b) (list_eqb a b).
Proof. unfold list_eqb. destruct (list_eq_dec _ a b); constructor; auto. Qed.

(** * roll *)
Lemma axis_of_lt n d : axis_ok n d -> axis_of n d < n.
Proof. unfold axis_ok, axis_of. destruct (Z.ltb_spec d 0); lia. Qed.

Lemma mod_sub n a i : 0 < n -> a < n -> i < n ->
  Z.to_nat ((Z.of_nat i - Z.of_nat a) mod Z.of_nat n) = if i <? a then n - a + i else i - a.
Proof.
  intros Hn Ha Hi. destruct (Nat.ltb_spec i a).
  - rewrite <- (Z.mod_unique_pos (Z.of_nat i - Z.of_nat a) (Z.of_nat n) (-1) (Z.of_nat (n - a + i))) by lia. lia.
  - rewrite Z.mod_small by lia. lia.
Qed.

Lemma roll_axis_correct {A} (d : A) s dm t : axis_ok (length (tshape t)) dm ->
  0 < nth (axis_of (length (tshape t)) dm) (tshape t) 0 ->
  exists y, roll_axis d (s, dm) t = Some y /\ teq y (roll1 s (axis_of (length (tshape t)) dm) t).
Proof.
  intros Hax Hn. unfold roll_axis. cbn [fst snd]. change (Z.to_nat (if (dm <? 0)%Z then (dm + Z.of_nat (length (tshape t)))%Z else dm))
    with (axis_of (length (tshape t)) dm).
  pose proof (axis_of_lt _ _ Hax) as Hlt. set (ax := axis_of (length (tshape t)) dm) in *. clearbody ax.
  set (n := nth ax (tshape t) 0) in *. replace (n =? 0) with false by (symmetry; apply Nat.eqb_neq; lia).
  set (s' := if (s <? 0)%Z then (s + Z.of_nat n)%Z else s).
  assert (Hs : (s' mod Z.of_nat n = s mod Z.of_nat n)%Z).
  { unfold s'. destruct (s <? 0)%Z; auto. replace (s + Z.of_nat n)%Z with (s + 1 * Z.of_nat n)%Z by lia. apply Z_mod_plus_full. }
  rewrite Hs. clear Hs s'. set (a := Z.to_nat (s mod Z.of_nat n)).
  assert (Hb : (0 <= s mod Z.of_nat n < Z.of_nat n)%Z) by (apply Z.mod_pos_bound; lia).
  assert (Ha : Z.of_nat a = (s mod Z.of_nat n)%Z) by (unfold a; rewrite Z2Nat.id; lia).
  assert (Hlt' : a < n) by lia.
  assert (E : forall i, i < n -> Z.to_nat ((Z.of_nat i - s) mod Z.of_nat n) = if i <? a then n - a + i else i - a).
  { intros i Hi. rewrite <- (mod_sub n a i) by lia. rewrite Ha, Zminus_mod_idemp_r. reflexivity. }
  eexists. split; [reflexivity|].
  destruct (Nat.eqb_spec a 0) as [Z0|N0].
  - apply (teq_trans _ t); [apply reshape_id|]. split; [reflexivity|]. intros idx V. cbn [roll1 tget].
    fold n. rewrite E by (unfold n; apply valid_nth; auto). rewrite Z0. cbn. rewrite Nat.sub_0_r, upd_same; auto.
    rewrite (valid_length _ _ V). exact Hlt.
  - assert (Hs1 : axis_size ax (chunk ax (n - a) a t) = a) by (unfold axis_size, chunk; cbn [tshape]; now apply upd_nth_eq).
    assert (Hs2 : axis_size ax (chunk ax 0 (n - a) t) = n - a) by (unfold axis_size, chunk; cbn [tshape]; now apply upd_nth_eq).
    assert (Hs3 : sizes_sum ax [chunk ax (n - a) a t; chunk ax 0 (n - a) t] = n).
    { unfold sizes_sum. cbn [map]. rewrite Hs1, Hs2. cbn. lia. }
    assert (Hs4 : upd (tshape (chunk ax (n - a) a t)) ax n = tshape t).
    { cbn [chunk tshape]. rewrite upd_upd. unfold n. now apply upd_same. }
    split.
    + cbn [concatenation tshape roll1]. now rewrite Hs3.
    + intros idx V.
      assert (V' : valid (tshape t) idx).
      { cbn [concatenation tshape] in V. now rewrite Hs3, Hs4 in V. }
      pose proof (valid_nth _ _ ax V' Hlt) as Hi. fold n in Hi. pose proof (valid_length _ _ V') as Hl.
      cbn [concatenation tget cat_at roll1]. fold n. rewrite E by exact Hi. rewrite Hs1, Hs2.
      destruct (Nat.ltb_spec (nth ax idx 0) a).
      * cbn [chunk tget]. rewrite upd_upd, upd_nth_eq by lia. reflexivity.
      * replace (nth ax idx 0 - a <? n - a) with true by (symmetry; apply Nat.ltb_lt; lia).
        cbn [chunk tget]. rewrite upd_upd, upd_nth_eq by lia. reflexivity.
Qed.

Lemma roll1_congr {A} s ax (t u : tensor A) : ax < length (tshape t) -> 0 < nth ax (tshape t) 0 -> teq t u -> teq (roll1 s ax t) (roll1 s ax u).
Proof.
  intros Hax Hn [Hs Hg]. split; [exact Hs|]. intros idx V. cbn [roll1 tget tshape] in *. rewrite <- Hs. apply Hg.
  apply valid_upd with (d := nth ax (tshape t) 0); auto.
  - rewrite upd_same; auto.
  - pose proof (Z.mod_pos_bound (Z.of_nat (nth ax idx 0) - s) (Z.of_nat (nth ax (tshape t) 0))). lia.
Qed.

Lemma roll_loop_correct {A} (d : A) sds : forall t u, teq t u ->
  Forall (fun sd => axis_ok (length (tshape t)) (snd sd)) sds -> (forall k, k < length (tshape t) -> 0 < nth k (tshape t) 0) ->
  exists y, roll_loop d sds t = Some y /\ teq y (fold_left (fun t sd => roll1 (fst sd) (axis_of (length (tshape t)) (snd sd)) t) sds u).
Proof.
  induction sds as [|[s dm] sds IH]; intros t u E F P; cbn [roll_loop fold_left].
  - eauto.
  - inversion F as [|? ? Hd F']; subst. cbn [snd] in Hd.
    pose proof (axis_of_lt _ _ Hd) as Hlt. pose proof (proj1 E) as Es.
    destruct (roll_axis_correct d s dm t Hd (P _ Hlt)) as (y & Hy & Ty). rewrite Hy. cbn [obind].
    assert (Sy : tshape y = tshape t) by (apply (proj1 Ty)).
    apply IH.
    + cbn [fst snd]. rewrite <- Es. apply (teq_trans _ _ _ Ty). apply roll1_congr; auto.
    + rewrite Sy. exact F'.
    + rewrite Sy. exact P.
Qed.

Lemma teq_roll_flat {A} (t u y : tensor A) (s : Z) : tshape u = [prod (tshape t)] -> 0 < prod (tshape t) ->
  (forall n, n < prod (tshape t) -> tget u [n] = tget t (unravel (tshape t) n)) ->
  teq y (roll1 s 0 u) -> teq (reshape (tshape t) y) (roll [s] [] t).
Proof.
  intros Hu Hn Hg [Ys Yg]. cbn [roll1 tshape] in Ys. split; [reflexivity|]. intros idx V. cbn [reshape roll tget tshape] in *.
  pose proof (ravel_lt _ _ V) as Hr. rewrite Ys, Hu. cbn [unravel prod]. rewrite Nat.div_1_r.
  rewrite Yg. 2:{ rewrite Ys, Hu. repeat constructor. exact Hr. }
  cbn [roll1 tget nth upd]. rewrite Hu. cbn [nth]. rewrite Hg; [reflexivity|].
  pose proof (Z.mod_pos_bound (Z.of_nat (ravel (tshape t) idx) - s) (Z.of_nat (prod (tshape t)))). lia.
Qed.

Lemma prod_pos s : (forall k, k < length s -> 0 < nth k s 0) -> 0 < prod s.
Proof.
  induction s as [|d s IH]; cbn [prod length]; intro H; [lia|].
  pose proof (H 0 ltac:(lia)) as H0. cbn in H0. assert (0 < prod s) by (apply IH; intros k Hk; apply (H (S k)); lia). nia.
Qed.

Lemma aten_roll_correct {A} (d : A) shifts dims t :
  (forall k, k < length (tshape t) -> 0 < nth k (tshape t) 0) ->
  Forall (axis_ok (length (tshape t))) dims ->
  (dims = [] /\ length shifts = 1) \/ (dims <> [] /\ length shifts = length dims) ->
  exists y, aten_roll d shifts dims t = Some y /\ teq y (roll shifts dims t).
Proof.
  intros P F [[-> Hl]|[Hd Hl]].
  - destruct (list1 shifts Hl) as [s ->]. unfold aten_roll. cbn [length Nat.eqb negb andb].
    pose proof (prod_pos _ P) as Hp.
    set (t' := if negb (length (tshape t) =? 1) then reshape [prod (tshape t)] t else t).
    assert (Ht : tshape t' = [prod (tshape t)] /\ forall n, n < prod (tshape t) -> tget t' [n] = tget t (unravel (tshape t) n)).
    { unfold t'. destruct (Nat.eqb_spec (length (tshape t)) 1) as [E|E]; cbn [negb].
      - destruct (list1 _ E) as [n0 Hn0]. rewrite Hn0. cbn [prod]. split; [f_equal; lia|]. intros n Hn. cbn [unravel prod]. now rewrite Nat.div_1_r.
      - split; [reflexivity|]. intros n Hn. cbn [reshape tget ravel prod]. f_equal. f_equal. lia. }
    destruct Ht as [Ht Hg].
    destruct (roll_loop_correct d (combine [s] [0%Z]) t' t' (teq_refl _)) as (y & Hy & Ty).
    { constructor; [|constructor]. rewrite Ht. cbn. unfold axis_ok. lia. }
    { rewrite Ht. intros [|k] Hk; cbn in *; lia. }
    rewrite Hy. cbn [obind]. eexists. split; [reflexivity|].
    cbn [combine fold_left fst snd] in Ty. rewrite Ht in Ty. cbn [length axis_of] in Ty. unfold axis_of in Ty. cbn in Ty.
    pose proof (teq_roll_flat t t' y s Ht Hp Hg Ty) as R.
    destruct (Nat.eqb_spec (length (tshape y)) (length (tshape t))) as [E|E]; [|exact R].
    assert (Hy' : tshape y = tshape t).
    { rewrite (proj1 Ty). cbn [roll1 tshape]. rewrite Ht. rewrite (proj1 Ty) in E. cbn [roll1 tshape] in E. rewrite Ht in E. cbn in E.
      destruct (list1 _ (eq_sym E)) as [n0 Hn0]. rewrite Hn0. cbn. f_equal. lia. }
    rewrite <- Hy' in R. apply (teq_trans _ (reshape (tshape y) y)); [apply teq_sym, reshape_id|exact R].
  - unfold aten_roll. destruct dims as [|d0 dims]; [congruence|]. change (length (d0 :: dims) =? 0) with false. cbn [andb].
    rewrite Hl, Nat.eqb_refl. cbn [negb].
    destruct (roll_loop_correct d (combine shifts (d0 :: dims)) t t (teq_refl _)) as (y & Hy & Ty); auto.
    { rewrite Forall_forall in *. intros [s z] Hin. apply F. eapply in_combine_r; eauto. }
    rewrite Hy. cbn [obind]. eexists. split; [reflexivity|].
    replace (length (tshape y) =? length (tshape t)) with true; [exact Ty|]. symmetry. apply Nat.eqb_eq. rewrite (proj1 Ty). f_equal.
    generalize (combine shifts (d0 :: dims)) as l. clear. intro l. revert t. induction l as [|[a b] l IH]; intro t; cbn [fold_left]; auto. rewrite IH. reflexivity.
Qed.

(** * flip *)
Lemma flip_idx_length k ax sh idx : length idx = length sh -> length (flip_idx k ax sh idx) = length sh.
Proof. revert k idx. induction sh as [|d sh IH]; intros k [|i idx] H; cbn in *; try discriminate; auto. Qed.
Lemma flip_idx_nth k ax : forall sh idx j, length idx = length sh -> j < length sh ->
  nth j (flip_idx k ax sh idx) 0 = if existsb (Nat.eqb (k + j)) ax then nth j sh 0 - 1 - nth j idx 0 else nth j idx 0.
Proof.
  intro sh. revert k. induction sh as [|d sh IH]; intros k [|i idx] j H Hj; cbn [length] in *; try discriminate; try lia.
  cbn [flip_idx]. destruct j as [|j]; cbn [nth].
  - rewrite Nat.add_0_r. reflexivity.
  - rewrite IH by lia. replace (S k + j) with (k + S j) by lia. reflexivity.
Qed.
Lemma valid_flip ax sh idx : valid sh idx -> valid sh (flip_idx 0 ax sh idx).
Proof.
  intro V. pose proof (valid_length _ _ V) as L. apply valid_intro; [now apply flip_idx_length|].
  intros k Hk. rewrite flip_idx_nth by auto. pose proof (valid_nth _ _ k V Hk). destruct (existsb _ _); lia.
Qed.

Lemma reverse_chain {A} axes : forall (t : tensor A), NoDup axes ->
  teq (fold_left (fun y k => reverse [k] y) axes t) (reverse axes t).
Proof.
  intro t. rewrite <- (rev_involutive axes). set (r := rev axes). clearbody r. clear axes.
  induction r as [|a r IH]; intro ND; cbn [rev].
  - split; [reflexivity|]. intros idx V. cbn [fold_left reverse tget tshape] in *. f_equal.
    pose proof (valid_length _ _ V) as L.
    apply list_eq_nth; [rewrite flip_idx_length; auto|].
    intros k Hk. rewrite L in Hk. rewrite flip_idx_nth; auto.
  - rewrite fold_left_app. cbn [fold_left]. cbn [rev] in ND. apply NoDup_remove in ND. destruct ND as [ND Na]. rewrite app_nil_r in *.
    destruct (IH ND) as [Hs Hg]. split; [exact Hs|]. intros idx V. cbn [reverse tget tshape] in *.
    set (f := fold_left (fun y k => reverse [k] y) (rev r) t) in *. clearbody f. rewrite Hs in V |- *.
    rewrite Hg by (rewrite Hs; now apply valid_flip).
    f_equal. pose proof (valid_length _ _ V) as L.
    apply list_eq_nth; [rewrite !flip_idx_length; auto using flip_idx_length|].
    intros k Hk. rewrite flip_idx_length in Hk by auto using flip_idx_length.
    rewrite !flip_idx_nth; auto using flip_idx_length. cbn [Nat.add existsb]. rewrite existsb_app. cbn [existsb]. rewrite !orb_false_r.
    pose proof (valid_nth _ _ k V Hk).
    destruct (existsb (Nat.eqb k) (rev r)) eqn:E1; cbn [orb]; [|reflexivity].
    destruct (Nat.eqb_spec k a) as [->|]; [|reflexivity].
    exfalso. apply existsb_exists in E1. destruct E1 as (z & Hz & Ez). apply Nat.eqb_eq in Ez. subst z. contradiction.
Qed.

Lemma map_seq_nth (f : nat -> nat) n k : k < n -> nth k (map f (seq 0 n)) 0 = f k.
Proof. intro H. rewrite nth_indep with (d' := f 0) by (now rewrite map_length, seq_length). rewrite map_nth, seq_nth by exact H. reflexivity. Qed.

Lemma reverse_flip {A} dims (t : tensor A) : teq (reverse (map (axis_of (length (tshape t))) dims) t) (flip dims t).
Proof.
  split; [reflexivity|]. intros idx V. cbn [reverse flip tget tshape] in *. f_equal. pose proof (valid_length _ _ V) as L.
  apply list_eq_nth; [rewrite flip_idx_length, map_length, seq_length; auto|].
  intros k Hk. rewrite flip_idx_length in Hk by auto. rewrite flip_idx_nth by auto. rewrite map_seq_nth by exact Hk. cbn [Nat.add].
  replace (existsb (Nat.eqb k) (map (axis_of (length (tshape t))) dims))
    with (existsb (fun d => axis_of (length (tshape t)) d =? k) dims); [reflexivity|].
  induction dims as [|d dims IH]; cbn [existsb map]; auto. now rewrite IH, Nat.eqb_sym.
Qed.

Lemma aten_flip_correct {A} dims (t : tensor A) : NoDup (map (axis_of (length (tshape t))) dims) ->
  teq (aten_flip dims t) (flip dims t).
Proof.
  intro ND. apply (teq_trans _ (reverse (map (axis_of (length (tshape t))) dims) t)); [|apply reverse_flip].
  unfold aten_flip.
  change (map (fun x => Z.to_nat (if (x <? 0)%Z then x + Z.of_nat (length (tshape t)) else x)%Z) dims)
    with (map (axis_of (length (tshape t))) dims).
  set (ax := map (axis_of (length (tshape t))) dims) in *. clearbody ax.
  destruct (Nat.eqb_spec (length ax) 1); [apply teq_refl|].
  destruct ax as [|a0 ax0] using rev_ind.
  - apply teq_refl.
  - rewrite PadProofs.removelast_snoc, app_length. cbn [length]. replace (length ax0 + 1 - 1) with (length ax0) by lia.
    rewrite skipn_app, skipn_all, Nat.sub_diag. cbn [skipn app].
    pose proof (reverse_chain (ax0 ++ [a0]) t ND) as H. rewrite fold_left_app in H. exact H.
Qed.

(** * pixel_shuffle *)
Lemma indices_length s : length (indices s) = prod s.
Proof.
  induction s as [|d s IH]; cbn [indices prod]; auto. generalize 0 as a. induction d as [|d IHd]; intro a; cbn [seq flat_map]; auto.
  rewrite app_length, map_length, IH, IHd. cbn. reflexivity.
Qed.
Lemma flat_blocks_nth {A} (f : nat -> list A) k d0 : forall n a, (forall i, length (f i) = k) -> 0 < k -> forall m, m < n * k ->
  nth m (flat_map f (seq a n)) d0 = nth (m mod k) (f (a + m / k)) d0.
Proof.
  induction n as [|n IH]; intros a Hf Hk m Hm; [lia|]. cbn [seq flat_map].
  destruct (Nat.ltb_spec m k) as [Hl|Hl].
  - rewrite app_nth1 by (now rewrite Hf). rewrite Nat.mod_small, Nat.div_small by exact Hl. now rewrite Nat.add_0_r.
  - rewrite app_nth2 by (now rewrite Hf). rewrite Hf, IH by (auto; lia). 
    assert (E : m = (m - k) + 1 * k) by lia. rewrite E at 3 4. rewrite Nat.mod_add, Nat.div_add by lia.
    f_equal. f_equal. lia.
Qed.
Lemma indices_nth s : forall n, n < prod s -> nth n (indices s) [] = unravel s n.
Proof.
  induction s as [|d s IH]; intros n Hn; cbn [indices unravel prod] in *.
  - destruct n; [reflexivity|lia].
  - assert (0 < prod s) by nia.
    rewrite flat_blocks_nth with (k := prod s); auto. 2:{ intro i. rewrite map_length. apply indices_length. }
    cbn [Nat.add]. rewrite nth_indep with (d' := (n / prod s) :: []).
    2:{ rewrite map_length, indices_length. apply Nat.mod_upper_bound. lia. }
    rewrite (map_nth (cons (n / prod s))). f_equal. apply IH. apply Nat.mod_upper_bound. lia.
Qed.
Lemma np_flatten_length {A} (t : tensor A) : length (np_flatten t) = prod (tshape t).
Proof. unfold np_flatten. now rewrite map_length, indices_length. Qed.
Lemma np_flatten_nth (t : tensor nat) n : n < prod (tshape t) -> nth n (np_flatten t) 0 = tget t (unravel (tshape t) n).
Proof.
  intro H. unfold np_flatten. rewrite nth_indep with (d' := tget t []) by (now rewrite map_length, indices_length).
  rewrite map_nth, indices_nth by exact H. reflexivity.
Qed.

Lemma shuffle_perm_nth c' r m : m < c' * (r * r) ->
  nth m (shuffle_perm (c' * (r * r)) r) 0 = (m mod c') * (r * r) + m / c'.
Proof.
  intro H. assert (0 < r /\ 0 < c') as [Hr Hc] by (split; nia).
  unfold shuffle_perm. rewrite Nat.div_mul by nia.
  rewrite np_flatten_nth by (cbn; nia). 
  cbn [transpose reshape arange tshape tget sel map nth unravel prod ravel inv_perm seq length find_pos Nat.eqb].
  rewrite !Nat.mul_1_r, !Nat.div_1_r.
  set (e := m mod (r * c')). assert (Hm : m = (m / (r * c')) * (r * c') + e) by (unfold e; rewrite (Nat.mul_comm _ (r * c')); apply Nat.div_mod; nia).
  assert (He : e < r * c') by (apply Nat.mod_upper_bound; nia).
  assert (E1 : m mod c' = e mod c').
  { rewrite Hm at 1. replace (m / (r * c') * (r * c') + e) with (e + (m / (r * c') * r) * c') by nia. apply Nat.mod_add. lia. }
  assert (E2 : m / c' = m / (r * c') * r + e / c').
  { rewrite Hm at 1. replace (m / (r * c') * (r * c') + e) with ((m / (r * c') * r) * c' + e) by nia. apply Nat.div_add_l. lia. }
  rewrite E1, E2. lia.
Qed.

Lemma is_sorted_nth l : is_sorted l = true -> forall k, S k < length l -> nth k l 0 <= nth (S k) l 0.
Proof.
  induction l as [|a [|b l] IH]; intros H k Hk; cbn [length] in Hk; try lia.
  cbn [is_sorted] in H. apply andb_true_iff in H. destruct H as [H1 H2]. apply Nat.leb_le in H1.
  destruct k as [|k]; [exact H1|]. cbn [nth]. apply (IH H2 k). cbn. lia.
Qed.
Lemma sorted_identity l : is_sorted l = true -> NoDup l -> (forall k, k < length l -> nth k l 0 < length l) ->
  forall k, k < length l -> nth k l 0 = k.
Proof.
  intros Hs ND Hb.
  assert (Hlt : forall k, S k < length l -> nth k l 0 < nth (S k) l 0).
  { intros k Hk. pose proof (is_sorted_nth l Hs k Hk). assert (nth k l 0 <> nth (S k) l 0); [|lia].
    intro E. apply (proj1 (NoDup_nth l 0) ND) in E; lia. }
  assert (Lo : forall k, k < length l -> k <= nth k l 0).
  { induction k as [|k IH]; intro Hk; [lia|]. pose proof (Hlt k Hk). specialize (IH ltac:(lia)). lia. }
  assert (Hi : forall j, j < length l -> nth (length l - 1 - j) l 0 <= length l - 1 - j).
  { induction j as [|j IH]; intro Hj.
    - specialize (Hb (length l - 1 - 0) ltac:(lia)). lia.
    - specialize (IH ltac:(lia)). pose proof (Hlt (length l - 1 - S j) ltac:(lia)) as H.
      replace (S (length l - 1 - S j)) with (length l - 1 - j) in H by lia. lia. }
  intros k Hk. specialize (Lo k Hk). specialize (Hi (length l - 1 - k) ltac:(lia)).
  replace (length l - 1 - (length l - 1 - k)) with k in Hi by lia. lia.
Qed.
Lemma NoDup_of_inj l : (forall i j, i < length l -> j < length l -> nth i l 0 = nth j l 0 -> i = j) -> NoDup l.
Proof. intro H. apply (NoDup_nth l 0). intros i j Hi Hj E. auto. Qed.

Lemma shuffle_perm_length c' r : 0 < r -> length (shuffle_perm (c' * (r * r)) r) = c' * (r * r).
Proof. intro Hr. unfold shuffle_perm. rewrite np_flatten_length, Nat.div_mul by nia. cbn. lia. Qed.

Lemma divmod_inj b x y x' y' : y < b -> y' < b -> x * b + y = x' * b + y' -> x = x' /\ y = y'.
Proof. intros. assert (x = x') by nia. subst. lia. Qed.

Lemma shuffle_sorted c' r : is_sorted (shuffle_perm (c' * (r * r)) r) = true ->
  forall m, m < c' * (r * r) -> nth m (shuffle_perm (c' * (r * r)) r) 0 = m.
Proof.
  intros Hs m Hm. assert (0 < r /\ 0 < c') as [Hr Hc] by (split; nia).
  pose proof (shuffle_perm_length c' r Hr) as L.
  apply sorted_identity; auto; rewrite ?L; auto.
  - apply NoDup_of_inj. rewrite L. intros i j Hi Hj E. rewrite !shuffle_perm_nth in E by assumption.
    assert (i / c' < r * r) by (apply Nat.div_lt_upper_bound; nia). assert (j / c' < r * r) by (apply Nat.div_lt_upper_bound; nia).
    apply divmod_inj in E; auto. destruct E as [E1 E2]. rewrite (Nat.div_mod i c'), (Nat.div_mod j c') by lia. congruence.
  - intros k Hk. rewrite shuffle_perm_nth by exact Hk.
    assert (k / c' < r * r) by (apply Nat.div_lt_upper_bound; nia). pose proof (Nat.mod_upper_bound k c'). nia.
Qed.

Lemma valid4 a b c d idx : valid [a; b; c; d] idx ->
  exists i j k l, idx = [i; j; k; l] /\ i < a /\ j < b /\ k < c /\ l < d.
Proof.
  intro V. inversion V as [|i ? idx1 ? Hi V1]; subst. inversion V1 as [|j ? idx2 ? Hj V2]; subst.
  inversion V2 as [|k ? idx3 ? Hk V3]; subst. inversion V3 as [|l ? idx4 ? Hl V4]; subst. inversion V4; subst. eauto 12.
Qed.

Lemma aten_pixel_shuffle_correct {A} r (t : tensor A) N C' H W : 0 < r -> tshape t = [N; C' * (r * r); H; W] ->
  teq (aten_pixel_shuffle r t) (pixel_shuffle r t).
Proof.
  intros Hr Ht. unfold aten_pixel_shuffle. rewrite Ht. cbn [nth].
  set (perm := shuffle_perm (C' * (r * r)) r).
  assert (G : forall xt : tensor A, tshape xt = [N; H; W; C' * (r * r)] ->
     tshape (if is_sorted perm then xt else gather 3 perm xt) = [N; H; W; C' * (r * r)] /\
     forall n y x m, m < C' * (r * r) ->
     tget (if is_sorted perm then xt else gather 3 perm xt) [n; y; x; m] = tget xt [n; y; x; (m mod C') * (r * r) + m / C']).
  { intros xt Hxt. unfold perm. destruct (is_sorted _) eqn:Es.
    - split; [exact Hxt|]. intros n y x m Hm. pose proof (shuffle_sorted C' r Es m Hm) as E. rewrite shuffle_perm_nth in E by exact Hm. now rewrite E.
    - split.
      + cbn [gather tshape]. rewrite Hxt, shuffle_perm_length by exact Hr. reflexivity.
      + intros n y x m Hm. cbn [gather tget nth upd]. rewrite shuffle_perm_nth by exact Hm. reflexivity. }
  set (g := fun xt : tensor A => if is_sorted perm then xt else gather 3 perm xt).
  assert (Hxt : tshape (transpose [0; 2; 3; 1] t) = [N; H; W; C' * (r * r)]) by (cbn [transpose tshape]; now rewrite Ht).
  destruct (G _ Hxt) as [Gs Gg]. fold (g (transpose [0; 2; 3; 1] t)) in Gs, Gg.
  assert (Hc : C' * (r * r) / (r * r) = C') by (apply Nat.div_mul; nia).
  assert (Sh : tshape (wrap_nhwc (fun xt => depth_to_space r (if is_sorted perm then xt else gather 3 perm xt)) t) = [N; C'; H * r; W * r]).
  { unfold wrap_nhwc. cbn [transpose tshape depth_to_space]. fold (g (transpose [0; 2; 3; 1] t)). rewrite Gs. cbn. now rewrite Hc. }
  split.
  - rewrite Sh. cbn [pixel_shuffle tshape]. rewrite Ht. cbn [nth]. now rewrite Hc.
  - intros idx V. rewrite Sh in V. destruct (valid4 _ _ _ _ _ V) as (n & c & y & x & -> & Hn & Hcc & Hy & Hx).
    unfold wrap_nhwc. cbn [transpose tget depth_to_space]. fold (g (transpose [0; 2; 3; 1] t)). rewrite Gs.
    cbn [nth sel map inv_perm length seq find_pos Nat.eqb]. rewrite Hc.
    pose proof (Nat.mod_upper_bound y r ltac:(lia)) as B1. pose proof (Nat.mod_upper_bound x r ltac:(lia)) as B2.
    assert (B3 : (y mod r) * r + x mod r < r * r) by nia.
    rewrite Gg by nia. cbn [transpose tget pixel_shuffle nth sel map inv_perm length seq find_pos Nat.eqb].
    rewrite (Nat.add_comm (_ * C') c), Nat.mod_add, Nat.div_add, (Nat.mod_small c), (Nat.div_small c) by lia.
    f_equal. f_equal. f_equal. lia.
Qed.

Lemma unshuffle_perm_nth c r m : m < c * (r * r) ->
  nth m (unshuffle_perm c r) 0 = (m mod (r * r)) * c + m / (r * r).
Proof.
  intro H. assert (0 < r /\ 0 < c) as [Hr Hc] by (split; nia).
  unfold unshuffle_perm.
  rewrite np_flatten_nth by (cbn; nia).
  cbn [transpose reshape arange tshape tget sel map nth unravel prod ravel inv_perm seq length find_pos Nat.eqb].
  rewrite !Nat.mul_1_r, !Nat.div_1_r.
  set (e := m mod (r * r)). rewrite (Nat.div_mod e r) at 3 by lia.
  set (f := m / (r * r)). clearbody e f. nia.
Qed.
Lemma unshuffle_perm_length c r : length (unshuffle_perm c r) = c * (r * r).
Proof. unfold unshuffle_perm. rewrite np_flatten_length. cbn. lia. Qed.
Lemma unshuffle_sorted c r : is_sorted (unshuffle_perm c r) = true ->
  forall m, m < c * (r * r) -> nth m (unshuffle_perm c r) 0 = m.
Proof.
  intros Hs m Hm. assert (0 < r /\ 0 < c) as [Hr Hc] by (split; nia).
  pose proof (unshuffle_perm_length c r) as L.
  apply sorted_identity; auto; rewrite ?L; auto.
  - apply NoDup_of_inj. rewrite L. intros i j Hi Hj E. rewrite !unshuffle_perm_nth in E by assumption.
    assert (i / (r * r) < c) by (apply Nat.div_lt_upper_bound; nia). assert (j / (r * r) < c) by (apply Nat.div_lt_upper_bound; nia).
    apply divmod_inj in E; auto. destruct E as [E1 E2]. rewrite (Nat.div_mod i (r * r)), (Nat.div_mod j (r * r)) by nia. congruence.
  - intros k Hk. rewrite unshuffle_perm_nth by exact Hk.
    assert (k / (r * r) < c) by (apply Nat.div_lt_upper_bound; nia). pose proof (Nat.mod_upper_bound k (r * r)). nia.
Qed.

Lemma aten_pixel_unshuffle_correct {A} r (t : tensor A) N C H W : 0 < r -> tshape t = [N; C; H; W] ->
  teq (aten_pixel_unshuffle r t) (pixel_unshuffle r t).
Proof.
  intros Hr Ht. unfold aten_pixel_unshuffle. rewrite Ht. cbn [nth].
  set (perm := unshuffle_perm C r).
  set (y0 := space_to_depth r (transpose [0; 2; 3; 1] t)).
  assert (Hy0 : tshape y0 = [N; H / r; W / r; C * (r * r)]) by (unfold y0; cbn [space_to_depth transpose tshape]; rewrite Ht; reflexivity).
  assert (G : tshape (if is_sorted perm then y0 else gather 3 perm y0) = [N; H / r; W / r; C * (r * r)] /\
     forall n y x m, m < C * (r * r) ->
     tget (if is_sorted perm then y0 else gather 3 perm y0) [n; y; x; m] = tget y0 [n; y; x; (m mod (r * r)) * C + m / (r * r)]).
  { unfold perm. destruct (is_sorted _) eqn:Es.
    - split; [exact Hy0|]. intros n y x m Hm. pose proof (unshuffle_sorted C r Es m Hm) as E. rewrite unshuffle_perm_nth in E by exact Hm. now rewrite E.
    - split.
      + cbn [gather tshape]. rewrite Hy0, unshuffle_perm_length. reflexivity.
      + intros n y x m Hm. cbn [gather tget nth upd]. rewrite unshuffle_perm_nth by exact Hm. reflexivity. }
  unfold wrap_nhwc. cbv zeta. fold y0. set (g := if is_sorted perm then y0 else gather 3 perm y0) in *. clearbody g. destruct G as [Gs Gg].
  split.
  - cbn [pixel_unshuffle transpose tshape]. rewrite Gs, Ht. reflexivity.
  - intros idx V. cbn [transpose tshape] in V. rewrite Gs in V. cbn [sel map nth] in V.
    destruct (valid4 _ _ _ _ _ V) as (n & k & y & x & -> & Hn & Hk & Hy & Hx).
    cbn [transpose tget nth sel map inv_perm length seq find_pos Nat.eqb].
    rewrite Gg by exact Hk. unfold y0. cbn [space_to_depth transpose tget tshape pixel_unshuffle]. rewrite Ht.
    cbn [nth sel map inv_perm length seq find_pos Nat.eqb].
    assert (Hc : k / (r * r) < C) by (apply Nat.div_lt_upper_bound; nia).
    rewrite Nat.div_add_l, (Nat.div_small (k / (r * r)) C), Nat.add_0_r by lia.
    rewrite (Nat.add_comm (_ * C)), Nat.mod_add, (Nat.mod_small (k / (r * r)) C) by lia.
    assert (Hm : (k mod (r * r)) mod r = k mod r).
    { rewrite (Nat.div_mod k (r * r)) at 2 by nia. replace (r * r * (k / (r * r)) + k mod (r * r)) with (k mod (r * r) + (r * (k / (r * r))) * r) by lia.
      now rewrite Nat.mod_add by lia. }
    rewrite Hm. reflexivity.
Qed.

(** * expand *)
Lemma ext_reshape_get {A} (t : tensor A) m idx : valid (tshape t) idx ->
  tget (reshape (repeat 1 m ++ tshape t) t) (repeat 0 m ++ idx) = tget t idx.
Proof. intro V. cbn [reshape tget]. rewrite ravel_ones by exact V. now rewrite unravel_ravel. Qed.
Lemma model_ext {A} n (t : tensor A) : length (tshape t) <= n ->
  (if length (tshape t) <? n then reshape (repeat 1 (n - length (tshape t)) ++ tshape t) t else t) = ext n t.
Proof.
  intro H. unfold ext. destruct (Nat.ltb_spec (length (tshape t)) n), (Nat.eqb_spec (length (tshape t)) n); try lia; auto.
Qed.
Lemma expand_tile_shape s : forall o, length s = length o -> (forall k, k < length s -> nth k s 0 = nth k o 0 \/ nth k s 0 = 1) ->
  zipmul s (expand_repeats s o) = o.
Proof.
  induction s as [|x s IH]; intros [|y o] L H; cbn [length] in L; try lia; auto.
  unfold expand_repeats. cbn [combine map fst snd zipmul]. f_equal.
  - destruct (H 0 ltac:(cbn; lia)) as [E|E]; cbn [nth] in E; destruct (Nat.eqb_spec x y); subst; lia.
  - apply IH; [lia|]. intros k Hk. apply (H (S k)). cbn. lia.
Qed.
Lemma expand_tile_idx s : forall o idx, length s = length o -> (forall k, k < length s -> nth k s 0 = nth k o 0 \/ nth k s 0 = 1) ->
  valid o idx -> modidx s idx = bidx s idx.
Proof.
  induction s as [|x s IH]; intros o idx L H V.
  - destruct o; [|discriminate]. inversion V. reflexivity.
  - destruct o as [|y o]; [discriminate|]. inversion V as [|i ? idx' ? Hi V']; subst. cbn [length] in L.
    pose proof (valid_length _ _ V') as Li. rewrite bidx_cons by lia. cbn [modidx]. f_equal.
    + destruct (Nat.eqb_spec x 1) as [->|]; [apply Nat.mod_1_r|].
      destruct (H 0 ltac:(cbn; lia)) as [E|E]; cbn [nth] in E; [|lia]. subst. now apply Nat.mod_small.
    + apply (IH o); [lia| |exact V']. intros k Hk. apply (H (S k)). cbn. lia.
Qed.
Lemma aten_expand_correct {A} oshape (t : tensor A) : expand_ok (tshape t) oshape -> teq (aten_expand oshape t) (expand oshape t).
Proof.
  unfold expand_ok. intro H. unfold aten_expand. destruct (list_eqb_spec oshape (tshape t)) as [E|E].
  - split; [auto|]. intros idx V. cbn [expand tget]. now rewrite bidx_self.
  - destruct (bshape_length _ _ _ H) as [L _]. rewrite model_ext by exact L.
    pose proof (ext_shape (length oshape) t L) as Es. set (m := length oshape - length (tshape t)) in *.
    assert (E' : bshape (repeat 1 m ++ tshape t) oshape = Some oshape).
    { unfold bshape in *. rewrite rev_app_distr, rev_repeat.
      destruct (bshape_rev (rev (tshape t)) (rev oshape)) as [r|] eqn:Er; [|discriminate]. cbn [option_map] in *. injection H as H. 
      assert (Lr : length r = length oshape) by (rewrite <- H, rev_length; auto).
      rewrite <- (app_nil_r (rev oshape)). change (@nil nat) with (repeat 1 0).
      rewrite (bshape_rev_ext _ _ _ m 0 Er) by (rewrite rev_length; lia). cbn. now rewrite H. }
    assert (Ll : length (repeat 1 m ++ tshape t) = length oshape) by (rewrite app_length, repeat_length; lia).
    destruct (bshape_eqlen _ _ _ Ll E') as [_ Hb].
    assert (Hd : forall k, k < length (repeat 1 m ++ tshape t) -> nth k (repeat 1 m ++ tshape t) 0 = nth k oshape 0 \/ nth k (repeat 1 m ++ tshape t) 0 = 1).
    { intros k Hk. specialize (Hb k Hk). unfold bdim in Hb.
      destruct (Nat.eqb_spec (nth k (repeat 1 m ++ tshape t) 0) (nth k oshape 0)); auto.
      destruct (Nat.eqb_spec (nth k (repeat 1 m ++ tshape t) 0) 1); auto.
      destruct (Nat.eqb_spec (nth k oshape 0) 1); [|discriminate]. injection Hb as Hb. auto. }
    split.
    + cbn [tile tshape expand]. rewrite Es. now apply expand_tile_shape.
    + intros idx V. cbn [tile tshape tget expand] in *. rewrite Es in V |- *. rewrite expand_tile_shape in V by auto.
      rewrite (expand_tile_idx _ oshape) by auto. pose proof (valid_length _ _ V) as Li.
      rewrite bidx_ones by lia. destruct (bidx_valid _ _ _ _ H V) as [V1 _]. unfold m. now rewrite ext_get.
Qed.

(** * repeat *)
Lemma modidx_valid s idx : length idx = length s -> (forall k, k < length s -> 0 < nth k s 0) -> valid s (modidx s idx).
Proof.
  revert idx. induction s as [|d s IH]; intros [|i idx] L P; cbn [length] in L; try lia; cbn [modidx]; constructor.
  - apply Nat.mod_upper_bound. specialize (P 0 ltac:(cbn; lia)). cbn in P. lia.
  - apply IH; [lia|]. intros k Hk. apply (P (S k)). cbn. lia.
Qed.
Lemma modidx_app s1 : forall s2 i1 i2, length s1 = length i1 -> modidx (s1 ++ s2) (i1 ++ i2) = modidx s1 i1 ++ modidx s2 i2.
Proof. induction s1; intros s2 [|i i1] i2 L; cbn in *; try lia; auto. f_equal. apply IHs1. lia. Qed.
Lemma modidx_ones i : modidx (repeat 1 (length i)) i = repeat 0 (length i).
Proof. induction i; cbn [length repeat modidx]; auto. now rewrite IHi. Qed.
Lemma zipmul_pos s : forall r idx, length s = length r -> valid (zipmul s r) idx -> forall k, k < length s -> 0 < nth k s 0.
Proof.
  induction s as [|d s IH]; intros [|x r] idx L V k Hk; cbn [length] in *; try lia.
  cbn [zipmul] in V. inversion V as [|i ? idx' ? Hi V']; subst. destruct k; cbn [nth]; [nia|]. apply (IH r idx'); auto; lia.
Qed.
Lemma aten_repeat_correct {A} reps (t : tensor A) : length (tshape t) <= length reps -> teq (aten_repeat reps t) (repeat_t reps t).
Proof.
  intro L. unfold aten_repeat. rewrite model_ext by exact L. unfold repeat_t. set (m := length reps - length (tshape t)).
  pose proof (ext_shape (length reps) t L) as Es. fold m in Es.
  assert (Ll : length (repeat 1 m ++ tshape t) = length reps) by (rewrite app_length, repeat_length; lia).
  split; cbn [tile tshape tget]; rewrite Es; [reflexivity|]. intros idx V.
  pose proof (valid_length _ _ V) as Li. rewrite zipmul_length in Li by exact Ll.
  pose proof (zipmul_pos _ _ _ Ll V) as P. rewrite app_length, repeat_length in Li.
  rewrite <- (firstn_skipn m idx) at 1. rewrite modidx_app by (rewrite repeat_length, firstn_length; lia).
  replace (repeat 1 m) with (repeat 1 (length (firstn m idx))) by (f_equal; rewrite firstn_length; lia).
  rewrite modidx_ones. replace (length (firstn m idx)) with m by (rewrite firstn_length; lia). unfold m at 1. apply ext_get; [exact L|].
  apply modidx_valid; [rewrite skipn_length; lia|]. intros k Hk. specialize (P (m + k)).
  rewrite app_length, repeat_length, app_nth2, repeat_length in P by (rewrite repeat_length; lia).
  replace (m + k - m) with k in P by lia. apply P. lia.
Qed.

(** * repeat_interleave *)
Lemma interleave_by reps : forall a n, length reps = n ->
  let l := concat (map (fun ir : nat * nat => repeat (fst ir) (snd ir)) (combine (seq a n) reps)) in
  length l = list_sum reps /\ forall i, i < list_sum reps -> nth i l 0 = a + owner reps i.
Proof.
  induction reps as [|r reps IH]; intros a n L; subst n; cbn [length seq combine map concat owner fst snd]; cbv zeta.
  - cbn. split; [auto|]. intros i Hi. lia.
  - destruct (IH (S a) (length reps) eq_refl) as [I1 I2]. change (list_sum (r :: reps)) with (r + list_sum reps). split.
    + rewrite app_length, repeat_length, I1. reflexivity.
    + intros i Hi. destruct (Nat.ltb_spec i r).
      * rewrite app_nth1 by (now rewrite repeat_length). rewrite nth_indep with (d' := a) by (now rewrite repeat_length). rewrite nth_repeat. lia.
      * rewrite app_nth2 by (now rewrite repeat_length). rewrite repeat_length, I2 by lia. lia.
Qed.
Lemma interleave_indices_spec n reps l : reps_list n reps l ->
  length l = n /\ interleave_indices n reps = Some (concat (map (fun ir : nat * nat => repeat (fst ir) (snd ir)) (combine (seq 0 n) l))).
Proof.
  unfold reps_list, interleave_indices. destruct reps as [r|v].
  - intros ->. rewrite repeat_length. auto.
  - intros [[Hl ->]|(r & -> & ->)].
    + rewrite Hl, Nat.eqb_refl. auto.
    + rewrite repeat_length. split; auto. destruct (Nat.eqb_spec (length [r]) n) as [E|E]; [|reflexivity].
      cbn in E. subst n. reflexivity.
Qed.
Lemma gather_interleave {A} ax n reps l ix (t : tensor A) : reps_list n reps l -> interleave_indices n reps = Some ix -> ax < length (tshape t) ->
  teq (gather ax ix t) (repeat_interleave ax l t).
Proof.
  intros Hr Hix Hax. destruct (interleave_indices_spec _ _ _ Hr) as [Ll E]. rewrite Hix in E. injection E as ->.
  destruct (interleave_by l 0 n Ll) as [I1 I2]. cbv zeta in I1, I2.
  split; [cbn [gather repeat_interleave tshape]; now rewrite I1|]. intros idx V.
  cbn [gather repeat_interleave tshape tget] in *. rewrite I1 in V. rewrite I2; [reflexivity|].
  pose proof (valid_nth _ _ ax V) as H. rewrite upd_length, upd_nth_eq in H by exact Hax. auto.
Qed.
Lemma aten_repeat_interleave_dim {A} reps l dim (t : tensor A) : axis_ok (length (tshape t)) dim ->
  reps_list (nth (axis_of (length (tshape t)) dim) (tshape t) 0) reps l ->
  exists y, aten_repeat_interleave reps (Some dim) t = Some y /\ teq y (repeat_interleave (axis_of (length (tshape t)) dim) l t).
Proof.
  intros Hax Hr. unfold aten_repeat_interleave.
  change (Z.to_nat (if (dim <? 0)%Z then dim + Z.of_nat (length (tshape t)) else dim)%Z) with (axis_of (length (tshape t)) dim).
  destruct (interleave_indices_spec _ _ _ Hr) as [Ll E]. rewrite E. cbn [obind]. eexists. split; [reflexivity|].
  eapply gather_interleave; eauto. now apply axis_of_lt.
Qed.
Lemma repeat_interleave_congr {A} ax l (t u : tensor A) : ax < length (tshape t) -> length l = nth ax (tshape t) 0 ->
  teq t u -> teq (repeat_interleave ax l t) (repeat_interleave ax l u).
Proof.
  intros Hax Hl [Hs Hg]. split; [cbn; now rewrite Hs|]. intros idx V. cbn [repeat_interleave tget tshape] in *. apply Hg.
  eapply valid_upd; eauto. rewrite <- Hl.
  pose proof (valid_nth _ _ ax V) as H. rewrite upd_length, upd_nth_eq in H by exact Hax. specialize (H Hax).
  clear -H. revert H. generalize (nth ax idx 0) as i. induction l as [|r l IH]; intros i H; cbn [owner length]; [cbn in H; lia|].
  change (list_sum (r :: l)) with (r + list_sum l) in H.
  destruct (Nat.ltb_spec i r); [lia|]. assert (owner l (i - r) < length l) by (apply IH; lia). lia.
Qed.
Lemma aten_repeat_interleave_flat {A} reps l (t : tensor A) : tshape t <> [] ->
  reps_list (prod (tshape t)) reps l ->
  exists y, aten_repeat_interleave reps None t = Some y /\ teq y (repeat_interleave 0 l (flatten t)).
Proof.
  intros Hn Hr. unfold aten_repeat_interleave.
  destruct (interleave_indices_spec _ _ _ Hr) as [Ll E]. rewrite E. cbn [obind]. eexists. split; [reflexivity|].
  set (t' := if 1 <? length (tshape t) then reshape [prod (tshape t)] t else t).
  assert (Ht : teq t' (flatten t)).
  { unfold t'. destruct (Nat.ltb_spec 1 (length (tshape t))) as [H|H].
    - split; [reflexivity|]. intros idx V. cbn [reshape flatten tget tshape] in *. destruct (valid1 _ _ V) as (i & -> & Hi).
      cbn [ravel prod nth]. f_equal. f_equal. lia.
    - assert (Hl : length (tshape t) = 1) by (destruct (tshape t); [congruence|cbn in *; lia]).
      destruct (list1 _ Hl) as [n0 Hn0]. split.
      + cbn [flatten tshape]. rewrite Hn0. cbn. f_equal. lia.
      + rewrite Hn0. intros idx V. destruct (valid1 _ _ V) as (i & -> & Hi). cbn [flatten tget nth]. rewrite Hn0. cbn [unravel prod].
        now rewrite Nat.div_1_r. }
  assert (Hl : 0 < length (tshape t')) by (rewrite (proj1 Ht); cbn; lia).
  eapply teq_trans; [eapply gather_interleave; eauto|]. apply repeat_interleave_congr; auto.
  rewrite (proj1 Ht). cbn. exact Ll.
Qed.

(** * split and chunk *)
Lemma split_sizes_uniform {A} ax z (t : tensor A) n : forall a,
  split_sizes ax (a * z) (repeat z n) t = map (fun g => chunk ax (g * z) z t) (seq a n).
Proof.
  induction n as [|n IH]; intro a; cbn [repeat split_sizes seq map]; auto. f_equal.
  replace (a * z + z) with (S a * z) by lia. apply IH.
Qed.
Lemma piece_sizes_uniform z n : 0 < z -> piece_sizes (n * z) z = repeat z n.
Proof.
  intro Hz. unfold piece_sizes. assert (cdiv (n * z) z = n) as ->.
  { unfold cdiv. replace (n * z + z - 1) with (n * z + (z - 1)) by lia. rewrite Nat.div_add_l, (Nat.div_small (z - 1)) by lia. lia. }
  assert (H : forall m a, a + m = n -> map (fun i => Nat.min z (n * z - i * z)) (seq a m) = repeat z m).
  { induction m as [|m IH]; intros a E; cbn [seq map repeat]; auto. f_equal; [nia|]. apply IH. lia. }
  apply H. reflexivity.
Qed.
Lemma aten_chunk_correct {A} n dim (t : tensor A) : axis_ok (length (tshape t)) dim -> 0 < n ->
  0 < axis_size (axis_of (length (tshape t)) dim) t ->
  let ax := axis_of (length (tshape t)) dim in
  exists ys, aten_chunk (map (axis_size ax) (torch_chunk ax n t)) n dim t = Some ys /\ Forall2 teq ys (torch_chunk ax n t).
Proof.
  intros Hax Hn Hd. cbv zeta. unfold aten_chunk.
  change (Z.to_nat (if (dim <? 0)%Z then dim + Z.of_nat (length (tshape t)) else dim)%Z) with (axis_of (length (tshape t)) dim).
  pose proof (axis_of_lt _ _ Hax) as Hlt. set (ax := axis_of (length (tshape t)) dim) in *. clearbody ax.
  unfold torch_chunk, torch_split. unfold axis_size in Hd. fold (axis_size ax t) in *.
  set (d := axis_size ax t) in *. set (c := if d <? n then d else n).
  assert (Hc : 0 < c /\ cdiv d n = cdiv d c).
  { unfold c. destruct (Nat.ltb_spec d n); [|auto]. split; [lia|].
    transitivity 1; [|symmetry]; unfold cdiv.
    - replace (d + n - 1) with (1 * n + (d - 1)) by lia. rewrite Nat.div_add_l, Nat.div_small by lia. lia.
    - replace (d + d - 1) with (1 * d + (d - 1)) by lia. rewrite Nat.div_add_l, Nat.div_small by lia. lia. }
  destruct Hc as [Hc Ec]. replace (c =? 0) with false by (symmetry; apply Nat.eqb_neq; lia).
  set (z := cdiv d n) in *. destruct (Nat.eqb_spec (d mod c) 0) as [Hm|Hm]; cbn [negb]; eexists; (split; [reflexivity|]).
  - assert (Ed : d = c * (d / c)) by (apply Nat.div_exact; lia).
    assert (Hz : z = d / c).
    { rewrite Ec. unfold cdiv. rewrite Ed at 1. replace (c * (d / c) + c - 1) with ((d / c) * c + (c - 1)) by nia. rewrite Nat.div_add_l, (Nat.div_small (c - 1)) by lia. lia. }
    assert (0 < d / c) by nia.
    replace (piece_sizes d z) with (repeat z c) by (rewrite <- piece_sizes_uniform by lia; f_equal; rewrite Hz; lia).
    change 0 with (0 * z) at 2. rewrite split_sizes_uniform.
    assert (H0 : forall l, Forall2 teq (map (fun g => split_part c ax g t) l) (map (fun g => chunk ax (g * z) z t) l)); [|apply H0].
    induction l as [|g l IH]; cbn [map]; constructor; auto. unfold split_part, chunk. fold d. rewrite <- Hz. apply teq_refl.
  - assert (Hs : forall l a, map (axis_size ax) (split_sizes ax a l t) = l).
    { induction l as [|v l IH]; intro a; cbn [split_sizes map]; auto. f_equal; auto. unfold axis_size, chunk. cbn [tshape]. now apply upd_nth_eq. }
    rewrite Hs. induction (split_sizes _ _ _ _); constructor; auto using teq_refl.
Qed.

(** * stack *)
Lemma cat_at_stack {A} (d : A) ax s ts : forall idx i, Forall (fun t => tshape t = s) ts -> ax <= length s -> i < length ts ->
  cat_at d ax (map (fun t => reshape (insert_at ax 1 (tshape t)) t) ts) idx i =
  tget (reshape (insert_at ax 1 s) (nth i ts (mkT [] (fun _ => d)))) (upd idx ax 0).
Proof.
  induction ts as [|t ts IH]; intros idx i F Hax Hi; cbn [length] in Hi; [lia|]. inversion F; subst.
  cbn [map cat_at]. unfold axis_size. cbn [reshape tshape]. rewrite insert_at_eq by auto.
  destruct i as [|i].
  - reflexivity.
  - change (S i <? 1) with false. replace (S i - 1) with i by lia. cbn [nth]. apply IH; auto. lia.
Qed.
Lemma upd_insert ax v w l : ax <= length l -> upd (insert_at ax v l) ax w = insert_at ax w l.
Proof.
  revert l. induction ax as [|ax IH]; intros [|x l] H; cbn [length] in H; try lia; auto.
  unfold insert_at in *. cbn [firstn skipn app upd]. f_equal. apply IH. lia.
Qed.
Lemma sizes_sum_stack {A} ax s (ts : list (tensor A)) : Forall (fun t => tshape t = s) ts -> ax <= length s ->
  sizes_sum ax (map (fun t => reshape (insert_at ax 1 (tshape t)) t) ts) = length ts.
Proof.
  intros F Hax. unfold sizes_sum. induction F as [|t ts Ht F IH]; auto.
  cbn [map length]. unfold axis_size at 1. cbn [reshape tshape]. rewrite Ht, insert_at_eq by exact Hax.
  change (1 + list_sum (map (axis_size ax) (map (fun t => reshape (insert_at ax 1 (tshape t)) t) ts)) = S (length ts)). now rewrite IH.
Qed.
Lemma aten_stack_correct {A} (d : A) as_unpack dim s ts : ts <> [] -> Forall (fun t => tshape t = s) ts -> axis_ok (S (length s)) dim ->
  teq (aten_stack d as_unpack dim ts) (stack d (axis_of (S (length s)) dim) ts).
Proof.
  intros Hn F Hax. pose proof (axis_of_lt _ _ Hax) as Hlt. unfold aten_stack.
  destruct ts as [|t0 ts0] eqn:Et; [congruence|].
  assert (E0 : tshape t0 = s) by (inversion F; auto). rewrite E0.
  replace (Z.to_nat (if (dim <? 0)%Z then dim + Z.of_nat (length s) + 1 else dim)%Z) with (axis_of (S (length s)) dim)
    by (unfold axis_of; destruct (dim <? 0)%Z; f_equal; lia).
  set (ax := axis_of (S (length s)) dim) in *. clearbody ax. rewrite <- Et in *.
  destruct as_unpack; [apply teq_refl|].
  assert (Sh : tshape (concatenation d ax (map (fun t => reshape (insert_at ax 1 (tshape t)) t) ts)) = insert_at ax (length ts) s).
  { unfold concatenation. cbn [tshape]. rewrite (sizes_sum_stack ax s) by (auto; lia). subst ts. cbn [map reshape tshape]. rewrite E0.
    apply upd_insert. lia. }
  split.
  - rewrite Sh. unfold stack. subst ts. cbn [tshape]. now rewrite E0.
  - rewrite Sh. intros idx V. pose proof (valid_length _ _ V) as L. rewrite insert_at_length in L.
    assert (Hi : nth ax idx 0 < length ts).
    { pose proof (valid_nth _ _ ax V) as H. rewrite insert_at_length, insert_at_eq in H by lia. apply H. lia. }
    cbn [concatenation tget stack]. rewrite (cat_at_stack d ax s) by (auto; lia).
    set (t := nth (nth ax idx 0) ts (mkT [] (fun _ => d))).
    assert (Ht : tshape t = s) by (rewrite Forall_forall in F; apply F, nth_In; exact Hi).
    assert (Vr : valid s (remove_at ax idx)).
    { apply valid_remove with (ax := ax) in V; [|rewrite insert_at_length; lia]. now rewrite remove_insert in V by lia. }
    replace (upd idx ax 0) with (insert_at ax 0 (remove_at ax idx)).
    + rewrite <- Ht. apply reshape_up. now rewrite Ht.
    + rewrite <- (upd_insert ax (nth ax idx 0)). 2:{ rewrite (valid_length _ _ Vr). lia. }
      now rewrite insert_remove by lia.
Qed.

(** * glu *)
Lemma aten_glu_correct sg dim t : axis_ok (length (tshape t)) dim -> nth (axis_of (length (tshape t)) dim) (tshape t) 0 mod 2 = 0 ->
  exists y, aten_glu sg dim t = Some y /\ teq y (glu sg (axis_of (length (tshape t)) dim) t).
Proof.
  intros Hax Hm. pose proof (axis_of_lt _ _ Hax) as Hlt. unfold aten_glu.
  change (Z.to_nat (if (dim <? 0)%Z then dim + Z.of_nat (length (tshape t)) else dim)%Z) with (axis_of (length (tshape t)) dim).
  set (ax := axis_of (length (tshape t)) dim) in *. clearbody ax. rewrite Hm. cbn [Nat.eqb negb].
  unfold binop. cbn [tmap split_part tshape]. rewrite bshape_self. eexists. split; [reflexivity|].
  split; [reflexivity|]. intros idx V. cbn [glu tget tshape tmap split_part] in *. rewrite !bidx_self by exact V.
  rewrite Nat.mul_0_l, Nat.add_0_l, upd_same, Nat.mul_1_l; [reflexivity|].
  pose proof (valid_length _ _ V) as L. rewrite upd_length in L. lia.
Qed.
Lemma aten_glu_odd sg dim t : nth (axis_of (length (tshape t)) dim) (tshape t) 0 mod 2 <> 0 -> aten_glu sg dim t = None.
Proof.
  intro H. unfold aten_glu.
  change (Z.to_nat (if (dim <? 0)%Z then dim + Z.of_nat (length (tshape t)) else dim)%Z) with (axis_of (length (tshape t)) dim).
  apply Nat.eqb_neq in H. now rewrite H.
Qed.

(** * im2col *)
Lemma tap2_0 h w sh sw lh lw oy ox ky kx : oy * sh + ky * lh < h -> ox * sw + kx * lw < w ->
  tap [h; w] [sh; sw] [lh; lw] [0; 0] [oy; ox] [ky; kx] = Some [oy * sh + ky * lh; ox * sw + kx * lw].
Proof.
  intros H1 H2. cbn [tap]. rewrite !Nat.sub_0_r. cbn [Nat.leb andb].
  apply Nat.ltb_lt in H1, H2. now rewrite H1, H2.
Qed.
Lemma unfold_out_bound d k s l p o i : 0 < k -> 0 < s -> l * (k - 1) + 1 <= d + 2 * p -> o < unfold_out d k s l p -> i < k ->
  o * s + i * l < d + 2 * p.
Proof.
  unfold unfold_out. intros Hk Hs Hl Ho Hi.
  assert (o <= (d + 2 * p - (l * (k - 1) + 1)) / s) by lia.
  assert (s * ((d + 2 * p - (l * (k - 1) + 1)) / s) <= d + 2 * p - (l * (k - 1) + 1)) by (apply Nat.mul_div_le; lia).
  assert (i * l <= l * (k - 1)) by nia. nia.
Qed.
Lemma fake_get kh kw lh lw ph pw sh sw N C h w n r l :
  unfold_axis h kh sh lh ph -> unfold_axis w kw sw lw pw ->
  let ow := unfold_out w kw sw lw pw in let oh := unfold_out h kh sh lh ph in
  let ds := [N; C; h + 2 * ph; w + 2 * pw] in
  let fake := unfold2d 0 kh kw lh lw 0 0 sh sw (fake_input ds) in
  tshape fake = [N; C * (kh * kw); oh * ow] /\
  (n < N -> r < C * (kh * kw) -> l < oh * ow ->
   unravel ds (tget fake [n; r; l]) =
   [n; r / (kh * kw); (l / ow) * sh + ((r mod (kh * kw)) / kw) * lh; (l mod ow) * sw + (r mod kw) * lw]).
Proof.
  intros (Hkh & Hsh & Hlh) (Hkw & Hsw & Hlw). cbv zeta.
  assert (E1 : unfold_out (h + 2 * ph) kh sh lh 0 = unfold_out h kh sh lh ph) by (unfold unfold_out; f_equal; f_equal; lia).
  assert (E2 : unfold_out (w + 2 * pw) kw sw lw 0 = unfold_out w kw sw lw pw) by (unfold unfold_out; f_equal; f_equal; lia).
  unfold unfold2d, fake_input. cbn [tshape nth tget]. rewrite E1, E2. split; [reflexivity|].
  set (oh := unfold_out h kh sh lh ph) in *. set (ow := unfold_out w kw sw lw pw) in *. intros Hn Hr Hl.
  assert (Ho : 0 < ow) by nia.
  assert (B1 : l / ow < oh) by (apply Nat.div_lt_upper_bound; nia).
  assert (B2 : l mod ow < ow) by (apply Nat.mod_upper_bound; lia).
  assert (B3 : (r mod (kh * kw)) / kw < kh) by (apply Nat.div_lt_upper_bound; [lia|]; rewrite (Nat.mul_comm kw kh); apply Nat.mod_upper_bound; nia).
  assert (B4 : r mod kw < kw) by (apply Nat.mod_upper_bound; lia).
  assert (B5 : r / (kh * kw) < C) by (apply Nat.div_lt_upper_bound; nia).
  pose proof (unfold_out_bound h kh sh lh ph _ _ Hkh Hsh Hlh B1 B3) as B6.
  pose proof (unfold_out_bound w kw sw lw pw _ _ Hkw Hsw Hlw B2 B4) as B7.
  rewrite tap2_0 by assumption. rewrite unravel_ravel; [reflexivity|]. repeat constructor; assumption.
Qed.

Lemma im2col_correct kh kw lh lw p sh sw x N C h w : tshape x = [N; C; h; w] ->
  unfold_axis h kh sh lh p -> unfold_axis w kw sw lw p ->
  exists y, aten_im2col kh kw lh lw p p sh sw x = Some y /\ teq y (unfold2d 0%R kh kw lh lw p p sh sw x).
Proof.
  intros Hx Fh Fw. unfold aten_im2col. rewrite Hx. cbn [length Nat.eqb negb nth rev app].
  eexists. split; [reflexivity|].
  destruct (fake_get kh kw lh lw p p sh sw N C h w 0 0 0 Fh Fw) as [Hs _]. cbv zeta in Hs.
  split.
  - cbn [gather_full tshape]. rewrite Hs. cbn [unfold2d tshape]. rewrite Hx. reflexivity.
  - intros idx V. cbn [gather_full tshape tget] in *. rewrite Hs in V. destruct (valid3 _ _ _ _ V) as (n & r & l & -> & Hn & Hr & Hl).
    destruct (fake_get kh kw lh lw p p sh sw N C h w n r l Fh Fw) as [_ Hg]. cbv zeta in Hg. rewrite Hg by assumption.
    cbn [unfold2d tget pad_op]. rewrite Hx. cbn [nth unpad tap].
    assert (0 < kh * kw) by (destruct Fh as (? & _), Fw as (? & _); nia).
    assert (B5 : r / (kh * kw) < C) by (apply Nat.div_lt_upper_bound; nia).
    set (ow := unfold_out w kw sw lw p).
    set (Y := l / ow * sh + (r mod (kh * kw)) / kw * lh). set (X := (l mod ow) * sw + r mod kw * lw). clearbody Y X.
    rewrite !Nat.sub_0_r. cbn [Nat.leb andb]. apply Nat.ltb_lt in Hn, B5. rewrite Hn, B5.
    destruct (Nat.leb_spec p Y), (Nat.leb_spec p X), (Nat.ltb_spec (Y - p) h), (Nat.ltb_spec (X - p) w); reflexivity.
Qed.
Lemma im2col_refuted : exists x y, tshape x = [1; 1; 2; 2] /\ unfold_axis 2 1 1 1 0 /\ unfold_axis 2 1 1 1 1 /\
  aten_im2col 1 1 1 1 0 1 1 1 x = Some y /\
  tshape y = tshape (unfold2d 0%R 1 1 1 1 0 1 1 1 x) /\ tget y [0; 0; 4] = 1%R /\ tget (unfold2d 0%R 1 1 1 1 0 1 1 1 x) [0; 0; 4] = 0%R.
Proof.
  exists (mkT [1; 1; 2; 2] (fun _ => 1%R)). eexists. split; [reflexivity|]. split; [unfold unfold_axis; lia|]. split; [unfold unfold_axis; lia|].
  split; [reflexivity|]. split; [reflexivity|]. split; reflexivity.
Qed.

(** * col2im *)
Lemma lsum_seq_mul b f : forall a, lsum (seq 0 (a * b)) f = lsum (seq 0 a) (fun i => lsum (seq 0 b) (fun j => f (i * b + j))).
Proof.
  induction a as [|a IH]; [reflexivity|]. replace (S a * b) with (a * b + b) by lia. rewrite seq_app, lsum_app, IH.
  rewrite seq_S, lsum_app. f_equal. rewrite lsum_cons, lsum_nil, Rplus_0_r. cbn [Nat.add].
  replace (seq (a * b) b) with (map (fun j => a * b + j) (seq 0 b)).
  - now rewrite lsum_map.
  - generalize (a * b) as c. clear. intro c.
    assert (H : forall k, map (fun j => c + j) (seq k b) = seq (c + k) b).
    { induction b as [|b IH]; intro k; cbn [seq map]; auto. rewrite IH. do 2 f_equal. lia. }
    rewrite H, Nat.add_0_r. reflexivity.
Qed.
Lemma lsum_indices_cons d s f : lsum (indices (d :: s)) f = lsum (seq 0 d) (fun i => lsum (indices s) (fun r => f (i :: r))).
Proof.
  cbn [indices]. induction (seq 0 d) as [|i l IH]; cbn [flat_map]; auto. rewrite lsum_app, lsum_map, IH, lsum_cons. reflexivity.
Qed.
Lemma lsum_indices_nil f : lsum (indices []) f = f [].
Proof. cbn [indices]. rewrite lsum_cons, lsum_nil. apply Rplus_0_r. Qed.
Lemma lsum_delta n f : forall m a, a <= n < a + m -> lsum (seq a m) (fun i => if i =? n then f i else 0%R) = f n.
Proof.
  induction m as [|m IH]; intros a H; [lia|]. cbn [seq]. rewrite lsum_cons. destruct (Nat.eqb_spec a n) as [->|E].
  - rewrite lsum_zero; [apply Rplus_0_r|]. intros i Hi. apply in_seq in Hi. destruct (Nat.eqb_spec i n); [lia|reflexivity].
  - rewrite IH by lia. apply Rplus_0_l.
Qed.

Lemma lsum_scal_if {T} (l : list T) (c : bool) f : lsum l (fun a => if c then f a else 0%R) = if c then lsum l f else 0%R.
Proof. destruct c; [reflexivity|]. now apply lsum_zero. Qed.
Lemma list_eqb4 a b c d a' b' c' d' : list_eqb [a; b; c; d] [a'; b'; c'; d'] = (a =? a') && ((b =? b') && (list_eqb [c; d] [c'; d'])).
Proof.
  destruct (list_eqb_spec [a; b; c; d] [a'; b'; c'; d']) as [E|E], (list_eqb_spec [c; d] [c'; d']) as [F|F],
    (Nat.eqb_spec a a'), (Nat.eqb_spec b b'); cbn; auto; try congruence.
Qed.
Lemma mod_block b i j : j < b -> (i * b + j) / b = i /\ (i * b + j) mod b = j.
Proof.
  intro H. split.
  - rewrite Nat.div_add_l, Nat.div_small by lia. lia.
  - rewrite Nat.add_comm, Nat.mod_add, Nat.mod_small by lia. reflexivity.
Qed.

Lemma col2im_correct h w kh kw lh lw ph pw sh sw x N C : unfold_axis h kh sh lh ph -> unfold_axis w kw sw lw pw ->
  tshape x = [N; C * (kh * kw); unfold_out h kh sh lh ph * unfold_out w kw sw lw pw] ->
  exists y, aten_col2im h w kh kw lh lw ph pw sh sw x = Some y /\ teq y (fold2d h w kh kw lh lw ph pw sh sw x).
Proof.
  intros Fh Fw Hx. unfold aten_col2im. rewrite Hx. cbn [length Nat.eqb negb nth].
  assert (Hk : 0 < kh /\ 0 < kw) by (destruct Fh as (? & _), Fw as (? & _); auto). destruct Hk as [Hkh Hkw].
  rewrite Nat.div_mul by nia. eexists. split; [reflexivity|].
  split; [cbn [gather_full slice_op tshape fold2d]; rewrite Hx; cbn [nth]; now rewrite Nat.div_mul by nia|].
  intros idx V. cbn [gather_full slice_op tshape] in V. destruct (valid4 _ _ _ _ _ V) as (n & c & y & xx & -> & Hn & Hc & Hy & Hxx).
  cbn [gather_full slice_op tget tshape fake_input zip_plus Nat.add].
  rewrite unravel_ravel by (repeat constructor; lia).
  cbn [scatter_full tget fold2d]. rewrite Hx. set (oh := unfold_out h kh sh lh ph). set (ow := unfold_out w kw sw lw pw). cbn [nth skipn].
  rewrite lsum_indices_cons.
  transitivity (lsum (seq 0 N) (fun n' => if n' =? n then
     lsum (seq 0 C) (fun c' => if c' =? c then
       lsum (seq 0 kh) (fun ky => lsum (seq 0 kw) (fun kx => lsum (seq 0 oh) (fun oy => lsum (seq 0 ow) (fun ox =>
         if list_eqb [oy * sh + ky * lh; ox * sw + kx * lw] [ph + y; pw + xx]
         then tget x [n'; c' * (kh * kw) + ky * kw + kx; oy * ow + ox] else 0%R)))) else 0%R) else 0%R)).
  - apply lsum_ext. intros n' Hn'. apply in_seq in Hn'. rewrite lsum_indices_cons, lsum_seq_mul.
    rewrite <- lsum_scal_if. apply lsum_ext. intros c' Hc'. apply in_seq in Hc'.
    rewrite lsum_seq_mul.
    transitivity (lsum (seq 0 kh) (fun ky => lsum (seq 0 kw) (fun kx => lsum (seq 0 oh) (fun oy => lsum (seq 0 ow) (fun ox =>
       if (n' =? n) && ((c' =? c) && list_eqb [oy * sh + ky * lh; ox * sw + kx * lw] [ph + y; pw + xx])
       then tget x [n'; c' * (kh * kw) + ky * kw + kx; oy * ow + ox] else 0%R))))).
    + apply lsum_ext. intros ky Hky. apply in_seq in Hky. apply lsum_ext. intros kx Hkx. apply in_seq in Hkx.
      rewrite lsum_indices_cons, lsum_seq_mul. apply lsum_ext. intros oy Hoy. apply in_seq in Hoy. apply lsum_ext. intros ox Hox. apply in_seq in Hox.
      rewrite lsum_indices_nil.
      set (r := c' * (kh * kw) + (ky * kw + kx)).
      destruct (fake_get kh kw lh lw ph pw sh sw N C h w n' r (oy * ow + ox) Fh Fw) as [_ Hg]. cbv zeta in Hg.
      assert (Hb : ky * kw + kx < kh * kw) by nia.
      assert (Hr : r < C * (kh * kw)) by (unfold r; generalize dependent (kh * kw); intros; nia).
      fold oh ow in Hg. rewrite Hg; [| lia | exact Hr | nia ].
      unfold r. destruct (mod_block (kh * kw) c' (ky * kw + kx) Hb) as [D1 D2]. rewrite D1, D2.
      destruct (mod_block kw ky kx ltac:(lia)) as [D3 _]. rewrite D3.
      assert (D4 : (c' * (kh * kw) + (ky * kw + kx)) mod kw = kx).
      { replace (c' * (kh * kw) + (ky * kw + kx)) with ((c' * kh + ky) * kw + kx) by nia. apply mod_block. lia. }
      rewrite D4. destruct (mod_block ow oy ox ltac:(lia)) as [D5 D6]. rewrite D5, D6, list_eqb4.
      replace (c' * (kh * kw) + (ky * kw + kx)) with (c' * (kh * kw) + ky * kw + kx) by lia. reflexivity.
    + destruct (Nat.eqb_spec n' n); cbn [andb].
      2:{ apply lsum_zero. intros. apply lsum_zero. intros. apply lsum_zero. intros. apply lsum_zero. reflexivity. }
      destruct (Nat.eqb_spec c' c); cbn [andb]; [reflexivity|].
      apply lsum_zero. intros. apply lsum_zero. intros. apply lsum_zero. intros. apply lsum_zero. reflexivity.
  - rewrite (lsum_delta n (fun n' => lsum (seq 0 C) (fun c' => if c' =? c then
       lsum (seq 0 kh) (fun ky => lsum (seq 0 kw) (fun kx => lsum (seq 0 oh) (fun oy => lsum (seq 0 ow) (fun ox =>
         if list_eqb [oy * sh + ky * lh; ox * sw + kx * lw] [ph + y; pw + xx]
         then tget x [n'; c' * (kh * kw) + ky * kw + kx; oy * ow + ox] else 0%R)))) else 0%R))) by lia.
    rewrite (lsum_delta c (fun c' => 
       lsum (seq 0 kh) (fun ky => lsum (seq 0 kw) (fun kx => lsum (seq 0 oh) (fun oy => lsum (seq 0 ow) (fun ox =>
         if list_eqb [oy * sh + ky * lh; ox * sw + kx * lw] [ph + y; pw + xx]
         then tget x [n; c' * (kh * kw) + ky * kw + kx; oy * ow + ox] else 0%R)))))) by lia.
    rewrite (lsum_swap (indices [oh; ow])). rewrite lsum_indices_cons. apply lsum_ext. intros ky Hky.
    rewrite lsum_indices_cons. apply lsum_ext. intros kx Hkx. rewrite lsum_indices_nil.
    rewrite lsum_indices_cons. apply lsum_ext. intros oy Hoy. rewrite lsum_indices_cons. apply lsum_ext. intros ox Hox.
    rewrite lsum_indices_nil. cbn [tap nth].
    set (Y := oy * sh + ky * lh). set (X := ox * sw + kx * lw).
    destruct (list_eqb_spec [Y; X] [ph + y; pw + xx]) as [E|E].
    + injection E as E1 E2. 
      replace (ph <=? Y) with true by (symmetry; apply Nat.leb_le; lia). replace (Y - ph <? h) with true by (symmetry; apply Nat.ltb_lt; lia).
      replace (pw <=? X) with true by (symmetry; apply Nat.leb_le; lia). replace (X - pw <? w) with true by (symmetry; apply Nat.ltb_lt; lia).
      cbn [andb option_map]. destruct (list_eqb_spec [Y - ph; X - pw] [y; xx]) as [F|F]; [reflexivity|]. exfalso. apply F. f_equal; [lia|f_equal; lia].
    + destruct (Nat.leb_spec ph Y), (Nat.ltb_spec (Y - ph) h), (Nat.leb_spec pw X), (Nat.ltb_spec (X - pw) w); cbn [andb option_map]; auto.
      destruct (list_eqb_spec [Y - ph; X - pw] [y; xx]) as [F|F]; [|reflexivity]. exfalso. apply E. injection F as F1 F2. f_equal; [lia|f_equal; lia].
Qed.

Lemma roll_recorded_refuted : exists s n a sizes recorded, 0 < n /\ roll_parts s n = (a, sizes, recorded) /\ a <> 0 /\ sizes <> recorded.
Proof. exists 1%Z, 3, 1, [2; 1], [1; 2]. repeat split; cbn; try lia; discriminate. Qed.
