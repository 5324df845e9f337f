(** Proofs about moving reshapes across another node. *)
From Coq Require Import List Arith Lia Permutation Bool Sorted ZArith Reals.
From Verif Require Import Tensor ChainModel ChainProofs ReshapeProofs LowerProofs ConvSpec CatSpec LayoutSpec PassModel PassProofs PassAxesProofs FuseModel PassReshapeModel.
Import ListNotations.
Local Open Scope nat_scope.

Definition pos (s : list nat) : Prop := Forall (fun d => 0 < d) s.

(** ** Shapes around the marked axis *)
Record marked (P N p1 p2 n1 n2 : list nat) : Prop := {
  mk_P : P = p1 ++ 0 :: p2; mk_N : N = n1 ++ 0 :: n2;
  mk_1 : filter ne1 p1 = filter ne1 n1; mk_2 : filter ne1 p2 = filter ne1 n2;
  mk_p1 : pos p1; mk_p2 : pos p2; mk_n1 : pos n1; mk_n2 : pos n2 }.

Lemma filter_prod s : prod (filter ne1 s) = prod s.
Proof. induction s as [|d s IH]; [reflexivity|]. cbn [filter]. unfold ne1 at 1. destruct (Nat.eqb_spec d 1) as [->|n]; cbn [negb prod]; lia. Qed.
Lemma filter_prod_eq a b : filter ne1 a = filter ne1 b -> prod a = prod b.
Proof. intros E. rewrite <- (filter_prod a), E. apply filter_prod. Qed.
Lemma filter_pos a b : filter ne1 a = filter ne1 b -> pos b -> pos a.
Proof.
  intros E Hb. apply Forall_forall. intros d Hd. destruct (Nat.eq_dec d 1) as [->|n]; [lia|].
  assert (In d (filter ne1 a)) as H by (apply filter_In; split; [exact Hd|unfold ne1; destruct (Nat.eqb_spec d 1); auto; contradiction]).
  rewrite E in H. apply filter_In in H. unfold pos in Hb. rewrite Forall_forall in Hb. apply Hb, H.
Qed.

Lemma walk_split a b i j m : walk a b i j m -> forall x y, In (x, y) m ->
  exists a1 a2 b1 b2 v, a = a1 ++ v :: a2 /\ b = b1 ++ v :: b2 /\ x = i + length a1 /\ y = j + length b1 /\
    filter ne1 a1 = filter ne1 b1 /\ filter ne1 a2 = filter ne1 b2.
Proof.
  intros H; induction H as [|d a b i j m H IH|a b i j m H IH|a b i j m H IH]; intros x y Hin; [destruct Hin| | |].
  - destruct Hin as [E|Hin].
    + inversion E; subst. exists [], a, [], b, d. cbn. repeat split; auto. apply (walk_filter _ _ _ _ _ H).
    + destruct (IH _ _ Hin) as (a1 & a2 & b1 & b2 & v & -> & -> & -> & -> & E1 & E2).
      exists (d :: a1), a2, (d :: b1), b2, v. cbn [length app filter]. rewrite E1. repeat split; auto; lia.
  - destruct (IH _ _ Hin) as (a1 & a2 & b1 & b2 & v & -> & -> & -> & -> & E1 & E2).
    exists (1 :: a1), a2, b1, b2, v. cbn [length app filter]. repeat split; auto; lia.
  - destruct (IH _ _ Hin) as (a1 & a2 & b1 & b2 & v & -> & -> & -> & -> & E1 & E2).
    exists a1, a2, (1 :: b1), b2, v. cbn [length app filter]. repeat split; auto; lia.
Qed.

Lemma lookup_In m x y : lookup m x = Some y -> In (x, y) m.
Proof. induction m as [|[a b] m IH]; cbn; [discriminate|]. destruct (Nat.eqb_spec a x) as [->|n]; intros H; [inversion H; auto|right; auto]. Qed.
Lemma lookup_flipped m x y : lookup (flipped m) x = Some y -> In (y, x) m.
Proof. intros H. apply lookup_In in H. apply in_map_iff in H. destruct H as ([a b] & E & H). cbn in E. inversion E; subst. exact H. Qed.

Lemma upd_app a1 v a2 w : upd (a1 ++ v :: a2) (length a1) w = a1 ++ w :: a2.
Proof. induction a1 as [|x a1 IH]; cbn; [reflexivity|]. rewrite IH. reflexivity. Qed.
Lemma upd_app' a1 v a2 w n : n = length a1 -> upd (a1 ++ v :: a2) n w = a1 ++ w :: a2.
Proof. intros ->. apply upd_app. Qed.
Lemma nth_mid {D} (a1 : list D) v a2 d : nth (length a1) (a1 ++ v :: a2) d = v.
Proof. induction a1; cbn; auto. Qed.
Lemma split_at s d : d < length s -> s = firstn d s ++ nth d s 0 :: skipn (S d) s.
Proof.
  revert d; induction s as [|x s IH]; intros [|d] H; cbn in H; try lia; [reflexivity|].
  cbn [firstn skipn app nth]. rewrite <- IH by lia. reflexivity.
Qed.
Lemma upd_split s d w : d < length s -> upd s d w = firstn d s ++ w :: skipn (S d) s.
Proof. intros H. rewrite (split_at s d H) at 1. apply upd_app'. rewrite firstn_length. lia. Qed.
Lemma app_split_inj {D} (a a' : list D) v v' b b' : a ++ v :: b = a' ++ v' :: b' -> length a = length a' -> a = a' /\ v = v' /\ b = b'.
Proof.
  revert a'; induction a as [|x a IH]; intros [|x' a'] E L; cbn in *; try lia; [inversion E; auto|].
  inversion E; subst. destruct (IH a') as (-> & -> & ->); auto.
Qed.

Lemma pos_app a b : pos (a ++ b) <-> pos a /\ pos b.
Proof. apply Forall_app. Qed.
Lemma pos_cons v b : pos (v :: b) <-> 0 < v /\ pos b.
Proof. apply Forall_cons_iff. Qed.

(** every candidate of a node that works on axis [d] *)
Lemma offered_marked d s ins outs P N : pos s -> d < length s ->
  (forall b, In b ins -> exists v, 0 < v /\ b = upd s d v) -> (forall o, In o outs -> exists v, o = upd s d v) ->
  offered KOther (Some d) ins outs P N ->
  exists p1 p2, marked P N p1 p2 (firstn d s) (skipn (S d) s).
Proof.
  intros Hs Hd Hi Ho H.
  pose proof (split_at s d Hd) as Es. pose proof Hs as Hs'. rewrite Es in Hs'. apply pos_app in Hs'. destruct Hs' as [Q1 Q2].
  apply pos_cons in Q2. destruct Q2 as [Q0 Q2].
  destruct H as [(a & b & Hb & E)|(a & b & Ha & E)].
  - destruct (Hi _ Hb) as (v & Hv & ->). unfold cand_prev in E. destruct (is_simple_reshape a (upd s d v)) as [m|] eqn:Em; [|discriminate].
    cbn [obind] in E. destruct (lookup (flipped m) d) as [x|] eqn:El; [|discriminate]. cbn [obind] in E. inversion E; subst P N.
    apply lookup_flipped in El. apply is_simple_walk in Em. destruct (walk_split _ _ _ _ _ Em _ _ El) as (a1 & a2 & b1 & b2 & w & -> & E2 & E3 & E4 & E5 & E6).
    rewrite upd_split in E2 by exact Hd. cbn in E3, E4. subst x.
    destruct (app_split_inj _ _ _ _ _ _ E2) as (F1 & F2 & F3); [rewrite firstn_length; lia|]. subst b1 b2 w.
    exists a1, a2. rewrite upd_app. split; auto.
    + rewrite upd_upd. apply upd_split; auto.
    + apply (filter_pos _ _ E5 Q1).
    + apply (filter_pos _ _ E6 Q2).
  - destruct (Ho _ Ha) as (v & ->). unfold cand_next in E. destruct (is_simple_reshape (upd s d v) b) as [m|] eqn:Em; [|discriminate].
    cbn [obind] in E. destruct (lookup m d) as [x|] eqn:El; [|discriminate]. cbn [obind] in E. inversion E; subst P N.
    apply lookup_In in El. apply is_simple_walk in Em. destruct (walk_split _ _ _ _ _ Em _ _ El) as (a1 & a2 & b1 & b2 & w & E1 & -> & E3 & E4 & E5 & E6).
    rewrite upd_split in E1 by exact Hd. cbn in E3, E4. subst x.
    destruct (app_split_inj _ _ _ _ _ _ E1) as (F1 & F2 & F3); [rewrite firstn_length; lia|]. subst a1 a2 w.
    exists b1, b2. rewrite upd_app. split; auto.
    + rewrite upd_upd. apply upd_split; auto.
    + apply (filter_pos b1 (firstn d s)); auto.
    + apply (filter_pos b2 (skipn (S d) s)); auto.
Qed.

(** ** The shapes of the operands *)
Lemma scan_pairs_eq x a y b i j :
  scan_pairs (x :: a) (y :: b) i j =
  if x =? y then (i, j) :: scan_pairs a b (S i) (S j)
  else if x =? 1 then scan_pairs a (y :: b) (S i) j
  else if y =? 1 then scan_pairs (x :: a) b i (S j)
  else [].
Proof. reflexivity. Qed.
Lemma scan_ones a : forall b i j m, simple_scan a b i j = Some m -> scan_pairs a b i j = m.
Proof.
  induction a as [|x a IHa].
  - intros b i j m H. cbn. revert i j m H. induction b as [|y b IHb]; intros i j m H; cbn in H; [inversion H; auto|].
    destruct (y =? 1); [|discriminate]. apply (IHb _ _ _ H).
  - induction b as [|y b IHb]; intros i j m H.
    + cbn in H. cbn. destruct (x =? 1); [|discriminate]. rewrite <- (IHa _ _ _ _ H). destruct a; reflexivity.
    + rewrite scan_eq in H. rewrite scan_pairs_eq. destruct (x =? y).
      * destruct (simple_scan a b (S i) (S j)) as [m'|] eqn:E; [|discriminate]. cbn in H. inversion H. rewrite (IHa _ _ _ _ E). reflexivity.
      * destruct (x =? 1); [apply IHa; exact H|]. destruct (y =? 1); [apply IHb; exact H|discriminate].
Qed.
Lemma simple_pairs_spec a b m : is_simple_reshape a b = Some m -> simple_pairs a b = m.
Proof. unfold is_simple_reshape, simple_pairs. destruct (list_eqb a b); [intros H; inversion H; auto|apply scan_ones]. Qed.

Lemma sorted_fst m : StronglySorted (fun p q : nat * nat => fst p < fst q /\ snd p < snd q) m -> NoDup (map fst m).
Proof.
  induction 1 as [|p m H IH F]; cbn; constructor; auto. intros Hin. apply in_map_iff in Hin. destruct Hin as (q & E & Hq).
  rewrite Forall_forall in F. apply F in Hq. lia.
Qed.
Lemma fill_spec m : forall s out, NoDup (map fst m) -> Forall (fun p => fst p < length out /\ snd p < length s) m ->
  exists r, fill m s out = Some r /\ length r = length out /\
    (forall x y, In (x, y) m -> nth x r 0 = nth y s 0) /\ (forall k, ~ In k (map fst m) -> nth k r 0 = nth k out 0).
Proof.
  induction m as [|[x y] m IH]; intros s out ND F; cbn [fill].
  - exists out. repeat split; auto. intros ? ? [].
  - inversion ND as [|? ? N1 N2]; subst. inversion F as [|? ? [F0 F1] F2]; subst. cbn in F0, F1.
    destruct (nth_error s y) as [v|] eqn:Ev; [|apply nth_error_None in Ev; lia].
    destruct (IH s (upd out x v) N2) as (r & E & L & R1 & R2).
    { apply Forall_forall. intros p Hp. rewrite Forall_forall in F2. rewrite upd_length. apply F2, Hp. }
    exists r. rewrite upd_length in L. split; [exact E|split; [exact L|split]].
    + intros x' y' [Eq|Hin]; [|apply R1; exact Hin]. inversion Eq; subst. rewrite R2 by exact N1. rewrite upd_nth_eq by exact F0.
      symmetry. apply nth_error_nth, Ev.
    + intros k Hk. cbn in Hk. rewrite R2 by tauto. rewrite upd_nth. destruct (Nat.eqb_spec k x) as [->|n]; [tauto|reflexivity].
Qed.

Lemma prod_mid a v b : prod (a ++ v :: b) = prod a * v * prod b.
Proof. rewrite prod_app. cbn [prod]. lia. Qed.
Lemma nth_mid_ne {D} (a : list D) v w b k d : k <> length a -> nth k (a ++ v :: b) d = nth k (a ++ w :: b) d.
Proof.
  intros n. destruct (lt_dec k (length a)) as [L|L]; [rewrite !app_nth1 by exact L; reflexivity|].
  rewrite !app_nth2 by lia. destruct (k - length a) as [|q] eqn:E; [lia|reflexivity].
Qed.
Lemma pos_mid_ne a v b k : pos a -> pos b -> k <> length a -> k < length (a ++ v :: b) -> 0 < nth k (a ++ v :: b) 0.
Proof.
  intros Ha Hb n Hk. rewrite (nth_mid_ne a v 1 b k 0 n). assert (pos (a ++ 1 :: b)) as Hp by (apply pos_app; split; [exact Ha|apply pos_cons; split; [lia|exact Hb]]).
  unfold pos in Hp. rewrite Forall_forall in Hp. apply Hp, nth_In. rewrite app_length in *. cbn in *. lia.
Qed.
Lemma where_marked a b : pos a -> np_where 0 (a ++ 0 :: b) = Some (length a).
Proof.
  induction a as [|x a IH]; intros H; cbn [np_where app length]; [reflexivity|]. apply pos_cons in H. destruct H as [H1 H2].
  destruct (Nat.eqb_spec x 0) as [E|_]; [lia|]. rewrite IH by exact H2. reflexivity.
Qed.
Lemma mid_length {D} (a : list D) v b : length (a ++ v :: b) = length a + S (length b).
Proof. rewrite app_length. reflexivity. Qed.

Lemma nth_rep {D} (v : D) n k d : k < n -> nth k (repeat v n) d = v.
Proof. revert k; induction n as [|n IH]; intros [|k] H; cbn; try lia; [reflexivity|]. apply IH. lia. Qed.

Lemma align_marked P N p1 p2 n1 n2 v : marked P N p1 p2 n1 n2 -> 0 < v ->
  align P N (n1 ++ v :: n2) = Some (p1 ++ v :: p2).
Proof.
  intros [-> -> M1 M2 Hp1 Hp2 Hn1 Hn2] Hv. unfold align. rewrite !prod_mid.
  pose proof (prod_pos _ Hn1) as Z1. pose proof (prod_pos _ Hn2) as Z2.
  destruct (Nat.eqb_spec (prod n1 * v * prod n2) (prod p1 * 0 * prod p2)) as [E|_]; [nia|].
  rewrite !mid_length. destruct (Nat.ltb_spec (length n1 + S (length n2)) (length n1 + S (length n2))) as [L|_]; [lia|].
  assert (filter ne1 (p1 ++ 0 :: p2) = filter ne1 (n1 ++ 0 :: n2)) as EF by (rewrite !filter_app; cbn [filter]; rewrite M1, M2; reflexivity).
  destruct (proj2 (proj1 (simple_reshape_correct _ _)) EF) as [m Em]. rewrite (simple_pairs_spec _ _ _ Em).
  destruct (proj2 (simple_reshape_correct _ _) m Em) as [(A1 & A2 & A3 & A4) _].
  destruct (fill_spec m (n1 ++ v :: n2) (repeat 1 (length p1 + S (length p2)))) as (r & -> & L & R1 & R2).
  - apply sorted_fst, A2.
  - apply Forall_forall. intros [x y] Hp. apply A1 in Hp. cbn. rewrite repeat_length, mid_length in *. rewrite mid_length in Hp. lia.
  - f_equal. rewrite repeat_length in L. apply list_eq_nth; [rewrite L, mid_length; reflexivity|]. intros k Hk. rewrite L in Hk.
    destruct (in_dec Nat.eq_dec k (map fst m)) as [Hin|Hout].
    + apply in_map_iff in Hin. destruct Hin as ([k' y] & Ek & Hin). cbn in Ek. subst k'. rewrite (R1 _ _ Hin).
      destruct (A1 _ _ Hin) as (B1 & B2 & B3). rewrite mid_length in B1, B2.
      destruct (Nat.eq_dec k (length p1)) as [->|n].
      * rewrite nth_mid in B3. destruct (Nat.eq_dec y (length n1)) as [->|n']; [rewrite !nth_mid; reflexivity|].
        pose proof (pos_mid_ne n1 0 n2 y Hn1 Hn2 n'). rewrite mid_length in H. lia.
      * pose proof (pos_mid_ne p1 0 p2 k Hp1 Hp2 n). rewrite mid_length in H.
        destruct (Nat.eq_dec y (length n1)) as [->|n']; [rewrite nth_mid in B3; lia|].
        rewrite (nth_mid_ne n1 v 0 n2 y 0 n'), (nth_mid_ne p1 v 0 p2 k 0 n). symmetry; exact B3.
    + rewrite R2 by exact Hout. rewrite nth_rep by lia.
      assert (nth k (p1 ++ 0 :: p2) 0 = 1) as E1.
      { destruct (Nat.eq_dec (nth k (p1 ++ 0 :: p2) 0) 1) as [E|n]; [exact E|]. exfalso. apply Hout, A3; [rewrite mid_length; exact Hk|exact n]. }
      destruct (Nat.eq_dec k (length p1)) as [->|n]; [rewrite nth_mid in E1; lia|]. rewrite (nth_mid_ne p1 v 0 p2 k 0 n). auto.
Qed.

Lemma operand_marked {A} P N p1 p2 n1 n2 v (t : tensor A) : marked P N p1 p2 n1 n2 -> 0 < v -> tshape t = n1 ++ v :: n2 ->
  rp_operand KOther P N t = Some (reshape (p1 ++ v :: p2) t).
Proof.
  intros M Hv E. unfold rp_operand. rewrite E, (align_marked _ _ _ _ _ _ _ M Hv). cbn [obind]. unfold np_reshape.
  rewrite E, !prod_mid. rewrite (filter_prod_eq _ _ (mk_1 _ _ _ _ _ _ M)), (filter_prod_eq _ _ (mk_2 _ _ _ _ _ _ M)), Nat.eqb_refl. reflexivity.
Qed.
Lemma unmarked_pos a : pos a -> unmarked a = a.
Proof.
  induction a as [|x a IH]; intros H; [reflexivity|]. apply pos_cons in H. destruct H as [H1 H2]. unfold unmarked in *. cbn [filter].
  destruct (Nat.eqb_spec x 0) as [E|_]; [lia|]. cbn [negb]. rewrite IH by exact H2. reflexivity.
Qed.
Lemma unmarked_mid a b : pos a -> pos b -> unmarked (a ++ 0 :: b) = a ++ b.
Proof.
  intros Ha Hb. unfold unmarked. rewrite filter_app. fold (unmarked a). rewrite (unmarked_pos a Ha). cbn [filter]. rewrite Nat.eqb_refl. cbn [negb].
  fold (unmarked b). rewrite (unmarked_pos b Hb). reflexivity.
Qed.
Lemma recorded_marked P N p1 p2 n1 n2 e : marked P N p1 p2 n1 n2 -> rp_recorded KOther P (n1 ++ e :: n2) = Some (p1 ++ e :: p2).
Proof.
  intros [-> -> M1 M2 Hp1 Hp2 Hn1 Hn2]. unfold rp_recorded. rewrite where_marked by exact Hp1. rewrite unmarked_mid by auto.
  rewrite prod_mid, prod_app, (filter_prod_eq _ _ M1), (filter_prod_eq _ _ M2).
  pose proof (prod_pos _ Hn1) as Z1. pose proof (prod_pos _ Hn2) as Z2.
  assert (prod n1 * e * prod n2 / (prod n1 * prod n2) = e) as ->.
  { replace (prod n1 * e * prod n2) with (e * (prod n1 * prod n2)) by lia. apply Nat.div_mul. nia. }
  destruct (Nat.eqb_spec (prod n1 * prod n2 * e) (prod n1 * e * prod n2)) as [_|n]; [|lia]. rewrite upd_app. reflexivity.
Qed.
Lemma axis_marked P N p1 p2 n1 n2 : marked P N p1 p2 n1 n2 -> rp_axis P = Some (length p1).
Proof. intros [-> -> M1 M2 Hp1 Hp2 Hn1 Hn2]. apply where_marked, Hp1. Qed.

Definition tab {D} (d : D) (n1 : nat) (v : D) (n2 : nat) : list D := repeat d n1 ++ v :: repeat d n2.
Lemma map_away {D} (d v : D) q : forall n a, (forall j, a <= j < a + n -> j <> q) -> map (fun j => if j =? q then v else d) (seq a n) = repeat d n.
Proof.
  induction n as [|n IH]; intros a H; cbn [seq map repeat]; [reflexivity|]. destruct (Nat.eqb_spec a q) as [E|_]; [exfalso; apply (H a); auto; lia|].
  f_equal. apply IH. intros j Hj. apply H. lia.
Qed.
Lemma put_tab {D} (d : D) n1 n2 v : put d (n1 + S n2) n1 v = tab d n1 v n2.
Proof.
  unfold put, tab. rewrite seq_app, map_app. cbn [seq map]. rewrite Nat.add_0_l, Nat.eqb_refl.
  rewrite !map_away by (intros; lia). reflexivity.
Qed.
Lemma row_marked {D} P N p1 p2 n1 n2 (d : D) old v : marked P N p1 p2 n1 n2 -> nth_error old (length n1) = Some v ->
  rp_row d P N old = Some (tab d (length p1) v (length p2)).
Proof.
  intros [-> -> M1 M2 Hp1 Hp2 Hn1 Hn2] E. unfold rp_row. rewrite !where_marked by auto. cbn [obind]. rewrite E. cbn [obind].
  rewrite mid_length, put_tab. reflexivity.
Qed.
Lemma extent_marked P N p1 p2 n1 n2 old v : marked P N p1 p2 n1 n2 -> nth_error old (length n1) = Some v ->
  rp_extent P N old = Some (p1 ++ v :: p2).
Proof.
  intros [-> -> M1 M2 Hp1 Hp2 Hn1 Hn2] E. unfold rp_extent. rewrite !where_marked by auto. cbn [obind]. rewrite E. cbn [obind].
  rewrite upd_app. reflexivity.
Qed.

(** ** Reading a reshaped tensor *)
(** positions of the two shapes that stand for the same element *)
Definition twin (p1 p2 n1 n2 i1 i2 j1 j2 : list nat) : Prop :=
  valid p1 i1 /\ valid p2 i2 /\ valid n1 j1 /\ valid n2 j2 /\ ravel p1 i1 = ravel n1 j1 /\ ravel p2 i2 = ravel n2 j2.
Lemma twin_length p1 p2 n1 n2 i1 i2 j1 j2 : twin p1 p2 n1 n2 i1 i2 j1 j2 -> length i1 = length p1 /\ length j1 = length n1 /\ length i2 = length p2 /\ length j2 = length n2.
Proof. intros (V1 & V2 & V3 & V4 & _). repeat split; apply valid_length; auto. Qed.
Lemma valid_app s1 s2 i1 i2 : valid s1 i1 -> valid s2 i2 -> valid (s1 ++ s2) (i1 ++ i2).
Proof. apply Forall2_app. Qed.
Lemma valid_mid s1 d s2 i1 k i2 : valid s1 i1 -> k < d -> valid s2 i2 -> valid (s1 ++ d :: s2) (i1 ++ k :: i2).
Proof. intros. apply valid_app; auto. constructor; auto. Qed.
Lemma ravel_mid s1 d s2 i1 k i2 : valid s1 i1 -> ravel (s1 ++ d :: s2) (i1 ++ k :: i2) = ravel s1 i1 * (d * prod s2) + (k * prod s2 + ravel s2 i2).
Proof. intros V. rewrite ravel_app by exact V. reflexivity. Qed.
Lemma valid_mid_inv s1 d s2 idx : valid (s1 ++ d :: s2) idx -> exists i1 k i2, idx = i1 ++ k :: i2 /\ valid s1 i1 /\ k < d /\ valid s2 i2.
Proof.
  intros V. apply Forall2_app_inv_r in V. destruct V as (i1 & r & V1 & V2 & ->). inversion V2 as [|k ? i2 ? Hk V3]; subst.
  exists i1, k, i2. auto.
Qed.

Lemma read_twin {A} p1 p2 n1 n2 d (t : tensor A) i1 i2 j1 j2 k : prod p2 = prod n2 -> tshape t = n1 ++ d :: n2 ->
  twin p1 p2 n1 n2 i1 i2 j1 j2 -> k < d -> tget (reshape (p1 ++ d :: p2) t) (i1 ++ k :: i2) = tget t (j1 ++ k :: j2).
Proof.
  intros Ep E (V1 & V2 & V3 & V4 & R1 & R2) Hk. cbn [tget reshape]. f_equal. rewrite E.
  rewrite ravel_mid by exact V1. rewrite R1, R2, Ep. rewrite <- ravel_mid with (d := d) (k := k) (i2 := j2) by exact V3.
  apply unravel_ravel. apply valid_mid; auto.
Qed.
Lemma back_teq {A} p1 p2 n1 n2 e (y y' : tensor A) : prod p1 = prod n1 -> prod p2 = prod n2 ->
  tshape y = n1 ++ e :: n2 -> tshape y' = p1 ++ e :: p2 ->
  (forall i1 i2 j1 j2 k, twin p1 p2 n1 n2 i1 i2 j1 j2 -> k < e -> tget y' (i1 ++ k :: i2) = tget y (j1 ++ k :: j2)) ->
  teq (reshape (tshape y) y') y.
Proof.
  intros E1 E2 Ey Ey' H. split; [reflexivity|]. cbn [tshape reshape]. intros idx V. rewrite Ey in V.
  destruct (valid_mid_inv _ _ _ _ V) as (j1 & k & j2 & -> & V1 & Hk & V2).
  pose proof (ravel_lt _ _ V1) as L1. pose proof (ravel_lt _ _ V2) as L2.
  assert (twin p1 p2 n1 n2 (unravel p1 (ravel n1 j1)) (unravel p2 (ravel n2 j2)) j1 j2) as T.
  { unfold twin. rewrite !ravel_unravel by lia. repeat split; auto; apply unravel_valid; lia. }
  revert T. generalize (unravel p1 (ravel n1 j1)) (unravel p2 (ravel n2 j2)). intros i1 i2 T.
  rewrite <- (H _ _ _ _ k T Hk). cbn [tget reshape]. f_equal. rewrite Ey, Ey'.
  destruct T as (T1 & T2 & T3 & T4 & R1 & R2). rewrite ravel_mid by exact V1. rewrite <- R1, <- R2, <- E2.
  rewrite <- ravel_mid with (d := e) (k := k) by exact T1. apply unravel_ravel, valid_mid; auto.
Qed.

(** ** The operators *)
Lemma marked_prods P N p1 p2 n1 n2 : marked P N p1 p2 n1 n2 -> prod p1 = prod n1 /\ prod p2 = prod n2.
Proof. intros M. split; apply filter_prod_eq; apply M. Qed.

(** what every theorem says about an output: the recorded shape is the shape computed, and reshaping
    back gives the old output *)
Definition restored {A} (P : list nat) (y' y : tensor A) : Prop :=
  rp_recorded KOther P (tshape y) = Some (tshape y') /\ teq (reshape (tshape y) y') y.

Lemma restore {A} P N p1 p2 n1 n2 e (y' y : tensor A) : marked P N p1 p2 n1 n2 ->
  tshape y = n1 ++ e :: n2 -> tshape y' = p1 ++ e :: p2 ->
  (forall i1 i2 j1 j2 k, twin p1 p2 n1 n2 i1 i2 j1 j2 -> k < e -> tget y' (i1 ++ k :: i2) = tget y (j1 ++ k :: j2)) ->
  restored P y' y.
Proof.
  intros M Ey Ey' H. split; [rewrite Ey, Ey'; apply (recorded_marked _ _ _ _ _ _ _ M)|].
  destruct (marked_prods _ _ _ _ _ _ M). apply (back_teq p1 p2 n1 n2 e); auto.
Qed.

(** a node with one operand that works on axis [d] of it *)
Lemma one_operand {A} d (x : tensor A) outs P N : offered KOther (Some d) [tshape x] outs P N -> pos (tshape x) -> d < length (tshape x) ->
  (forall o, In o outs -> exists v, o = upd (tshape x) d v) ->
  exists p1 p2 n1 n2 v, marked P N p1 p2 n1 n2 /\ tshape x = n1 ++ v :: n2 /\ length n1 = d /\ 0 < v /\
    rp_axis P = Some (length p1) /\ rp_operand KOther P N x = Some (reshape (p1 ++ v :: p2) x) /\
    (forall i1 i2 j1 j2 k, twin p1 p2 n1 n2 i1 i2 j1 j2 -> k < v -> tget (reshape (p1 ++ v :: p2) x) (i1 ++ k :: i2) = tget x (j1 ++ k :: j2)).
Proof.
  intros Hof Hp Hd Ho. assert (0 < nth d (tshape x) 0) as Hv by (unfold pos in Hp; rewrite Forall_forall in Hp; apply Hp, nth_In, Hd).
  destruct (offered_marked d (tshape x) [tshape x] outs P N Hp Hd) as (p1 & p2 & M); auto.
  { intros b [<-|[]]. exists (nth d (tshape x) 0). split; [exact Hv|symmetry; apply upd_same, Hd]. }
  pose proof (split_at _ _ Hd) as Es.
  exists p1, p2, (firstn d (tshape x)), (skipn (S d) (tshape x)), (nth d (tshape x) 0).
  split; [exact M|]. split; [exact Es|]. split; [rewrite firstn_length; lia|]. split; [exact Hv|].
  split; [apply (axis_marked _ _ _ _ _ _ M)|]. split; [apply (operand_marked _ _ _ _ _ _ _ _ M Hv Es)|].
  intros i1 i2 j1 j2 k T Hk. apply (read_twin p1 p2 (firstn d (tshape x)) (skipn (S d) (tshape x))); auto. apply (marked_prods _ _ _ _ _ _ M).
Qed.

(** GATHER with an index vector *)
Lemma gather_moved {A} ax ix (x : tensor A) P N : pos (tshape x) -> ax < length (tshape x) ->
  Forall (fun i => i < nth ax (tshape x) 0) ix ->
  offered KOther (Some ax) [tshape x] [tshape (gather ax ix x)] P N ->
  exists ax' x', rp_axis P = Some ax' /\ rp_operand KOther P N x = Some x' /\ restored P (gather ax' ix x') (gather ax ix x).
Proof.
  intros Hp Hax Hix Hof.
  destruct (one_operand ax x _ P N Hof Hp Hax) as (p1 & p2 & n1 & n2 & d & M & Es & La & Hd & Eax & Eop & Rd).
  { intros o [<-|[]]. exists (length ix). reflexivity. }
  rewrite Es, <- La, nth_mid in Hix. rewrite <- La in *. clear La.
  exists (length p1), (reshape (p1 ++ d :: p2) x). split; [exact Eax|]. split; [exact Eop|].
  apply (restore P N p1 p2 n1 n2 (length ix)); auto.
  - cbn [tshape gather]. rewrite Es. apply upd_app.
  - cbn [tshape gather reshape]. apply upd_app.
  - intros i1 i2 j1 j2 k T Hk. destruct (twin_length _ _ _ _ _ _ _ _ T) as (L1 & L2 & _). cbn [tget gather].
    rewrite <- L1, <- L2, !nth_mid, !upd_app.
    apply Rd; auto. rewrite Forall_forall in Hix. apply Hix, nth_In, Hk.
Qed.

(** an output of SPLIT, SPLIT_V *)
Lemma chunk_moved {A} ax parts (x : tensor A) P N : pos (tshape x) -> ax < length (tshape x) ->
  Forall (fun p => fst p + snd p <= nth ax (tshape x) 0) parts ->
  offered KOther (Some ax) [tshape x] (map (fun p => tshape (chunk ax (fst p) (snd p) x)) parts) P N ->
  exists ax' x', rp_axis P = Some ax' /\ rp_operand KOther P N x = Some x' /\
    Forall (fun p => restored P (chunk ax' (fst p) (snd p) x') (chunk ax (fst p) (snd p) x)) parts.
Proof.
  intros Hp Hax Hpt Hof.
  destruct (one_operand ax x _ P N Hof Hp Hax) as (p1 & p2 & n1 & n2 & d & M & Es & La & Hd & Eax & Eop & Rd).
  { intros o Ho. apply in_map_iff in Ho. destruct Ho as (p & <- & _). exists (snd p). reflexivity. }
  rewrite Es, <- La, nth_mid in Hpt. rewrite <- La in *. clear La.
  exists (length p1), (reshape (p1 ++ d :: p2) x). split; [exact Eax|]. split; [exact Eop|].
  apply Forall_forall. intros [st len] Hin. rewrite Forall_forall in Hpt. specialize (Hpt _ Hin). cbn [fst snd] in *.
  apply (restore P N p1 p2 n1 n2 len); auto.
  - cbn [tshape chunk]. rewrite Es. apply upd_app.
  - cbn [tshape chunk reshape]. apply upd_app.
  - intros i1 i2 j1 j2 k T Hk. destruct (twin_length _ _ _ _ _ _ _ _ T) as (L1 & L2 & _). cbn [tget chunk].
    rewrite <- L1, <- L2, !nth_mid, !upd_app. apply Rd; auto. lia.
Qed.

(** rows that change one axis only *)
Lemma pad_shape_tab n1 d n2 a b : pad_shape (n1 ++ d :: n2) (tab (0, 0) (length n1) (a, b) (length n2)) = n1 ++ (a + d + b) :: n2.
Proof.
  assert (forall s, pad_shape s (repeat (0, 0) (length s)) = s) as H by (induction s as [|x s IH]; cbn; [reflexivity|]; rewrite IH, Nat.add_0_r; reflexivity).
  induction n1 as [|x n1 IH]; unfold tab in *; cbn [length repeat app pad_shape]; [rewrite H; reflexivity|]. rewrite IH. f_equal. lia.
Qed.
Lemma split_ex (s : list nat) ax : ax < length s -> exists (n1 : list nat) (d : nat) (n2 : list nat), s = n1 ++ d :: n2 /\ length n1 = ax /\ length s - S ax = length n2.
Proof.
  intros H. exists (firstn ax s), (nth ax s 0), (skipn (S ax) s). split; [apply split_at, H|]. rewrite firstn_length, skipn_length. lia.
Qed.
Lemma pad_shape_upd s ax a b : ax < length s -> pad_shape s (tab (0, 0) ax (a, b) (length s - S ax)) = upd s ax (a + nth ax s 0 + b).
Proof. intros H. destruct (split_ex s ax H) as (n1 & d & n2 & -> & <- & ->). rewrite nth_mid, upd_app. apply pad_shape_tab. Qed.
Lemma unpad_zero s i : valid s i -> unpad s (repeat (0, 0) (length s)) i = Some i.
Proof.
  induction 1 as [|i d is s Hi V IH]; cbn [length repeat unpad]; [reflexivity|]. rewrite Nat.sub_0_r. cbn [Nat.leb andb].
  destruct (Nat.ltb_spec i d) as [_|]; [|lia]. rewrite IH. reflexivity.
Qed.
Lemma unpad_tab n1 d n2 a b i1 k i2 : valid n1 i1 -> valid n2 i2 ->
  unpad (n1 ++ d :: n2) (tab (0, 0) (length n1) (a, b) (length n2)) (i1 ++ k :: i2) =
  if (a <=? k) && (k - a <? d) then Some (i1 ++ (k - a) :: i2) else None.
Proof.
  intros V1 V2. induction V1 as [|i x is s Hi V IH]; unfold tab in *; cbn [length repeat app unpad].
  - rewrite unpad_zero by exact V2. destruct ((a <=? k) && (k - a <? d)); reflexivity.
  - rewrite Nat.sub_0_r. cbn [Nat.leb andb]. destruct (Nat.ltb_spec i x) as [_|]; [|lia]. rewrite IH.
    destruct ((a <=? k) && (k - a <? d)); reflexivity.
Qed.
Lemma reflect_zero s i : valid s i -> reflect_idx s (repeat (0, 0) (length s)) i = i.
Proof.
  induction 1 as [|i d is s Hi V IH]; cbn [length repeat reflect_idx]; [reflexivity|]. rewrite IH. unfold LayoutSpec.reflect.
  rewrite Nat.sub_0_r. destruct (Nat.ltb_spec i 0) as [|_]; [lia|]. destruct (Nat.ltb_spec i d) as [_|]; [|lia]. reflexivity.
Qed.
Lemma reflect_tab n1 d n2 a b i1 k i2 : valid n1 i1 -> valid n2 i2 ->
  reflect_idx (n1 ++ d :: n2) (tab (0, 0) (length n1) (a, b) (length n2)) (i1 ++ k :: i2) = i1 ++ LayoutSpec.reflect d a k :: i2.
Proof.
  intros V1 V2. induction V1 as [|i x is s Hi V IH]; unfold tab in *; cbn [length repeat app reflect_idx].
  - rewrite reflect_zero by exact V2. reflexivity.
  - rewrite IH. unfold LayoutSpec.reflect at 1.
    rewrite Nat.sub_0_r. destruct (Nat.ltb_spec i 0) as [|_]; [lia|]. destruct (Nat.ltb_spec i x) as [_|]; [|lia]. reflexivity.
Qed.

Lemma only_axis_spec f n k : only_axis (filter f (seq 0 n)) = Some k -> k < n /\ f k = true /\ forall j, j < n -> j <> k -> f j = false.
Proof.
  intros H. destruct (filter f (seq 0 n)) as [|a [|b l]] eqn:E; cbn in H; try discriminate. inversion H; subst a.
  assert (In k (filter f (seq 0 n))) as Hk by (rewrite E; left; auto). apply filter_In in Hk. destruct Hk as [Hk Hf]. apply in_seq in Hk.
  split; [lia|]. split; [exact Hf|]. intros j Hj n'. destruct (f j) eqn:Ej; [|reflexivity]. exfalso.
  assert (In j (filter f (seq 0 n))) as Hin by (apply filter_In; split; [apply in_seq; lia|exact Ej]). rewrite E in Hin. destruct Hin as [->|[]]. auto.
Qed.
Lemma list_eq_nth_any {D} (d : D) l : forall m, length l = length m -> (forall k, k < length l -> nth k l d = nth k m d) -> l = m.
Proof.
  induction l as [|x l IH]; intros [|y m] L H; cbn in L; try lia; [reflexivity|]. f_equal; [apply (H 0); cbn; lia|].
  apply IH; [lia|]. intros k Hk. apply (H (S k)). cbn. lia.
Qed.
Lemma nth_tab {D} (d : D) n1 v n2 k e : k < n1 + S n2 -> nth k (tab d n1 v n2) e = if k =? n1 then v else d.
Proof.
  intros H. unfold tab. destruct (Nat.eqb_spec k n1) as [->|n].
  - rewrite <- (repeat_length d n1) at 1. apply nth_mid.
  - destruct (lt_dec k n1) as [L|L]; [rewrite app_nth1 by (rewrite repeat_length; lia); apply nth_rep; lia|].
    rewrite app_nth2 by (rewrite repeat_length; lia). rewrite repeat_length. destruct (k - n1) as [|q] eqn:E; [lia|]. cbn. apply nth_rep. lia.
Qed.
Lemma tab_length {D} (d : D) n1 v n2 : length (tab d n1 v n2) = n1 + S n2.
Proof. unfold tab. rewrite app_length. cbn. rewrite !repeat_length. lia. Qed.
Lemma tab_intro {D} (d v : D) l n1 n2 : length l = n1 + S n2 -> nth n1 l d = v -> (forall k, k < length l -> k <> n1 -> nth k l d = d) -> l = tab d n1 v n2.
Proof.
  intros L E H. apply (list_eq_nth_any d); [rewrite tab_length; exact L|]. intros k Hk. rewrite nth_tab by lia.
  destruct (Nat.eqb_spec k n1) as [->|n]; auto.
Qed.
Lemma dims_pad_tab pads d n1 n2 : dims_pad pads = Some d -> length pads = n1 + S n2 -> n1 = d -> exists ab, pads = tab (0, 0) n1 ab n2 /\ nth_error pads n1 = Some ab.
Proof.
  intros H L <-. apply only_axis_spec in H. destruct H as (H1 & H2 & H3). exists (nth n1 pads (0, 0)). split.
  - apply tab_intro; auto. intros k Hk n. specialize (H3 k Hk n). apply negb_false_iff, Nat.eqb_eq in H3.
    destruct (nth k pads (0, 0)) as [a b]. cbn in H3. f_equal; lia.
  - apply nth_error_nth'. exact H1.
Qed.

(** PAD, PADV2 with one padded axis *)
Lemma pad_moved {A} (v : A) pads ax (x : tensor A) P N : pos (tshape x) -> length pads = length (tshape x) -> dims_pad pads = Some ax ->
  offered KOther (Some ax) [tshape x] [tshape (pad_op v pads x)] P N ->
  exists pads' x', rp_row (0, 0) P N pads = Some pads' /\ rp_operand KOther P N x = Some x' /\ restored P (pad_op v pads' x') (pad_op v pads x).
Proof.
  intros Hp Hlen Hdim Hof. assert (ax < length (tshape x)) as Hax by (apply only_axis_spec in Hdim; lia).
  assert (exists ab, pads = tab (0, 0) ax ab (length (tshape x) - S ax)) as (ab & Epads).
  { destruct (dims_pad_tab pads ax ax (length (tshape x) - S ax) Hdim) as (ab & E & _); [lia|auto|]. exists ab; exact E. }
  assert (exists w, tshape (pad_op v pads x) = upd (tshape x) ax w) as Hout.
  { exists (fst ab + nth ax (tshape x) 0 + snd ab). cbn [tshape pad_op]. rewrite Epads. destruct ab as [a b]. apply pad_shape_upd, Hax. }
  destruct (one_operand ax x _ P N Hof Hp Hax) as (p1 & p2 & n1 & n2 & d & M & Es & La & Hd & Eax & Eop & Rd).
  { intros o [<-|[]]. exact Hout. }
  assert (length (tshape x) - S ax = length n2) as L2 by (rewrite Es, mid_length; lia). rewrite L2 in Epads. rewrite <- La in *. clear La L2 Hout.
  destruct ab as [a b].
  exists (tab (0, 0) (length p1) (a, b) (length p2)), (reshape (p1 ++ d :: p2) x). split; [|split; [exact Eop|]].
  { apply (row_marked _ _ _ _ _ _ _ _ _ M). rewrite Epads. unfold tab. rewrite <- (repeat_length (0, 0) (length n1)) at 2. rewrite nth_error_app2 by lia. rewrite Nat.sub_diag. reflexivity. }
  apply (restore P N p1 p2 n1 n2 (a + d + b)); auto.
  - cbn [tshape pad_op]. rewrite Es, Epads. apply pad_shape_tab.
  - cbn [tshape pad_op reshape]. apply pad_shape_tab.
  - intros i1 i2 j1 j2 k T Hk. cbn [tget pad_op]. rewrite Es, Epads. change (tshape (reshape (p1 ++ d :: p2) x)) with (p1 ++ d :: p2).
    rewrite !unpad_tab by apply T. destruct ((a <=? k) && (k - a <? d)) eqn:E; [|reflexivity].
    apply andb_true_iff in E. destruct E as [_ E]. apply Nat.ltb_lt in E. apply Rd; auto.
Qed.
