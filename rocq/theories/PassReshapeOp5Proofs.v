(** Proofs about moving reshapes across another node: PRELU, PACK, UNPACK. *)
From Coq Require Import List Arith Lia Permutation Bool Sorted ZArith Reals.
From Verif Require Import Tensor ChainModel ChainProofs ReshapeProofs LowerProofs ConvSpec CatSpec LayoutSpec FuseMiscProofs PassModel PassProofs PassAxesProofs FuseModel
  PassReshapeModel PassReshapeOpProofs PassReshapeOp2Proofs PassReshapeOp4Proofs.
Import ListNotations.
Local Open Scope nat_scope.

(** ** PRELU *)
Lemma ravel_zero s : ravel s (repeat 0 (length s)) = 0.
Proof. induction s as [|d s IH]; [reflexivity|]. cbn [length repeat ravel]. rewrite IH. lia. Qed.
Lemma prod_rep1 n : prod (repeat 1 n) = 1.
Proof. induction n; cbn; lia. Qed.
Lemma ravel_tab a c b k : ravel (tab 1 a c b) (tab 0 a k b) = k.
Proof.
  unfold tab. induction a as [|a IH]; cbn [repeat app ravel].
  - rewrite prod_rep1. rewrite <- (repeat_length 1 b) at 2. rewrite ravel_zero. lia.
  - rewrite IH. lia.
Qed.
Lemma prod_tab a c b : prod (tab 1 a c b) = c.
Proof. unfold tab. rewrite prod_mid, !prod_rep1. lia. Qed.
Lemma valid_tab a c b k : k < c -> valid (tab 1 a c b) (tab 0 a k b).
Proof. intros H. unfold tab. apply valid_mid; auto; [induction a|induction b]; cbn; constructor; auto. Qed.
Lemma bshape_tab s1 c s2 : bshape (s1 ++ c :: s2) (tab 1 (length s1) c (length s2)) = Some (s1 ++ c :: s2).
Proof.
  apply bshape_intro; [rewrite tab_length, mid_length; reflexivity|reflexivity|]. intros k Hk. rewrite mid_length in Hk. rewrite nth_tab by lia.
  destruct (Nat.eqb_spec k (length s1)) as [->|n]; [rewrite nth_mid; unfold bdim; rewrite Nat.eqb_refl; reflexivity|apply bdim_1r].
Qed.
Lemma bidx_tab i1 c k i2 : c <> 1 -> bidx (tab 1 (length i1) c (length i2)) (i1 ++ k :: i2) = tab 0 (length i1) k (length i2).
Proof.
  intros Hc. assert (length (tab 1 (length i1) c (length i2)) = length (i1 ++ k :: i2)) as L by (rewrite tab_length, mid_length; reflexivity).
  apply list_eq_nth; [rewrite bidx_length_eq by exact L; rewrite !tab_length; reflexivity|]. intros q Hq. rewrite bidx_length_eq, tab_length in Hq by exact L.
  rewrite bidx_nth by (rewrite ?tab_length; auto; rewrite mid_length; reflexivity). rewrite !nth_tab by lia.
  destruct (Nat.eqb_spec q (length i1)) as [->|n]; [|reflexivity]. destruct (Nat.eqb_spec c 1); [contradiction|]. apply nth_mid.
Qed.
Lemma dims_prelu_tab w d : dims_prelu w = Some d -> exists a c b, w = tab 1 a c b /\ d = S a /\ c <> 1 /\ nth (d - 1) w 0 = c.
Proof.
  unfold dims_prelu. destruct (only_axis _) as [a|] eqn:E; [|discriminate]. intros H. cbn in H. inversion H; subst d. clear H.
  apply only_axis_spec in E. destruct E as (H1 & H2 & H3). exists a, (nth a w 0), (length w - S a).
  split; [|split; [reflexivity|split]].
  - rewrite (nth_indep w 0 1) by exact H1. apply tab_intro; [lia|reflexivity|]. intros k Hk n. specialize (H3 k Hk n). apply negb_false_iff, Nat.eqb_eq in H3.
    rewrite (nth_indep w 1 0) by exact Hk. exact H3.
  - intros E. rewrite E in H2. discriminate.
  - cbn. rewrite Nat.sub_0_r. reflexivity.
Qed.
Lemma prelu_moved (x w z : tensor R) ax P N : pos (tshape x) -> dims_prelu (tshape w) = Some ax -> length (tshape x) = S (length (tshape w)) ->
  nth ax (tshape x) 0 = nth (ax - 1) (tshape w) 0 -> prelu x w = Some z ->
  offered KOther (Some ax) [tshape x] [tshape z] P N ->
  (length (tshape w) <> 1 /\ nth 0 P 0 <> 0) \/ (length (tshape w) = 1 /\ last P 1 = 0) ->
  exists x' w' z', rp_operand KOther P N x = Some x' /\ rp_prelu_weight P N w = Some w' /\ prelu x' w' = Some z' /\ restored P z' z.
Proof.
  intros Hp Hdim Lx Hch Hz Hof Hcase. destruct (dims_prelu_tab _ _ Hdim) as (a & c & b & Ew & -> & Hc & Hcw). rewrite Hcw in Hch. clear Hcw.
  assert (S a < length (tshape x)) as Hax by (rewrite Lx, Ew, tab_length; lia).
  assert (exists dx xt, tshape x = dx :: xt) as (dx & xt & Ex) by (destruct (tshape x); [cbn in Hax; lia|eauto]).
  assert (exists t1 t2, xt = t1 ++ c :: t2 /\ length t1 = a /\ length t2 = b) as (t1 & t2 & Ext & L1 & L2).
  { rewrite Ex in Hax, Hch, Lx. cbn [nth length] in Hax, Hch, Lx. exists (firstn a xt), (skipn (S a) xt). rewrite firstn_length, skipn_length.
    rewrite Ew, tab_length in Lx. split; [rewrite <- Hch; apply split_at; lia|lia]. }
  clear Hch.
  assert (tshape z = tshape x /\ forall i1 k i2, valid (dx :: t1) i1 -> valid t2 i2 ->
      tget z (i1 ++ k :: i2) = (fun v al => if Rle_dec 0 v then v else (al * v)%R) (tget x (bidx (tshape x) (i1 ++ k :: i2))) (tget w (tab 0 a k b))) as [Ez Gz].
  { unfold prelu, binop in Hz. rewrite Ex, Ext, Ew in Hz. rewrite <- L1, <- L2 in Hz.
    rewrite (bshape_short_cons _ _ _ _ (eq_sym (eq_trans (tab_length _ _ _ _) (eq_sym (mid_length _ _ _)))) (bshape_tab _ _ _)) in Hz. inversion Hz as [Hz']. clear Hz Hz'.
    cbn [tshape tget]. rewrite Ex, Ext. split; [reflexivity|]. intros i1 k i2 V1 V2. rewrite <- L1, <- L2 in *.
    inversion V1 as [|q ? i1' ? Hq V1']; subst. cbn [app]. rewrite (bidx_short _ (tab _ _ _ _)) by (rewrite tab_length, mid_length, (valid_length _ _ V1'), (valid_length _ _ V2); reflexivity).
    rewrite <- (valid_length _ _ V1'), <- (valid_length _ _ V2). rewrite bidx_tab by exact Hc. reflexivity. }
  destruct (one_operand (S a) x _ P N Hof Hp Hax) as (p1 & p2 & n1 & n2 & d & M & Es & La & Hd & Eax & Eop & Rd).
  { intros o [<-|[]]. exists (nth (S a) (tshape x) 0). rewrite Ez. symmetry. apply upd_same, Hax. }
  rewrite Ex, Ext in Es. change (dx :: t1 ++ c :: t2) with ((dx :: t1) ++ c :: t2) in Es.
  destruct (app_split_inj _ _ _ _ _ _ Es) as (<- & <- & <-); [cbn; lia|]. clear Es.
  assert (forall k i1 i2 j1 j2, twin p1 p2 (dx :: t1) t2 i1 i2 j1 j2 -> k < c -> bidx (tshape x) (j1 ++ k :: j2) = j1 ++ k :: j2) as Bx.
  { intros k i1 i2 j1 j2 T Hk. apply bidx_self. rewrite Ex, Ext. change (dx :: t1 ++ c :: t2) with ((dx :: t1) ++ c :: t2). apply valid_mid; auto; apply T. }
  exists (reshape (p1 ++ c :: p2) x).
  destruct Hcase as [[Hw HP0]|[Hw HPl]].
  - assert (exists e q1, p1 = e :: q1) as (e & q1 & ->).
    { destruct p1 as [|e q1]; [|eauto]. rewrite (mk_P _ _ _ _ _ _ M) in HP0. cbn in HP0. lia. }
    set (w' := reshape (tab 1 (length q1) c (length p2)) w). exists w'.
    assert (rp_prelu_weight P N w = Some w') as Ewt.
    { unfold rp_prelu_weight. destruct (Nat.eqb_spec (length (tshape w)) 1); [contradiction|].
      rewrite (mk_P _ _ _ _ _ _ M), (mk_N _ _ _ _ _ _ M). rewrite !where_marked by apply M. cbn [obind length].
      rewrite L1, Ew, tab_error. cbn [obind]. rewrite mid_length. cbn [length]. rewrite Nat.add_succ_l, Nat.sub_succ, Nat.sub_0_r.
      destruct (Nat.eqb_spec (length q1 + S (length p2)) 0); [lia|]. rewrite put_tab. unfold np_reshape. rewrite Ew, !prod_tab, Nat.eqb_refl. reflexivity. }
    unfold prelu, binop. cbn [tshape reshape w']. rewrite <- app_comm_cons.
    rewrite (bshape_short_cons _ _ _ _ (eq_sym (eq_trans (tab_length _ _ _ _) (eq_sym (mid_length _ _ _)))) (bshape_tab _ _ _)).
    eexists. split; [exact Eop|]. split; [exact Ewt|]. split; [reflexivity|].
    apply (restore P N (e :: q1) p2 (dx :: t1) t2 c); auto; [rewrite Ez, Ex, Ext; reflexivity|].
    intros i1 i2 j1 j2 k T Hk. pose proof T as (V1 & V2 & V3 & V4 & _). rewrite Gz by auto. cbn [tget]. rewrite (Bx k i1 i2) by auto.
    assert (bidx (e :: q1 ++ c :: p2) (i1 ++ k :: i2) = i1 ++ k :: i2) as ->.
    { apply bidx_self. change (e :: q1 ++ c :: p2) with ((e :: q1) ++ c :: p2). apply valid_mid; auto. }
    pose proof (Rd i1 i2 j1 j2 k T Hk) as Rd'. rewrite <- app_comm_cons in Rd'. rewrite Rd'.
    assert (tget w' (bidx (tab 1 (length q1) c (length p2)) (i1 ++ k :: i2)) = tget w (tab 0 a k b)) as ->; [|reflexivity].
    inversion V1 as [|g ? i1' ? Hg V1']; subst. cbn [app]. rewrite (bidx_short _ (tab _ _ _ _)) by (rewrite tab_length, mid_length, (valid_length _ _ V1'), (valid_length _ _ V2); reflexivity).
    rewrite <- (valid_length _ _ V1'), <- (valid_length _ _ V2). rewrite bidx_tab by exact Hc. unfold w'. cbn [tget reshape]. f_equal. rewrite (valid_length _ _ V1'), (valid_length _ _ V2). rewrite ravel_tab, Ew.
    rewrite <- (ravel_tab (length t1) c (length t2) k) at 1. apply unravel_ravel, valid_tab, Hk.
  - exists w. assert (a = 0 /\ b = 0) as [-> ->] by (rewrite Ew, tab_length in Hw; lia).
    destruct t1; [|discriminate]. destruct t2; [|discriminate].
    assert (p2 = []) as ->.
    { destruct p2 as [|g p2]; [reflexivity|]. exfalso. rewrite (mk_P _ _ _ _ _ _ M) in HPl. pose proof (mk_p2 _ _ _ _ _ _ M) as Hp2.
      assert (In (last (p1 ++ 0 :: g :: p2) 1) (g :: p2)) as HI.
      { replace (p1 ++ 0 :: g :: p2) with ((p1 ++ [0]) ++ g :: p2) by (rewrite <- app_assoc; reflexivity).
        clear. generalize (p1 ++ [0]). intros l. destruct (exists_last (l := g :: p2)) as (l' & v & E); [discriminate|]. rewrite E, app_assoc, last_last. apply in_app_iff. right. left. reflexivity. }
      unfold pos in Hp2. rewrite Forall_forall in Hp2. apply Hp2 in HI. lia. }
    assert (rp_prelu_weight P N w = Some w) as Ewt by (unfold rp_prelu_weight; rewrite Hw; reflexivity).
    change (tab 1 0 c 0) with [c] in Ew.
    unfold prelu, binop. cbn [tshape reshape]. rewrite Ew. assert (bshape (p1 ++ [c]) [c] = Some (p1 ++ [c])) as ->.
    { unfold bshape. rewrite rev_app_distr. cbn [rev app bshape_rev]. unfold bdim. rewrite Nat.eqb_refl.
      assert (forall r, bshape_rev r [] = Some r) as -> by (intros [|]; reflexivity). cbn. rewrite rev_involutive. reflexivity. }
    eexists. split; [exact Eop|]. split; [exact Ewt|]. split; [reflexivity|].
    apply (restore P N p1 [] [dx] [] c); auto; [rewrite Ez, Ex, Ext; reflexivity|].
    intros i1 i2 j1 j2 k T Hk. pose proof T as (V1 & V2 & V3 & V4 & _). rewrite Gz by auto. cbn [tget]. rewrite (Bx k i1 i2) by auto.
    rewrite bidx_self by (apply valid_mid; auto). rewrite (Rd i1 i2 j1 j2 k T Hk).
    inversion V2; subst. assert (bidx [c] (i1 ++ [k]) = [k]) as ->; [|reflexivity].
    unfold bidx. rewrite rev_app_distr. cbn [rev app bidx_rev]. destruct (Nat.eqb_spec c 1); [contradiction|reflexivity].
Qed.

(** ** PACK and UNPACK *)
Lemma read_plain {A} p1 p2 n1 n2 (t : tensor A) i1 i2 j1 j2 : prod p2 = prod n2 -> tshape t = n1 ++ n2 ->
  twin p1 p2 n1 n2 i1 i2 j1 j2 -> tget (reshape (p1 ++ p2) t) (i1 ++ i2) = tget t (j1 ++ j2).
Proof.
  intros Ep E (V1 & V2 & V3 & V4 & R1 & R2). cbn [tget reshape]. f_equal. rewrite E. rewrite ravel_app by exact V1. rewrite R1, R2, Ep.
  rewrite <- ravel_app by exact V3. apply unravel_ravel, valid_app; auto.
Qed.
Lemma back_plain {A} p1 p2 n1 n2 (y y' : tensor A) : prod p1 = prod n1 -> prod p2 = prod n2 -> tshape y = n1 ++ n2 -> tshape y' = p1 ++ p2 ->
  (forall i1 i2 j1 j2, twin p1 p2 n1 n2 i1 i2 j1 j2 -> tget y' (i1 ++ i2) = tget y (j1 ++ j2)) -> teq (reshape (tshape y) y') y.
Proof.
  intros E1 E2 Ey Ey' H. apply (back_gen (p1 ++ p2)); auto; [rewrite Ey, !prod_app; congruence|].
  intros p q V1 V2 E. rewrite Ey in V2, E. apply Forall2_app_inv_r in V1. destruct V1 as (i1 & i2 & V1 & V1' & ->).
  apply Forall2_app_inv_r in V2. destruct V2 as (j1 & j2 & V2 & V2' & ->). apply H. rewrite !ravel_app, E2 in E by auto.
  pose proof (ravel_lt _ _ V1') as B1. pose proof (ravel_lt _ _ V2') as B2. rewrite E2 in B1.
  assert (ravel p1 i1 = ravel n1 j1) as E3 by (revert E B1 B2; generalize (prod n2), (ravel p1 i1), (ravel n1 j1), (ravel p2 i2), (ravel n2 j2); intros; nia).
  unfold twin. repeat split; auto. rewrite E3 in E. lia.
Qed.
Lemma insert_at_split l1 v l2 : insert_at (length l1) v (l1 ++ l2) = l1 ++ v :: l2.
Proof. unfold insert_at. rewrite firstn_app, skipn_app, Nat.sub_diag, firstn_all, skipn_all. cbn. rewrite app_nil_r. reflexivity. Qed.
Lemma insert_at_split' l1 v l2 n : n = length l1 -> insert_at n v (l1 ++ l2) = l1 ++ v :: l2.
Proof. intros ->. apply insert_at_split. Qed.
Lemma remove_at_split l1 v l2 : remove_at (length l1) (l1 ++ v :: l2) = l1 ++ l2.
Proof.
  unfold remove_at. rewrite firstn_app, Nat.sub_diag, firstn_all. cbn [firstn]. rewrite app_nil_r. f_equal.
  replace (S (length l1)) with (length (l1 ++ [v])) by (rewrite app_length; cbn; lia).
  replace (l1 ++ v :: l2) with ((l1 ++ [v]) ++ l2) by (rewrite <- app_assoc; reflexivity). rewrite skipn_app, Nat.sub_diag, skipn_all. reflexivity.
Qed.

(** the packing axis beside a paired axis *)
Definition beside (m : list (nat * nat)) (d : nat) : Prop := In d (map fst m) \/ (0 < d /\ In (d - 1) (map fst m)).
Lemma lookup_complete m d : In d (map fst m) -> exists y, lookup m d = Some y.
Proof. induction m as [|[a b] m IH]; cbn; [intros []|]. intros [->|H]; [rewrite Nat.eqb_refl; eauto|]. destruct (a =? d); eauto. Qed.
Lemma new_position_marked a b m d : walk a b 0 0 m -> beside m d ->
  exists x a1 a2 b1 b2, new_position m d = Some x /\ a = a1 ++ a2 /\ b = b1 ++ b2 /\ length a1 = d /\ length b1 = x /\
    filter ne1 a1 = filter ne1 b1 /\ filter ne1 a2 = filter ne1 b2.
Proof.
  intros W Hb. unfold new_position. destruct (lookup m d) as [y|] eqn:E.
  - apply lookup_In in E. destruct (walk_split _ _ _ _ _ W _ _ E) as (a1 & a2 & b1 & b2 & v & -> & -> & -> & -> & E1 & E2).
    exists (length b1), a1, (v :: a2), b1, (v :: b2). cbn [Nat.add filter]. rewrite E2. repeat split; auto.
  - assert (0 < d /\ In (d - 1) (map fst m)) as [Hd Hin].
    { destruct Hb as [H|H]; [|exact H]. apply lookup_complete in H. destruct H as [y Hy]. congruence. }
    destruct (Nat.eqb_spec d 0); [lia|]. destruct (lookup_complete _ _ Hin) as [y Ey]. rewrite Ey.
    apply lookup_In in Ey. destruct (walk_split _ _ _ _ _ W _ _ Ey) as (a1 & a2 & b1 & b2 & v & -> & -> & Ed & -> & E1 & E2).
    exists (length b1 + 1), (a1 ++ [v]), a2, (b1 ++ [v]), b2. rewrite <- !app_assoc, !app_length, !filter_app, E1. cbn in *. repeat split; auto; lia.
Qed.

Lemma app_inj_len {D} (a a' b b' : list D) : a ++ b = a' ++ b' -> length a = length a' -> a = a' /\ b = b'.
Proof. revert a'; induction a as [|x a IH]; intros [|x' a'] E L; cbn in *; try lia; [auto|]. inversion E; subst. destruct (IH a') as [-> ->]; auto. Qed.
Lemma prev_marked a s ax P N s1 d s2 : pos s -> s = s1 ++ d :: s2 -> length s1 = ax -> cand_prev KOther (Some ax) a s = Some (P, N) ->
  exists p1 p2, marked P N p1 p2 s1 s2.
Proof.
  intros Hp Es La H. assert (ax < length s) as Hax by (rewrite Es, mid_length; lia).
  destruct (offered_marked ax s [s] [] P N Hp Hax) as (p1 & p2 & M).
  - intros b [<-|[]]. exists (nth ax s 0). split; [unfold pos in Hp; rewrite Forall_forall in Hp; apply Hp, nth_In, Hax|symmetry; apply upd_same, Hax].
  - intros o [].
  - left. exists a, s. split; [left; reflexivity|exact H].
  - exists p1, p2. pose proof (split_at _ _ Hax) as E. rewrite Es in E at 1. destruct (app_split_inj _ _ _ _ _ _ E) as (-> & _ & ->); [rewrite firstn_length; lia|]. exact M.
Qed.
Lemma next_marked b s ax P N s1 d s2 : pos s -> s = s1 ++ d :: s2 -> length s1 = ax -> cand_next KOther (Some ax) s b = Some (P, N) ->
  exists p1 p2, marked P N p1 p2 s1 s2.
Proof.
  intros Hp Es La H. assert (ax < length s) as Hax by (rewrite Es, mid_length; lia).
  destruct (offered_marked ax s [] [s] P N Hp Hax) as (p1 & p2 & M).
  - intros o [].
  - intros o [<-|[]]. exists (nth ax s 0). symmetry; apply upd_same, Hax.
  - right. exists s, b. split; [left; reflexivity|exact H].
  - exists p1, p2. pose proof (split_at _ _ Hax) as E. rewrite Es in E at 1. destruct (app_split_inj _ _ _ _ _ _ E) as (-> & _ & ->); [rewrite firstn_length; lia|]. exact M.
Qed.
(** the packing axis placed beside a paired axis *)
Lemma inserted_marked a b m ax x s1 s2 : pos s1 -> pos s2 -> a = s1 ++ s2 -> length s1 = ax -> walk a b 0 0 m -> beside m ax -> new_position m ax = Some x ->
  exists p1 p2, marked (insert_at x 0 b) (insert_at ax 0 a) p1 p2 s1 s2.
Proof.
  intros H1 H2 Ea La W Hb Ex. destruct (new_position_marked _ _ _ _ W Hb) as (x' & a1 & a2 & b1 & b2 & Ex' & Ea' & -> & La1 & Lb1 & E1 & E2).
  rewrite Ex in Ex'. inversion Ex'; subst x'. rewrite Ea in Ea'. destruct (app_inj_len _ _ _ _ Ea') as [<- <-]; [lia|].
  exists b1, b2. split; auto.
  - apply insert_at_split'. auto.
  - rewrite Ea. apply insert_at_split'. auto.
  - apply (filter_pos b1 s1); auto.
  - apply (filter_pos b2 s2); auto.
Qed.

Lemma unpack_moved {A} ax (x : tensor A) P N : pos (tshape x) -> ax < length (tshape x) ->
  (exists a, cand_prev KUnpack (Some ax) a (tshape x) = Some (P, N)) \/
  (exists b m, is_simple_reshape (remove_at ax (tshape x)) b = Some m /\ beside m ax /\ cand_next KUnpack (Some ax) (remove_at ax (tshape x)) b = Some (P, N)) ->
  exists ax' x', rp_axis P = Some ax' /\ rp_operand KUnpack P N x = Some x' /\
    forall j, j < nth ax (tshape x) 0 -> rp_recorded KUnpack P (tshape (unpack ax j x)) = Some (tshape (unpack ax' j x')) /\
      teq (reshape (tshape (unpack ax j x)) (unpack ax' j x')) (unpack ax j x).
Proof.
  intros Hp Hax Hof. destruct (split_ex _ _ Hax) as (s1 & d & s2 & Es & La & _).
  pose proof Hp as Hp'. rewrite Es in Hp'. apply pos_app in Hp'. destruct Hp' as [Hp1 Hp2]. apply pos_cons in Hp2. destruct Hp2 as [Hd Hp2].
  assert (remove_at ax (tshape x) = s1 ++ s2) as Er by (rewrite Es, <- La; apply remove_at_split).
  assert (exists p1 p2, marked P N p1 p2 s1 s2) as (p1 & p2 & M).
  { destruct Hof as [(a & H)|(b & m & Em & Hb & H)].
    - apply (prev_marked a (tshape x) ax P N s1 d s2); auto.
    - unfold cand_next in H. rewrite Em in H. cbn [obind] in H.
      destruct (new_position_marked _ _ _ _ (is_simple_walk _ _ _ Em) Hb) as (v & ? & ? & ? & ? & Ev & _). rewrite Ev in H. inversion H; subst P N.
      apply (inserted_marked _ b m ax v s1 s2); auto. apply is_simple_walk, Em. }
  exists (length p1), (reshape (p1 ++ d :: p2) x). split; [apply (axis_marked _ _ _ _ _ _ M)|].
  split; [exact (operand_marked _ _ _ _ _ _ _ _ M Hd Es)|].
  destruct (marked_prods _ _ _ _ _ _ M) as [E1 E2].
  intros j Hj. rewrite Es, <- La, nth_mid in Hj. cbn [tshape unpack reshape]. rewrite Er, remove_at_split. split.
  - unfold rp_recorded. rewrite (mk_P _ _ _ _ _ _ M), unmarked_mid by apply M. rewrite where_pos by (apply pos_app; split; apply M).
    rewrite !prod_app, E1, E2, Nat.eqb_refl. reflexivity.
  - assert (tshape (unpack ax j x) = s1 ++ s2) as Eu by exact Er. rewrite <- Eu. apply (back_plain p1 p2 s1 s2); auto; [cbn [tshape unpack reshape]; apply remove_at_split|].
    intros i1 i2 j1 j2 T. destruct (twin_length _ _ _ _ _ _ _ _ T) as (L1 & L2 & _). cbn [tget unpack].
    rewrite (insert_at_split' i1) by auto. rewrite (insert_at_split' j1) by congruence. apply (read_twin p1 p2 s1 s2 d); auto.
Qed.

Lemma walk_flip a b i j m : walk a b i j m -> walk b a j i (flipped m).
Proof. intros H; induction H; [apply W_nil|apply W_match|apply W_r|apply W_l]; auto. Qed.
Lemma pack_moved {A} (dv : A) ax s ts P N : ts <> [] -> pos s -> ax <= length s -> Forall (fun t => tshape t = s) ts ->
  (exists a m, is_simple_reshape a s = Some m /\ beside (flipped m) ax /\ cand_prev KPack (Some ax) a s = Some (P, N)) \/
  (exists b, cand_next KPack (Some ax) (tshape (pack dv ax ts)) b = Some (P, N)) ->
  exists ax' ts', rp_axis P = Some ax' /\ Forall2 (fun t t' => rp_operand KPack P N t = Some t') ts ts' /\
    restored P (pack dv ax' ts') (pack dv ax ts).
Proof.
  intros Hne Hp Hax Hts Hof.
  assert (exists s1 s2, s = s1 ++ s2 /\ length s1 = ax) as (s1 & s2 & Es & La) by (exists (firstn ax s), (skipn ax s); rewrite firstn_skipn, firstn_length; split; auto; lia).
  pose proof Hp as Hp'. rewrite Es in Hp'. apply pos_app in Hp'. destruct Hp' as [Hp1 Hp2].
  assert (tshape (pack dv ax ts) = s1 ++ length ts :: s2) as Eo.
  { destruct ts as [|t ts]; [congruence|]. cbn [pack tshape]. inversion Hts; subst. match goal with H : tshape t = _ |- _ => rewrite H end. apply insert_at_split. }
  assert (0 < length ts) as Hlen by (destruct ts; [congruence|cbn; lia]).
  assert (exists p1 p2, marked P N p1 p2 s1 s2) as (p1 & p2 & M).
  { destruct Hof as [(a & m & Em & Hb & H)|(b & H)].
    - unfold cand_prev in H. rewrite Em in H. cbn [obind] in H.
      assert (walk s a 0 0 (flipped m)) as W.
      { apply is_simple_walk in Em. apply walk_flip, Em. }
      destruct (new_position_marked _ _ _ _ W Hb) as (v & ? & ? & ? & ? & Ev & _). rewrite Ev in H. inversion H; subst P N.
      apply (inserted_marked s a (flipped m) ax v s1 s2); auto.
    - apply (next_marked b (tshape (pack dv ax ts)) ax P N s1 (length ts) s2); auto.
      rewrite Eo. apply pos_app. split; auto. apply pos_cons. auto. }
  destruct (marked_prods _ _ _ _ _ _ M) as [E1 E2].
  exists (length p1), (map (reshape (p1 ++ p2)) ts). split; [apply (axis_marked _ _ _ _ _ _ M)|]. split.
  { clear Hof Hne Eo Hlen. induction ts as [|t ts IH]; cbn [map]; constructor; [|inversion Hts; subst; auto].
    inversion Hts as [|? ? Ht _]; subst. unfold rp_operand, align. rewrite (mk_P _ _ _ _ _ _ M), unmarked_mid by apply M. rewrite Ht, !prod_app, E1, E2, Nat.eqb_refl. cbn [obind].
    unfold np_reshape. rewrite Ht, !prod_app, E1, E2, Nat.eqb_refl. reflexivity. }
  apply (restore P N p1 p2 s1 s2 (length ts)); auto.
  - destruct ts as [|t ts]; [congruence|]. cbn [map pack tshape length]. rewrite map_length. cbn [tshape reshape]. apply insert_at_split.
  - intros i1 i2 j1 j2 k T Hk. destruct (twin_length _ _ _ _ _ _ _ _ T) as (L1 & L2 & _). cbn [tget pack].
    rewrite <- L1, nth_mid, remove_at_split. rewrite <- La, <- L2, nth_mid, remove_at_split.
    rewrite (nth_indep (map (reshape (p1 ++ p2)) ts) _ (reshape (p1 ++ p2) (mkT [] (fun _ => dv)))) by (rewrite map_length; exact Hk). rewrite map_nth.
    apply (read_plain p1 p2 s1 s2); auto. rewrite <- Es. rewrite Forall_forall in Hts. apply Hts, nth_In, Hk.
Qed.
