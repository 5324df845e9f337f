(** Proofs about the passes that replace transposes by reshapes. *)
From Coq Require Import List Arith Bool Lia Permutation Sorted.
From Verif Require Import Tensor ChainModel ChainProofs ReshapeProofs LowerProofs PassProofs PassReshapeProofs PassWrapModel PassWrapSpec LayoutSpec.
Import ListNotations.

(** ** Row-major positions ignore axes of size one *)

Lemma sel_cons s k l : sel s (k :: l) = nth k s 0 :: sel s l.
Proof. reflexivity. Qed.
Lemma prod_skip s l : prod (sel s l) = prod (sel s (filter (nonunit s) l)).
Proof.
  induction l as [|k l IH]; [reflexivity|]. cbn [filter]. unfold nonunit at 1. rewrite sel_cons. cbn [prod]. rewrite IH.
  destruct (Nat.eqb_spec (nth k s 0) 1) as [E|E]; cbn [negb].
  - rewrite E. lia.
  - reflexivity.
Qed.
Lemma ravel_skip s j l : valid s j -> Forall (fun k => k < length s) l ->
  ravel (sel s l) (sel j l) = ravel (sel s (filter (nonunit s) l)) (sel j (filter (nonunit s) l)).
Proof.
  intros V. induction l as [|k l IH]; intros HF; [reflexivity|]. inversion HF; subst.
  cbn [filter]. rewrite !sel_cons. cbn [ravel]. rewrite IH by auto.
  destruct (nonunit s k) eqn:N; [|unfold nonunit in N; apply negb_false_iff, Nat.eqb_eq in N; rename N into E].
  2: pose proof (valid_nth _ _ k V H1) as Hk; rewrite E in Hk; replace (nth k j 0) with 0 by lia; reflexivity.
  rewrite !sel_cons. cbn [ravel]. rewrite (prod_skip s l). reflexivity.
Qed.

Lemma order_prod s l : keeps_order s l -> prod (sel s l) = prod s.
Proof. intros H. rewrite prod_skip, H, <- prod_skip, sel_seq. reflexivity. Qed.
Lemma order_ravel s l j : keeps_order s l -> Forall (fun k => k < length s) l -> valid s j ->
  ravel (sel s l) (sel j l) = ravel s j.
Proof.
  intros H HF V. rewrite ravel_skip, H, <- ravel_skip; auto.
  - rewrite sel_seq. rewrite <- (valid_length _ _ V), sel_seq. reflexivity.
  - apply Forall_forall. intros k Hk. apply in_seq in Hk. lia.
Qed.

(** A tensor whose axes are the axes [l] of [t] is a reshape of it when the axes that are not of
    size one are all there, in order. *)
Lemma view_unique {A} (t y : tensor A) l : keeps_order (tshape t) l -> Forall (fun k => k < length (tshape t)) l ->
  tshape y = sel (tshape t) l -> (forall j, valid (tshape t) j -> tget y (sel j l) = tget t j) ->
  teq y (reshape (sel (tshape t) l) t).
Proof.
  intros H HF HS HG. split; [exact HS|]. intros idx V. rewrite HS in V.
  pose proof (ravel_lt _ _ V) as Hlt. rewrite (order_prod _ _ H) in Hlt.
  set (j := unravel (tshape t) (ravel (sel (tshape t) l) idx)).
  assert (Vj : valid (tshape t) j) by (apply unravel_valid; exact Hlt).
  assert (E : sel j l = idx).
  { assert (Vl : valid (sel (tshape t) l) (sel j l)) by (apply valid_sel; auto).
    rewrite <- (unravel_ravel _ _ Vl), <- (unravel_ravel _ _ V). f_equal.
    rewrite (order_ravel _ _ _ H HF Vj). unfold j. apply ravel_unravel. exact Hlt. }
  rewrite <- E, (HG _ Vj). cbn. unfold j in E |- *. rewrite E. reflexivity.
Qed.
Lemma view_get {A} (t : tensor A) l j : keeps_order (tshape t) l -> Forall (fun k => k < length (tshape t)) l ->
  valid (tshape t) j -> tget (reshape (sel (tshape t) l) t) (sel j l) = tget t j.
Proof. intros H HF V. cbn. rewrite order_ravel, unravel_ravel; auto. Qed.

(** Sorted axes that cover the non-unit ones keep the order. *)
Lemma sorted_filter (P : nat -> bool) l : StronglySorted le l -> StronglySorted le (filter P l).
Proof.
  induction 1 as [|x l HS IH HF]; cbn; [constructor|]. destruct (P x); auto. constructor; auto.
  rewrite Forall_forall in *. intros k Hk. apply filter_In in Hk. apply HF, Hk.
Qed.
Lemma order_intro s l : StronglySorted le (filter (nonunit s) l) -> NoDup l -> Forall (fun k => k < length s) l ->
  (forall k, k < length s -> nonunit s k = true -> In k l) -> keeps_order s l.
Proof.
  intros HS HN HF HC. unfold keeps_order. apply sorted_perm_eq; auto.
  - apply sorted_filter, seq_sorted.
  - apply NoDup_Permutation; try (apply NoDup_filter; auto; apply seq_NoDup).
    intros k. rewrite !filter_In, in_seq. rewrite Forall_forall in HF. split; intros [H1 H2]; split; auto.
    + specialize (HF _ H1). lia.
    + apply HC; [lia|exact H2].
Qed.

(** ** Transposes as reshapes *)

Lemma list_map_ext {B} (f g : nat -> B) l : map f l = map g l -> forall k, In k l -> f k = g k.
Proof. induction l; cbn; intros E k Hk; [tauto|]. inversion E. destruct Hk as [<-|Hk]; auto. Qed.

Lemma without_ones_sel s l : without_ones (sel s l) = sel s (filter (nonunit s) l).
Proof.
  induction l as [|k l IH]; [reflexivity|]. cbn [sel map filter without_ones]. unfold nonunit at 1.
  destruct (nth k s 0 =? 1); cbn; [exact IH|]. f_equal. exact IH.
Qed.

Lemma flatten_same {A} (t u : tensor A) : tshape t = tshape u -> (flatten t = flatten u <-> teq t u).
Proof.
  intros HS. unfold flatten. rewrite <- HS. split.
  - intros E. split; [exact HS|]. intros idx V.
    pose proof (list_map_ext _ _ _ E (ravel (tshape t) idx)) as H. cbv beta in H. rewrite unravel_ravel in H by auto. apply H.
    apply in_seq. pose proof (ravel_lt _ _ V). lia.
  - intros [_ H]. apply map_ext_in. intros n Hn. apply in_seq in Hn. apply H. apply unravel_valid. lia.
Qed.
Lemma flatten_reshape {A} s (t : tensor A) : prod s = prod (tshape t) -> flatten (reshape s t) = flatten t.
Proof.
  intros E. unfold flatten. cbn. rewrite E. apply map_ext_in. intros n Hn. apply in_seq in Hn.
  rewrite ravel_unravel; [reflexivity|]. rewrite E. lia.
Qed.

(** what a reshape of positions gives, a reshape of anything gives. *)
Lemma arange_any {A} s p (t : tensor A) : is_perm (length s) p -> tshape t = s ->
  teq (transpose p (arange s)) (reshape (sel s p) (arange s)) -> teq (transpose p t) (reshape (sel s p) t).
Proof.
  intros Hp HS [_ H]. split; [cbn; rewrite HS; reflexivity|]. intros idx V. cbn in V, H |- *. rewrite HS in *.
  specialize (H idx V).
  pose proof (valid_transpose_inv _ _ _ Hp V) as V1.
  assert (Hlt : ravel (sel s p) idx < prod s).
  { pose proof (ravel_lt _ _ V) as L. rewrite (prod_perm (sel s p) s) in L; auto. apply (selb_perm 0 s p Hp). }
  rewrite ravel_unravel in H by exact Hlt.
  rewrite <- H, unravel_ravel by exact V1. reflexivity.
Qed.

Lemma same_reshape {A} s p (t : tensor A) : is_perm (length s) p -> tshape t = s ->
  transpose_same_as_reshape s (sel s p) p = true -> teq (transpose p t) (reshape (sel s p) t).
Proof.
  intros Hp HS H. unfold transpose_same_as_reshape in H. destruct (list_eqb (without_ones s) (without_ones (sel s p))); [|discriminate].
  apply list_eqb_spec in H. apply arange_any; auto.
  apply (flatten_same (transpose p (arange s)) (reshape (sel s p) (arange s)) eq_refl). rewrite flatten_reshape; auto.
  cbn. apply prod_perm. apply (selb_perm 0 s p Hp).
Qed.

Lemma order_same s p : is_perm (length s) p -> keeps_order s p -> transpose_same_as_reshape s (sel s p) p = true.
Proof.
  intros Hp H. unfold transpose_same_as_reshape.
  assert (E : without_ones s = without_ones (sel s p)).
  { rewrite without_ones_sel, H, <- without_ones_sel, sel_seq. reflexivity. }
  apply list_eqb_spec in E. rewrite E. apply list_eqb_spec.
  rewrite <- (flatten_reshape (sel s p) (arange s)) by (cbn; apply prod_perm; apply (selb_perm 0 s p Hp)).
  apply flatten_same; [reflexivity|].
  apply (view_unique (arange s)); auto.
  - apply is_perm_Forall. exact Hp.
  - intros j V. apply transpose_spec; auto.
Qed.

(** positions of the indices with a single one. *)
Definition unit_at (n k : nat) : list nat := map (fun i => if i =? k then 1 else 0) (seq 0 n).
Lemma unit_at_nth n k i : nth i (unit_at n k) 0 = if (i =? k) && (i <? n) then 1 else 0.
Proof.
  unfold unit_at. destruct (Nat.ltb_spec i n) as [H|H].
  - rewrite nth_map_seq by exact H. rewrite andb_true_r. reflexivity.
  - rewrite nth_overflow by (rewrite map_length, seq_length; lia). rewrite andb_false_r. reflexivity.
Qed.
Lemma unit_at_valid s k : Forall (fun d => 0 < d) s -> nonunit s k = true -> k < length s -> valid s (unit_at (length s) k).
Proof.
  intros HF H Hk. apply valid_intro; [unfold unit_at; rewrite map_length, seq_length; reflexivity|].
  intros i Hi. rewrite unit_at_nth. apply Nat.ltb_lt in Hi as Hi'. rewrite Hi', andb_true_r.
  rewrite Forall_forall in HF. assert (0 < nth i s 0) by (apply HF, nth_In; exact Hi).
  destruct (Nat.eqb_spec i k) as [->|]; auto. unfold nonunit in H. apply negb_true_iff, Nat.eqb_neq in H. lia.
Qed.
Lemma ravel_unit s j l k : NoDup l -> In k l -> (forall i, nth i j 0 = if i =? k then 1 else 0) ->
  ravel (sel s l) (sel j l) = prod (sel s (skipn (S (find_pos k l)) l)).
Proof.
  intros HN Hk Hj. induction l as [|x l IH]; [destruct Hk|]. inversion HN; subst. cbn [sel map ravel].
  rewrite Hj. destruct (Nat.eqb_spec x k) as [->|E].
  - cbn [find_pos]. rewrite Nat.eqb_refl. cbn [skipn]. fold (sel s l) (sel j l).
    assert (Z : ravel (sel s l) (sel j l) = 0).
    { clear IH HN Hk. induction l as [|y l IH]; [reflexivity|]. inversion H2; subst. cbn. rewrite Hj. destruct (Nat.eqb_spec y k) as [->|]; [destruct H1; left; auto|]. cbn. apply IH; auto. intros G; apply H1; right; auto. }
    rewrite Z. lia.
  - destruct Hk as [->|Hk]; [contradiction|]. cbn [find_pos]. apply Nat.eqb_neq in E. rewrite E. cbn [skipn]. cbn. apply IH; auto.
Qed.

Lemma find_pos_sorted l : NoDup l -> forall a b, In a l -> In b l -> find_pos a l < find_pos b l ->
  exists l1 l2 l3, l = l1 ++ a :: l2 ++ b :: l3 /\ find_pos a l = length l1 /\ find_pos b l = length (l1 ++ a :: l2).
Proof.
  intros HN a b Ha Hb Hlt.
  destruct (in_split _ _ Ha) as (l1 & r & E1).
  assert (P1 : find_pos a l = length l1).
  { rewrite E1. rewrite E1 in HN. clear - HN. induction l1 as [|x l1 IH]; cbn; [rewrite Nat.eqb_refl; auto|]. inversion HN; subst.
    destruct (Nat.eqb_spec x a) as [->|]; [destruct H1; apply in_or_app; right; left; auto|]. f_equal. auto. }
  assert (Hb2 : In b r).
  { rewrite E1 in Hb. apply in_app_or in Hb. destruct Hb as [Hb|[<-|Hb]]; auto; [exfalso|lia].
    rewrite P1 in Hlt. rewrite E1 in Hlt. clear - Hlt Hb. revert Hlt. induction l1 as [|x l1 IH]; [destruct Hb|]. cbn.
    destruct (Nat.eqb_spec x b); [lia|]. destruct Hb as [->|Hb]; [contradiction|]. intros H. apply IH; auto. lia. }
  destruct (in_split _ _ Hb2) as (l2 & l3 & E2). subst r. exists l1, l2, l3. split; [exact E1|]. split; [exact P1|].
  assert (HN2 : NoDup ((l1 ++ a :: l2) ++ b :: l3)) by (rewrite <- app_assoc; cbn; rewrite <- E1; exact HN).
  rewrite E1. rewrite app_comm_cons, app_assoc. revert HN2. generalize (l1 ++ a :: l2). intros m HM. clear - HM.
  induction m as [|x m IH]; cbn; [rewrite Nat.eqb_refl; auto|]. inversion HM; subst.
  destruct (Nat.eqb_spec x b) as [->|]; [destruct H1; apply in_or_app; right; left; auto|]. f_equal. auto.
Qed.

(** the stride of a later non-unit axis is strictly smaller. *)
Lemma stride_lt s l a b : NoDup l -> Forall (fun d => 0 < d) s -> Forall (fun k => k < length s) l -> In a l -> In b l -> nonunit s b = true ->
  find_pos a l < find_pos b l -> prod (sel s (skipn (S (find_pos b l)) l)) < prod (sel s (skipn (S (find_pos a l)) l)).
Proof.
  intros HN HF HL Ha Hb Hnb Hlt. destruct (find_pos_sorted l HN a b Ha Hb Hlt) as (l1 & l2 & l3 & E & P1 & P2).
  assert (S1 : skipn (S (find_pos a l)) l = l2 ++ b :: l3).
  { rewrite P1, E. replace (S (length l1)) with (length (l1 ++ [a])) by (rewrite app_length; cbn; lia).
    replace (l1 ++ a :: l2 ++ b :: l3) with ((l1 ++ [a]) ++ l2 ++ b :: l3) by (rewrite <- app_assoc; reflexivity).
    rewrite skipn_app, skipn_all, Nat.sub_diag. reflexivity. }
  assert (S2 : skipn (S (find_pos b l)) l = l3).
  { rewrite P2, E. replace (S (length (l1 ++ a :: l2))) with (length (l1 ++ a :: l2 ++ [b])) by (rewrite !app_length; cbn; rewrite app_length; cbn; lia).
    replace (l1 ++ a :: l2 ++ b :: l3) with ((l1 ++ a :: l2 ++ [b]) ++ l3) by (rewrite <- !app_assoc; cbn; rewrite <- !app_assoc; reflexivity).
    rewrite skipn_app, skipn_all, Nat.sub_diag. reflexivity. }
  rewrite S1, S2. rewrite sel_app, prod_app, sel_cons. cbn [prod].
  assert (Q1 : forall m, Forall (fun k => k < length s) m -> 0 < prod (sel s m)).
  { intros m Hm. apply prod_pos. apply Forall_forall. intros v Hv. unfold sel in Hv. apply in_map_iff in Hv. destruct Hv as (k & <- & Hk).
    rewrite Forall_forall in HF, Hm. apply HF, nth_In. auto. }
  rewrite E in HL. apply Forall_app in HL. destruct HL as [_ HL]. apply Forall_inv_tail in HL.
  apply Forall_app in HL. destruct HL as [L2 L3]. pose proof (Forall_inv L3) as Lb. apply Forall_inv_tail in L3.
  pose proof (Q1 _ L2). pose proof (Q1 _ L3).
  unfold nonunit in Hnb. apply negb_true_iff, Nat.eqb_neq in Hnb.
  assert (0 < nth b s 0) by (rewrite Forall_forall in HF; apply HF, nth_In; auto).
  assert (G : 2 <= nth b s 0) by lia. revert H H0 G. generalize (prod (sel s l2)) (prod (sel s l3)) (nth b s 0). intros x y z Hx Hy Hz. assert (y < z * y) by nia. nia.
Qed.

Lemma reshape_order s p : is_perm (length s) p -> Forall (fun d => 0 < d) s ->
  teq (transpose p (arange s)) (reshape (sel s p) (arange s)) -> keeps_order s p.
Proof.
  intros Hp HF [_ H]. pose proof (is_perm_NoDup _ _ Hp) as HN. pose proof (is_perm_Forall _ _ Hp) as HL.
  assert (R : forall j, valid s j -> ravel (sel s p) (sel j p) = ravel s j).
  { intros j V. assert (V1 : valid (sel s p) (sel j p)) by (apply valid_sel; auto).
    specialize (H _ V1). cbn in H. rewrite ravel_unravel in H.
    - rewrite <- H. rewrite sel_inv_r; auto. rewrite (valid_length _ _ V). exact Hp.
    - rewrite <- (prod_perm (sel s p) s) by (apply (selb_perm 0 s p Hp)). apply ravel_lt. exact V1. }
  assert (St : forall k, k < length s -> nonunit s k = true ->
    prod (sel s (skipn (S (find_pos k p)) p)) = prod (sel s (skipn (S k) (seq 0 (length s))))).
  { intros k Hk Hn. pose proof (R _ (unit_at_valid s k HF Hn Hk)) as E.
    assert (Hj : forall i, nth i (unit_at (length s) k) 0 = if i =? k then 1 else 0).
    { intros i. rewrite unit_at_nth. destruct (Nat.eqb_spec i k) as [->|]; cbn [andb]; auto. apply Nat.ltb_lt in Hk. rewrite Hk. reflexivity. }
    rewrite (ravel_unit s _ p k HN) in E; [|apply (is_perm_in _ _ k Hp); exact Hk|exact Hj].
    rewrite E. rewrite <- (sel_seq s) at 1.
    assert (EL : unit_at (length s) k = sel (unit_at (length s) k) (seq 0 (length s))).
    { assert (L : length (unit_at (length s) k) = length s) by (unfold unit_at; rewrite map_length, seq_length; reflexivity).
      rewrite <- L at 3. rewrite sel_seq. reflexivity. }
    rewrite EL. rewrite (ravel_unit s _ (seq 0 (length s)) k); auto; [|apply seq_NoDup|apply in_seq; lia].
    f_equal. f_equal. f_equal. f_equal. replace k with (nth k (seq 0 (length s)) 0) at 1 by (rewrite seq_nth; auto).
    apply find_pos_nth; [apply seq_NoDup|rewrite seq_length; exact Hk]. }
  apply order_intro; auto.
  2:{ intros k Hk _. apply (is_perm_in _ _ k Hp). exact Hk. }
  (* two non-unit axes of p come in increasing order *)
  assert (Inc : forall a b, In a p -> In b p -> nonunit s a = true -> nonunit s b = true -> find_pos a p < find_pos b p -> a < b).
  { intros a b Ha Hb Na Nb Hlt. rewrite Forall_forall in HL. pose proof (HL _ Ha) as La. pose proof (HL _ Hb) as Lb.
    destruct (Nat.lt_trichotomy a b) as [L|[->|L]]; auto; [lia|exfalso].
    pose proof (stride_lt s p a b HN HF ltac:(apply Forall_forall; auto) Ha Hb Nb Hlt) as G1.
    assert (FP : forall k, k < length s -> find_pos k (seq 0 (length s)) = k).
    { intros k Hk. replace k with (nth k (seq 0 (length s)) 0) at 1 by (rewrite seq_nth; auto). apply find_pos_nth; [apply seq_NoDup|rewrite seq_length; exact Hk]. }
    pose proof (stride_lt s (seq 0 (length s)) b a (seq_NoDup _ _) HF) as G2.
    rewrite (FP a La), (FP b Lb) in G2.
    assert (G3 : prod (sel s (skipn (S a) (seq 0 (length s)))) < prod (sel s (skipn (S b) (seq 0 (length s))))).
    { apply G2; auto. - apply Forall_forall. intros k Hk. apply in_seq in Hk. lia. - apply in_seq; lia. - apply in_seq; lia. }
    rewrite (St a La Na), (St b Lb Nb) in G1. lia. }
  clear - HN Inc. induction p as [|x p IH]; cbn; [constructor|]. inversion HN; subst.
  assert (IHs : StronglySorted le (filter (nonunit s) p)).
  { apply IH; auto. intros a b Ha Hb Na Nb Hlt. apply Inc; cbn; auto.
    destruct (Nat.eqb_spec x a) as [->|]; [contradiction|]. destruct (Nat.eqb_spec x b) as [->|]; [contradiction|]. lia. }
  destruct (nonunit s x) eqn:Nx; auto. constructor; auto. apply Forall_forall. intros k Hk. apply filter_In in Hk. destruct Hk as [Hk Nk].
  apply Nat.lt_le_incl. apply Inc; cbn; auto. rewrite Nat.eqb_refl. destruct (Nat.eqb_spec x k) as [->|]; [contradiction|]. lia.
Qed.

Lemma transpose_reshape_iff s p : is_perm (length s) p -> Forall (fun d => 0 < d) s ->
  (transpose_same_as_reshape s (sel s p) p = true <-> keeps_order s p) /\
  (transpose_same_as_reshape s (sel s p) p = true <->
   forall A (t : tensor A), tshape t = s -> teq (transpose p t) (reshape (sel s p) t)).
Proof.
  intros Hp HF. split; split; intros H.
  - apply reshape_order; auto. apply same_reshape; auto.
  - apply order_same; auto.
  - intros A t Ht. apply same_reshape; auto.
  - apply order_same; auto. apply reshape_order; auto.
Qed.

(** ** A reshape between two transposes *)

Lemma without_ones_axes s : without_ones s = sel s (filter (nonunit s) (seq 0 (length s))).
Proof. rewrite <- without_ones_sel, sel_seq. reflexivity. Qed.

Lemma squeeze_view {A} (y : tensor A) P M Q :
  is_perm (length (tshape y)) P -> NoDup M -> Forall (fun k => k < length P) M -> keeps_order (sel (tshape y) P) M ->
  is_perm (length M) Q -> StronglySorted le (filter (nonunit (tshape y)) (sel (sel P M) Q)) ->
  teq (wrapped P (sel (sel (tshape y) P) M) Q y) (reshape (sel (sel (sel (tshape y) P) M) Q) y).
Proof.
  intros HP HN HM HO HQ HS. set (s := tshape y) in *. pose proof (is_perm_length _ _ HP) as LP.
  pose proof (is_perm_length _ _ HQ) as LQ.
  assert (FQ : Forall (fun k => k < length (sel P M)) Q) by (rewrite sel_length; apply is_perm_Forall; exact HQ).
  assert (EL : forall l, sel (sel (sel l P) M) Q = sel l (sel (sel P M) Q)).
  { intros l. rewrite (sel_sel l P M HM). apply sel_sel. exact FQ. }
  assert (NL : NoDup (sel (sel P M) Q)).
  { unfold sel at 1. apply NoDup_map_inj; [|apply (is_perm_NoDup _ _ HQ)].
    intros a b Ha Hb E. apply (is_perm_in _ _ _ HQ) in Ha. apply (is_perm_in _ _ _ HQ) in Hb.
    rewrite !sel_nth in E by auto. rewrite Forall_forall in HM.
    assert (nth a M 0 = nth b M 0).
    { rewrite <- (find_pos_nth (nth a M 0) P), <- (find_pos_nth (nth b M 0) P); try apply (is_perm_NoDup _ _ HP); try (apply HM, nth_In; auto). rewrite E. reflexivity. }
    rewrite <- (find_pos_nth a M), <- (find_pos_nth b M); auto. rewrite H. reflexivity. }
  assert (FL : Forall (fun k => k < length s) (sel (sel P M) Q)).
  { apply Forall_forall. intros k Hk. unfold sel at 1 in Hk. apply in_map_iff in Hk. destruct Hk as (i & <- & Hi).
    rewrite Forall_forall in FQ. specialize (FQ _ Hi). rewrite sel_length in FQ. rewrite sel_nth by exact FQ.
    apply (is_perm_in _ _ _ HP). apply nth_In. rewrite Forall_forall in HM. apply HM, nth_In. exact FQ. }
  assert (KO : keeps_order s (sel (sel P M) Q)).
  { apply order_intro; auto. intros k Hk Hn.
    assert (Hi : In k P) by (apply (is_perm_in _ _ _ HP); exact Hk).
    pose proof (find_pos_lt _ _ Hi) as Hlt. pose proof (nth_find_pos _ _ Hi) as Hnth. set (i := find_pos k P) in *.
    assert (HiM : In i M).
    { assert (G : In i (filter (nonunit (sel s P)) M)).
      { rewrite HO. apply filter_In. split; [apply in_seq; rewrite sel_length; lia|]. unfold nonunit. rewrite sel_nth by exact Hlt. rewrite Hnth. exact Hn. }
      apply filter_In in G. apply G. }
    pose proof (find_pos_lt _ _ HiM) as Hlt2. pose proof (nth_find_pos _ _ HiM) as Hnth2.
    unfold sel at 1. apply in_map_iff. exists (find_pos i M). split.
    - rewrite sel_nth by exact Hlt2. rewrite Hnth2. exact Hnth.
    - apply (is_perm_in _ _ _ HQ). exact Hlt2. }
  rewrite EL. apply view_unique; auto.
  - unfold wrapped. cbn. apply EL.
  - intros j V. fold s in V.
    assert (V1 : valid (sel s P) (sel j P)) by (apply valid_sel; auto; apply is_perm_Forall; exact HP).
    assert (FM : Forall (fun k => k < length (sel s P)) M) by (rewrite sel_length; exact HM).
    unfold wrapped. rewrite <- EL.
    rewrite (transpose_get Q _ (sel (sel j P) M) (length M)); [|exact HQ|apply sel_length].
    transitivity (tget (transpose P y) (sel j P)).
    + apply (view_get (transpose P y) M (sel j P)); auto.
    + apply transpose_spec; auto.
Qed.

(** *** The matching of sizes in reshapes of the same rank *)

Lemma pop_size_spec d avail k avail' : pop_size d avail = Some (k, avail') ->
  exists l1 l2, avail = l1 ++ (d, k) :: l2 /\ avail' = l1 ++ l2 /\ Forall (fun vi => fst vi <> d) l1.
Proof.
  revert k avail'; induction avail as [|[v i] rest IH]; intros k avail' H; cbn in H; [discriminate|].
  destruct (Nat.eqb_spec v d) as [->|N].
  - inversion H; subst. exists [], avail'. repeat split; auto.
  - destruct (pop_size d rest) as [[k' r']|] eqn:E; [|discriminate]. inversion H; subst.
    destruct (IH _ _ eq_refl) as (l1 & l2 & -> & -> & F). exists ((v, i) :: l1), l2. repeat split; auto.
Qed.

(** all axes handed out are different, have the size asked for, and come from the table. *)
Lemma match_sizes_spec (f : nat -> nat) old : forall avail m, (forall v i, In (v, i) avail -> f i = v) -> NoDup (map snd avail) ->
  match_sizes old avail = Some m -> map f m = old /\ NoDup m /\ incl m (map snd avail).
Proof.
  induction old as [|d old IH]; intros avail m Hf HN H; cbn in H; [inversion H; subst; repeat split; [constructor|intros x []]|].
  destruct (pop_size d avail) as [[k avail']|] eqn:E; [|discriminate].
  destruct (match_sizes old avail') as [m'|] eqn:E2; [|discriminate]. inversion H; subst.
  destruct (pop_size_spec _ _ _ _ E) as (l1 & l2 & -> & -> & F).
  rewrite map_app in HN. cbn in HN. pose proof (NoDup_remove_1 _ _ _ HN) as HN1. pose proof (NoDup_remove_2 _ _ _ HN) as HN2.
  destruct (IH (l1 ++ l2) m') as (A1 & A2 & A3); auto.
  - intros v i Hi. apply Hf. apply in_app_or in Hi. apply in_or_app. destruct Hi; auto. right; right; auto.
  - rewrite map_app. exact HN1.
  - rewrite map_app in A3. split; [|split].
    + cbn. f_equal; auto. apply Hf. apply in_or_app. right; left; auto.
    + constructor; auto.
    + intros x [<-|Hx]; rewrite map_app; cbn; apply in_or_app; [right; left; auto|]. apply A3 in Hx. apply in_app_or in Hx. destruct Hx; auto. right; right; auto.
Qed.

(** entries of the sizes other than one that are not used up. *)
Definition left_over (avail : list (nat * nat)) : list (nat * nat) := filter (fun vi => negb (fst vi =? 1)) avail.
Lemma match_sizes_order (f : nat -> nat) old : forall avail m, (forall v i, In (v, i) avail -> f i = v) ->
  map fst (left_over avail) = without_ones old -> match_sizes old avail = Some m ->
  filter (fun k => negb (f k =? 1)) m = map snd (left_over avail).
Proof.
  induction old as [|d old IH]; intros avail m Hf E H; cbn in H.
  - inversion H; subst. cbn in *. apply map_eq_nil in E. rewrite E. reflexivity.
  - destruct (pop_size d avail) as [[k avail']|] eqn:E1; [|discriminate].
    destruct (match_sizes old avail') as [m'|] eqn:E2; [|discriminate]. inversion H; subst.
    destruct (pop_size_spec _ _ _ _ E1) as (l1 & l2 & -> & -> & F).
    assert (Hf' : forall v i, In (v, i) (l1 ++ l2) -> f i = v).
    { intros v i Hi. apply Hf. apply in_app_or in Hi. apply in_or_app. destruct Hi; auto. right; right; auto. }
    assert (Fk : f k = d) by (apply Hf; apply in_or_app; right; left; auto).
    cbn [filter]. rewrite Fk. unfold left_over in *. rewrite filter_app in E |- *. cbn [filter fst] in E |- *. cbn [without_ones filter] in E.
    destruct (Nat.eqb_spec d 1) as [->|N]; cbn [negb] in *.
    + rewrite (IH (l1 ++ l2) m'); auto; unfold left_over; rewrite filter_app; auto.
    + (* nothing of another size may stand before it *)
      assert (Z : filter (fun vi : nat * nat => negb (fst vi =? 1)) l1 = []).
      { destruct (filter (fun vi : nat * nat => negb (fst vi =? 1)) l1) as [|[v i] r] eqn:EL; auto. exfalso.
        rewrite map_app in E. cbn in E. inversion E. subst v.
        assert (G : In (d, i) l1). { assert (G : In (d, i) (filter (fun vi : nat * nat => negb (fst vi =? 1)) l1)) by (rewrite EL; left; auto). apply filter_In in G. apply G. }
        rewrite Forall_forall in F. specialize (F _ G). apply F. reflexivity. }
      rewrite Z in E |- *. cbn in E |- *. inversion E. f_equal.
      rewrite (IH (l1 ++ l2) m'); auto; unfold left_over; rewrite filter_app, Z; auto.
Qed.
Lemma match_sizes_defined old : forall avail, Permutation old (map fst avail) -> exists m, match_sizes old avail = Some m.
Proof.
  induction old as [|d old IH]; intros avail H; [exists []; reflexivity|]. cbn.
  assert (Hd : exists k avail', pop_size d avail = Some (k, avail')).
  { assert (Hi : In d (map fst avail)) by (apply (Permutation_in _ H); left; auto). clear - Hi.
    induction avail as [|[v i] rest IH2]; cbn in *; [tauto|]. destruct (Nat.eqb_spec v d); [eauto|].
    destruct Hi as [->|Hi]; [contradiction|]. destruct (IH2 Hi) as (k & r & ->). eauto. }
  destruct Hd as (k & avail' & E). rewrite E. destruct (pop_size_spec _ _ _ _ E) as (l1 & l2 & -> & -> & F).
  destruct (IH (l1 ++ l2)) as (m & ->); [|eexists; reflexivity].
  rewrite map_app in *. cbn in H. apply Permutation_cons_app_inv in H. exact H.
Qed.

Lemma ones_perm (a b : list nat) : without_ones a = without_ones b -> length a = length b -> Permutation a b.
Proof.
  intros E L.
  assert (G : forall l, Permutation l (without_ones l ++ repeat 1 (length l - length (without_ones l))) /\ length (without_ones l) <= length l).
  { induction l as [|x l [IH1 IH2]]; [split; [constructor|auto]|]. unfold without_ones in *. cbn [filter]. destruct (Nat.eqb_spec x 1) as [->|N]; cbn [negb length].
    - split; [|lia]. rewrite Nat.sub_succ_l by exact IH2. cbn [repeat]. apply Permutation_cons_app. exact IH1.
    - split; [|lia]. rewrite Nat.sub_succ. cbn. constructor. exact IH1. }
  destruct (G a) as [Ga _]. destruct (G b) as [Gb _]. rewrite Ga, Gb, E, L. reflexivity.
Qed.

Lemma combine_seq (l : list nat) (o : nat) v i : In (v, i) (combine l (seq o (length l))) -> o <= i /\ nth (i - o) l 0 = v /\ i < o + length l.
Proof.
  revert o; induction l as [|x l IH]; intros o; cbn; [tauto|]. intros [H|H].
  - inversion H; subst. rewrite Nat.sub_diag. split; [lia|split; [reflexivity|lia]].
  - apply IH in H. destruct H as (H1 & H2 & H3). split; [lia|]. split; [|lia]. replace (i - o) with (S (i - S o)) by lia. exact H2.
Qed.
Lemma combine_seq_left (l : list nat) o : map snd (left_over (combine l (seq o (length l)))) = filter (fun k => negb (nth (k - o) l 0 =? 1)) (seq o (length l)).
Proof.
  revert o; induction l as [|x l IH]; intros o; [reflexivity|]. cbn [length seq combine left_over filter fst]. rewrite Nat.sub_diag. change (nth 0 (x :: l) 0) with x.
  assert (E : filter (fun k => negb (nth (k - o) (x :: l) 0 =? 1)) (seq (S o) (length l)) = filter (fun k => negb (nth (k - S o) l 0 =? 1)) (seq (S o) (length l))).
  { apply filter_ext_in. intros k Hk. apply in_seq in Hk. replace (k - o) with (S (k - S o)) by lia. reflexivity. }
  rewrite E. specialize (IH (S o)). unfold left_over in IH. destruct (x =? 1); cbn; rewrite ?IH; reflexivity.
Qed.
Lemma combine_seq_fst (l : list nat) o : map fst (combine l (seq o (length l))) = l /\ map snd (combine l (seq o (length l))) = seq o (length l).
Proof. revert o; induction l as [|x l IH]; intros o; cbn; auto. destruct (IH (S o)) as [-> ->]. auto. Qed.
Lemma left_over_fst avail : map fst (left_over avail) = without_ones (map fst avail).
Proof. unfold left_over, without_ones. induction avail as [|[v i] r IH]; cbn; auto. destruct (v =? 1); cbn; rewrite ?IH; reflexivity. Qed.

Lemma same_rank_perm a b : without_ones a = without_ones b -> length a = length b ->
  exists m, match_sizes b (combine a (seq 0 (length a))) = Some m /\ is_perm (length a) m /\ sel a m = b /\ keeps_order a m.
Proof.
  intros E L. set (av := combine a (seq 0 (length a))). destruct (combine_seq_fst a 0) as [F1 F2]. fold av in F1, F2.
  assert (Hf : forall v i, In (v, i) av -> nth i a 0 = v).
  { intros v i Hi. apply combine_seq in Hi. rewrite Nat.sub_0_r in Hi. apply Hi. }
  destruct (match_sizes_defined b av) as (m & Em); [rewrite F1; symmetry; apply ones_perm; auto|].
  exists m. split; [exact Em|].
  destruct (match_sizes_spec (fun i => nth i a 0) b av m Hf) as (A1 & A2 & A3); auto; [rewrite F2; apply seq_NoDup|].
  split; [|split].
  - apply is_perm_intro; auto.
    + rewrite L, <- A1, map_length. reflexivity.
    + apply Forall_forall. intros k Hk. apply A3 in Hk. rewrite F2 in Hk. apply in_seq in Hk. lia.
  - exact A1.
  - unfold keeps_order, nonunit. rewrite (match_sizes_order (fun i => nth i a 0) b av m Hf); auto.
    + unfold av. rewrite (combine_seq_left a 0). apply filter_ext. intros k. rewrite Nat.sub_0_r. reflexivity.
    + rewrite left_over_fst, F1. exact E.
Qed.

Lemma keeps_order_perm_reshape {A} (t : tensor A) m : is_perm (length (tshape t)) m -> keeps_order (tshape t) m ->
  teq (reshape (sel (tshape t) m) t) (transpose m t).
Proof.
  intros Hm H. apply teq_sym. apply view_unique; auto.
  - apply is_perm_Forall. exact Hm.
  - intros j V. apply transpose_spec; auto.
Qed.

Lemma wrapped_same_rank {A} (t : tensor A) p b q sh :
  is_perm (length (tshape t)) p -> is_perm (length (tshape t)) q -> length b = length (tshape t) ->
  fuse_wrapped_reshape p (sel (tshape t) p) b q (sel b q) = Some (Some sh) ->
  teq (wrapped p b q t) t /\ sh = tshape t.
Proof.
  intros Hp Hq Lb H. set (s := tshape t) in *. set (a := sel s p) in *. pose proof (is_perm_length _ _ Hp) as Lp. pose proof (is_perm_length _ _ Hq) as Lq.
  assert (La : length a = length s) by (unfold a; rewrite sel_length; exact Lp).
  unfold fuse_wrapped_reshape in H. destruct (is_simple_reshape a b) as [mm|] eqn:Es; [|discriminate].
  assert (Ew : without_ones a = without_ones b) by (apply (proj1 (simple_reshape_correct a b)); eauto).
  destruct (same_rank_perm a b Ew ltac:(congruence)) as (m & Em & Pm & Sm & Om). rewrite La in Pm.
  assert (R : exists m', is_perm (length s) m' /\ sel a m' = b /\ keeps_order a m' /\ fuse_perms_extended p a b q = Some (sel (sel p m') q)).
  { unfold fuse_perms_extended. rewrite La, Lb, Nat.ltb_irrefl. destruct (list_eqb b a) eqn:Eb.
    - apply list_eqb_spec in Eb. exists (seq 0 (length s)). split; [apply is_perm_seq|]. split; [rewrite <- La, sel_seq; auto|].
      split; [unfold keeps_order; rewrite La; reflexivity|]. cbn. rewrite <- Lp, sel_seq. reflexivity.
    - exists m. repeat split; auto. rewrite Lb, La, Nat.eqb_refl. cbn [negb]. rewrite La in Em. rewrite Em. reflexivity. }
  destruct R as (m' & Pm' & Sm' & Om' & Ef). rewrite Ef in H. clear m Em Pm Sm Om.
  destruct (list_eqb (sel (sel p m') q) (np_sort (sel (sel p m') q))) eqn:El; [|discriminate]. inversion H; subst sh.
  assert (Ppm : is_perm (length s) (sel p m')) by (apply is_perm_sel; auto).
  assert (Pall : is_perm (length s) (sel (sel p m') q)) by (apply is_perm_sel; auto).
  pose proof (sorted_is_perm _ _ Pall El) as Eid.
  assert (T : teq (wrapped p b q t) t).
  { unfold wrapped. eapply teq_trans; [apply transpose_congr; [|apply (teq_trans _ (transpose m' (transpose p t)))]|].
    - cbn. rewrite Lb. exact Hq.
    - rewrite <- Sm'. apply (keeps_order_perm_reshape (transpose p t) m'); cbn; fold s a; auto. rewrite La. exact Pm'.
    - apply (transpose_transpose p m' t); auto.
    - eapply teq_trans; [apply transpose_transpose; cbn; auto|]. fold s. rewrite Eid. apply transpose_id. }
  split; [exact T|]. destruct T as [T _]. unfold wrapped in T. cbn in T. exact T.
Qed.

(** *** The matching in reshapes that change the rank *)

(** on axis numbers instead of entries of the permutation. *)
Lemma match_pass_map (f : nat -> nat) D : (forall x y, In x D -> In y D -> f x = f y -> x = y) ->
  forall pairs need found, incl (map snd pairs) D -> incl found D ->
  match_pass (map (fun vi => (fst vi, f (snd vi))) pairs) need (map f found) =
  (let '(n, g) := match_pass pairs need found in (n, map f g)) /\ incl (snd (match_pass pairs need found)) D.
Proof.
  intros Hf. induction pairs as [|[v i] r IH]; intros need found H1 H2; [split; [reflexivity|exact H2]|].
  cbn [map fst snd match_pass]. assert (Hi : In i D) by (apply H1; left; auto).
  assert (Hr : incl (map snd r) D) by (intros x Hx; apply H1; right; auto).
  assert (Ex : existsb (Nat.eqb (f i)) (map f found) = existsb (Nat.eqb i) found).
  { clear IH. induction found as [|x fd IHf]; [reflexivity|]. cbn. rewrite IHf by (intros z Hz; apply H2; right; auto). f_equal.
    assert (Hx : In x D) by (apply H2; left; auto).
    destruct (Nat.eqb_spec i x) as [->|N]; [apply Nat.eqb_refl|]. apply Nat.eqb_neq. intros G. apply N. apply Hf; auto. }
  rewrite Ex. destruct need as [|d need']; [apply IH; auto|].
  destruct ((v =? d) && negb (existsb (Nat.eqb i) found)); [|apply IH; auto].
  change (map f found ++ [f i]) with (map f found ++ map f [i]). rewrite <- map_app. apply IH; auto.
  intros x Hx. apply in_app_or in Hx. destruct Hx as [Hx|[<-|[]]]; auto.
Qed.
Lemma match_loop_map (f : nat -> nat) D : (forall x y, In x D -> In y D -> f x = f y -> x = y) ->
  forall fuel pairs need found, incl (map snd pairs) D -> incl found D ->
  match_loop fuel (map (fun vi => (fst vi, f (snd vi))) pairs) need (map f found) = option_map (map f) (match_loop fuel pairs need found).
Proof.
  intros Hf. induction fuel as [|fuel IH]; intros pairs need found H1 H2; cbn; [destruct need; reflexivity|].
  destruct need as [|d need]; [reflexivity|].
  destruct (match_pass_map f D Hf pairs (d :: need) found H1 H2) as [E I]. rewrite E.
  destruct (match_pass pairs (d :: need) found) as [n g]. apply IH; auto.
Qed.

(** what one run and the loop find. *)
Definition found_ok (a new need M : list nat) : Prop :=
  NoDup M /\ Forall (fun k => k < length a) M /\ sel a M ++ need = new.
Lemma match_pass_ok a new pairs : (forall v i, In (v, i) pairs -> i < length a /\ nth i a 0 = v) -> forall need M, found_ok a new need M ->
  let '(n, g) := match_pass pairs need M in found_ok a new n g /\ length n <= length need.
Proof.
  induction pairs as [|[v i] r IH]; intros Hp need M H; [split; [exact H|auto]|]. cbn [match_pass].
  assert (Hr : forall v i, In (v, i) r -> i < length a /\ nth i a 0 = v) by (intros; apply Hp; right; auto).
  destruct need as [|d need']; [apply IH; auto|].
  destruct ((v =? d) && negb (existsb (Nat.eqb i) M)) eqn:C; [|apply IH; auto].
  apply andb_true_iff in C. destruct C as [C1 C2]. apply Nat.eqb_eq in C1. apply negb_true_iff in C2. subst v.
  destruct H as (N & F & E). destruct (Hp d i (or_introl eq_refl)) as [Hi Hv].
  assert (NI : ~ In i M).
  { intros G. assert (existsb (Nat.eqb i) M = true) by (apply existsb_exists; exists i; split; auto; apply Nat.eqb_refl). congruence. }
  assert (K : found_ok a new need' (M ++ [i])).
  { split; [|split].
    - apply NoDup_app_intro; auto; [repeat constructor; auto|]. intros x Hx [<-|[]]. contradiction.
    - apply Forall_app. split; auto.
    - rewrite sel_app. cbn [sel map]. rewrite Hv, <- app_assoc. exact E. }
  specialize (IH Hr need' (M ++ [i]) K). destruct (match_pass r need' (M ++ [i])) as [n g]. destruct IH as [I1 I2]. split; auto. cbn; lia.
Qed.
Lemma match_loop_ok a new pairs : (forall v i, In (v, i) pairs -> i < length a /\ nth i a 0 = v) -> forall fuel need M, found_ok a new need M ->
  forall g, match_loop fuel pairs need M = Some g -> found_ok a new [] g.
Proof.
  intros Hp. induction fuel as [|fuel IH]; intros need M H g E; cbn in E.
  - destruct need; [inversion E; subst; exact H|discriminate].
  - destruct need as [|d need]; [inversion E; subst; exact H|].
    pose proof (match_pass_ok a new pairs Hp (d :: need) M H) as K. destruct (match_pass pairs (d :: need) M) as [n m].
    destruct K as [K _]. eapply IH; eauto.
Qed.

(** every run finds something, so the loop ends. *)
Lemma match_pass_progress pairs : forall d need M, (exists i, In (d, i) pairs /\ ~ In i M) ->
  length (fst (match_pass pairs (d :: need) M)) <= length need.
Proof.
  induction pairs as [|[v i] r IH]; intros d need M (k & Hk & Nk); [destruct Hk|]. cbn [match_pass].
  destruct ((v =? d) && negb (existsb (Nat.eqb i) M)) eqn:C.
  - assert (G : forall r need M, length (fst (match_pass r need M)) <= length need).
    { clear. induction r as [|[v i] r IH]; intros need M; cbn; auto. destruct need as [|d need]; auto.
      destruct ((v =? d) && negb (existsb (Nat.eqb i) M)); auto. cbn. etransitivity; [apply IH|]. lia. }
    apply G.
  - apply IH. exists k. split; auto. destruct Hk as [Hk|Hk]; auto. inversion Hk; subst. rewrite Nat.eqb_refl in C. cbn in C.
    apply negb_false_iff, existsb_exists in C. destruct C as (x & Hx & Ex). apply Nat.eqb_eq in Ex. subst x. contradiction.
Qed.

Lemma count_filter a (d : nat) l : count_occ Nat.eq_dec (sel a l) d = length (filter (fun k => nth k a 0 =? d) l).
Proof.
  induction l as [|k l IH]; [reflexivity|]. rewrite sel_cons. cbn [count_occ filter].
  destruct (Nat.eq_dec (nth k a 0) d) as [->|N]; [rewrite Nat.eqb_refl|apply Nat.eqb_neq in N; rewrite N]; cbn; rewrite IH; reflexivity.
Qed.
Lemma loop_progress a new d need M : found_ok a new (d :: need) M -> (forall v, count_occ Nat.eq_dec new v <= count_occ Nat.eq_dec a v) ->
  exists i, i < length a /\ nth i a 0 = d /\ ~ In i M.
Proof.
  intros (N & F & E) HC. specialize (HC d).
  destruct (Exists_dec (fun i => nth i a 0 = d /\ ~ In i M) (seq 0 (length a))) as [X|X].
  - intros i. destruct (Nat.eq_dec (nth i a 0) d); [|right; tauto]. destruct (in_dec Nat.eq_dec i M); [right; tauto|left; auto].
  - apply Exists_exists in X. destruct X as (i & Hi & X). apply in_seq in Hi. exists i. split; [lia|exact X].
  - exfalso. rewrite <- E, count_occ_app in HC. cbn in HC. destruct (Nat.eq_dec d d) as [_|]; [|contradiction].
    rewrite (count_filter a d M) in HC. 
    assert (Q : count_occ Nat.eq_dec a d = length (filter (fun k => nth k a 0 =? d) (seq 0 (length a)))) by (rewrite <- count_filter, sel_seq; reflexivity).
    rewrite Q in HC.
    assert (I : incl (filter (fun k => nth k a 0 =? d) (seq 0 (length a))) (filter (fun k => nth k a 0 =? d) M)).
    { intros i Hi. apply filter_In in Hi. destruct Hi as [Hi Ev]. apply filter_In. split; auto. apply Nat.eqb_eq in Ev.
      destruct (in_dec Nat.eq_dec i M); auto. exfalso. apply X. apply Exists_exists. exists i. auto. }
    apply NoDup_incl_length in I; [|apply NoDup_filter, seq_NoDup]. lia.
Qed.
Lemma match_loop_ends a new pairs : (forall v i, In (v, i) pairs <-> i < length a /\ nth i a 0 = v) ->
  (forall v, count_occ Nat.eq_dec new v <= count_occ Nat.eq_dec a v) -> forall fuel need M, found_ok a new need M -> length need <= fuel ->
  exists g, match_loop fuel pairs need M = Some g.
Proof.
  intros Hp HC. induction fuel as [|fuel IH]; intros need M H L.
  - destruct need; [exists M; reflexivity|cbn in L; lia].
  - destruct need as [|d need]; [exists M; reflexivity|]. cbn [match_loop].
    pose proof (match_pass_ok a new pairs (fun v i => proj1 (Hp v i)) (d :: need) M H) as K.
    pose proof (match_pass_progress pairs d need M) as P.
    assert (X : exists i, In (d, i) pairs /\ ~ In i M).
    { destruct (loop_progress a new d need M H HC) as (i & X1 & X2 & X3). exists i. split; auto. apply Hp. auto. }
    specialize (P X). destruct (match_pass pairs (d :: need) M) as [n g]. cbn in P. apply IH; [apply K|]. cbn in L. lia.
Qed.

Lemma simple_counts a b : without_ones a = without_ones b -> length b <= length a ->
  forall v, count_occ Nat.eq_dec b v <= count_occ Nat.eq_dec a v.
Proof.
  intros E L v.
  assert (G : forall l w, w <> 1 -> count_occ Nat.eq_dec l w = count_occ Nat.eq_dec (without_ones l) w).
  { intros l w Hw. unfold without_ones. induction l as [|x l IH]; [reflexivity|]. cbn [filter count_occ].
    destruct (Nat.eqb_spec x 1) as [->|N]; cbn [negb count_occ].
    - destruct (Nat.eq_dec 1 w) as [E1|]; [congruence|]. exact IH.
    - destruct (Nat.eq_dec x w); rewrite IH; reflexivity. }
  assert (G1 : forall l, count_occ Nat.eq_dec l 1 + length (without_ones l) = length l).
  { intros l. unfold without_ones. induction l as [|x l IH]; [reflexivity|]. cbn [filter count_occ length].
    destruct (Nat.eqb_spec x 1) as [->|N]; cbn [negb length]; [destruct (Nat.eq_dec 1 1); [lia|contradiction]|].
    destruct (Nat.eq_dec x 1); [contradiction|]. lia. }
  destruct (Nat.eq_dec v 1) as [->|N].
  - pose proof (G1 a). pose proof (G1 b). rewrite E in H. lia.
  - rewrite (G a v N), (G b v N), E. auto.
Qed.

Lemma combine_in (a l : list nat) : length l = length a -> forall v i, In (v, i) (combine a (seq 0 (length a))) <-> i < length a /\ nth i a 0 = v.
Proof.
  intros _ v i. split.
  - intros H. apply combine_seq in H. rewrite Nat.sub_0_r in H. destruct H as (_ & H1 & H2). auto.
  - intros [H1 H2]. subst v. replace (nth i a 0, i) with (nth i (combine a (seq 0 (length a))) (0, 0)).
    + apply nth_In. rewrite combine_length, seq_length. lia.
    + rewrite combine_nth by (rewrite seq_length; reflexivity). rewrite seq_nth by exact H1. reflexivity.
Qed.
Lemma combine_entries (a p : list nat) : length p = length a -> combine a p = map (fun vi => (fst vi, nth (snd vi) p 0)) (combine a (seq 0 (length a))).
Proof.
  intros L. rewrite <- (sel_seq p) at 1. rewrite L. unfold sel. generalize (seq 0 (length a)). clear L. induction a as [|x a IH]; intros l; [reflexivity|].
  destruct l; cbn; [reflexivity|]. rewrite IH. reflexivity.
Qed.

(** what the loop finds in a reshape [a] to [b] that drops dimensions. *)
Lemma match_loop_axes a b p : is_perm (length a) p -> without_ones a = without_ones b -> length b <= length a ->
  exists M, match_loop (S (length b)) (combine a p) b [] = Some (sel p M) /\ found_ok a b [] M.
Proof.
  intros Hp E L. pose proof (is_perm_length _ _ Hp) as Lp.
  rewrite (combine_entries a p Lp).
  pose proof (match_loop_map (fun i => nth i p 0) (seq 0 (length a))) as HM. cbv beta in HM.
  assert (F0 : found_ok a b b []) by (repeat split; auto; constructor).
  destruct (match_loop_ends a b (combine a (seq 0 (length a))) (combine_in a p Lp) (simple_counts a b E L) (S (length b)) b [] F0) as (M & EM); [lia|].
  exists M. split.
  - change (@nil nat) with (map (fun i => nth i p 0) []). rewrite HM.
    + rewrite EM. reflexivity.
    + intros x y Hx Hy G. apply in_seq in Hx. apply in_seq in Hy.
      rewrite <- (find_pos_nth x p), <- (find_pos_nth y p); try apply (is_perm_NoDup _ _ Hp); try lia. rewrite G. reflexivity.
    + destruct (combine_seq_fst a 0) as [_ ->]. apply incl_refl.
    + intros x [].
  - eapply match_loop_ok; [|exact F0|exact EM]. intros v i. apply (combine_in a p Lp).
Qed.

Lemma map_inj_eq (f : nat -> nat) l m : (forall x y, In x l -> In y m -> f x = f y -> x = y) -> map f l = map f m -> l = m.
Proof.
  revert m; induction l as [|x l IH]; intros [|y m] H E; try discriminate; auto. cbn in E. inversion E. f_equal.
  - apply H; cbn; auto.
  - apply IH; auto. intros; apply H; cbn; auto.
Qed.
Lemma nodup_map_inj (f : nat -> nat) l : NoDup (map f l) -> forall x y, In x l -> In y l -> f x = f y -> x = y.
Proof.
  induction l as [|z l IH]; cbn; intros HN x y Hx Hy E; [tauto|]. inversion HN; subst.
  destruct Hx as [<-|Hx], Hy as [<-|Hy]; auto.
  - exfalso. apply H1. rewrite E. apply in_map. exact Hy.
  - exfalso. apply H1. rewrite <- E. apply in_map. exact Hx.
Qed.
Lemma distinct_order a b M : distinct_sizes a -> without_ones a = without_ones b -> found_ok a b [] M -> keeps_order a M.
Proof.
  intros HD E (N & F & G). rewrite app_nil_r in G. unfold keeps_order.
  change (NoDup (without_ones a)) in HD. rewrite without_ones_axes in HD.
  assert (E2 : sel a (filter (nonunit a) M) = sel a (filter (nonunit a) (seq 0 (length a)))).
  { rewrite <- without_ones_sel, G, <- E. apply without_ones_axes. }
  apply (map_inj_eq (fun k => nth k a 0)); [|exact E2].
  intros x y Hx Hy Exy. pose proof (nodup_map_inj _ _ HD) as I. apply I; auto.
  apply filter_In in Hx. apply filter_In. destruct Hx as [Hx Hn]. split; auto. apply in_seq. rewrite Forall_forall in F. specialize (F _ Hx). lia.
Qed.

(** an accepted permutation that is its own inverse sorts the axes. *)
Lemma accepted_sorts l q : NoDup l -> is_perm (length l) q -> involution q ->
  list_eqb (sel (argsort l) q) (np_sort (sel (argsort l) q)) = true -> StronglySorted le (sel l q).
Proof.
  intros HN Hq Hi H. pose proof (argsort_perm l HN) as Ha. pose proof (is_perm_length _ _ Hq) as Lq. pose proof (is_perm_length _ _ Ha) as La.
  assert (P : is_perm (length l) (sel (argsort l) q)) by (apply is_perm_sel; auto).
  pose proof (sorted_is_perm _ _ P H) as E.
  assert (Eq : q = argsort l).
  { assert (E2 : sel (sel (argsort l) q) q = sel (seq 0 (length l)) q) by (rewrite E; reflexivity).
    rewrite sel_sel in E2 by (rewrite Lq; apply is_perm_Forall; exact Hq).
    unfold involution in Hi. rewrite Hi, Lq in E2. rewrite <- La in E2 at 1. rewrite sel_seq in E2. rewrite E2.
    apply list_eq_nth; [rewrite sel_length; reflexivity|]. intros k Hk. rewrite sel_nth by auto. rewrite seq_nth; [reflexivity|].
    apply (is_perm_in _ _ _ Hq). apply nth_In. exact Hk. }
  rewrite Eq, sel_argsort. apply np_sort_sorted.
Qed.

Lemma wrapped_squeeze {A} (t : tensor A) p b q sh :
  is_perm (length (tshape t)) p -> is_perm (length b) q -> length b < length (tshape t) ->
  involution q -> distinct_sizes (tshape t) ->
  fuse_wrapped_reshape p (sel (tshape t) p) b q (sel b q) = Some (Some sh) ->
  teq (wrapped p b q t) (reshape sh t) /\ sh = sel b q.
Proof.
  intros Hp Hq Lb Iq HD H. set (s := tshape t) in *. set (a := sel s p) in *. pose proof (is_perm_length _ _ Hp) as Lp. pose proof (is_perm_length _ _ Hq) as Lq.
  assert (La : length a = length s) by (unfold a; rewrite sel_length; exact Lp).
  unfold fuse_wrapped_reshape in H. destruct (is_simple_reshape a b) as [mm|] eqn:Es; [|discriminate].
  assert (Ew : without_ones a = without_ones b) by (apply (proj1 (simple_reshape_correct a b)); eauto).
  destruct (match_loop_axes a b p) as (M & EM & OM); [rewrite La; exact Hp|exact Ew|lia|].
  assert (HDa : distinct_sizes a).
  { unfold distinct_sizes in *. eapply Permutation_NoDup; [|exact HD]. apply filter_perm. symmetry. apply (selb_perm 0 s p Hp). }
  pose proof (distinct_order a b M HDa Ew OM) as KO. destruct OM as (NM & FM & SM). rewrite app_nil_r in SM.
  assert (LM : length M = length b) by (rewrite <- SM, sel_length; reflexivity).
  unfold fuse_perms_extended in H. rewrite La in H.
  assert (C1 : (length s <? length b) = false) by (apply Nat.ltb_ge; lia).
  assert (C2 : (length b <? length s) = true) by (apply Nat.ltb_lt; lia).
  rewrite C1, C2 in H. cbv beta iota in H.
  assert (C3 : list_eqb a b = false) by (destruct (list_eqb a b) eqn:X; auto; apply list_eqb_spec in X; rewrite X in La; lia).
  assert (C4 : (length a =? length b) = false) by (apply Nat.eqb_neq; lia).
  rewrite C3, C4 in H. cbn [negb] in H. rewrite EM in H. cbn [option_map] in H.
  destruct (list_eqb (sel (argsort (sel p M)) q) (np_sort (sel (argsort (sel p M)) q))) eqn:El; [|discriminate]. inversion H; subst sh.
  split; [|reflexivity].
  assert (NL : NoDup (sel p M)).
  { apply NoDup_map_inj; auto. intros x y Hx Hy G. rewrite Forall_forall in FM. pose proof (FM _ Hx). pose proof (FM _ Hy).
    rewrite <- (find_pos_nth x p), <- (find_pos_nth y p); try apply (is_perm_NoDup _ _ Hp); try lia. rewrite G. reflexivity. }
  pose proof (accepted_sorts (sel p M) q NL ltac:(rewrite sel_length, LM; exact Hq) Iq El) as HS.
  rewrite <- SM. apply squeeze_view; auto.
  - apply Forall_forall. intros k Hk. rewrite Forall_forall in FM. specialize (FM _ Hk). rewrite Lp, <- La. exact FM.
  - rewrite LM. exact Hq.
  - apply sorted_filter. exact HS.
Qed.

Lemma involution_inv n p : is_perm n p -> involution p -> inv_perm p = p.
Proof.
  intros Hp H. pose proof (is_perm_length _ _ Hp) as L. unfold involution in H.
  assert (E : sel (sel p p) (inv_perm p) = p) by (apply sel_inv_r; rewrite L; exact Hp).
  rewrite H in E. rewrite <- E at 2. apply list_eq_nth; [rewrite sel_length; reflexivity|]. intros k Hk. rewrite inv_perm_length in Hk.
  rewrite sel_nth by (rewrite inv_perm_length; exact Hk). rewrite seq_nth; [reflexivity|].
  pose proof (inv_perm_is_perm n p Hp) as Hi. rewrite L. apply (is_perm_in _ _ _ Hi). apply nth_In. rewrite inv_perm_length. exact Hk.
Qed.

Lemma wrapped_expand {A} (t : tensor A) p b q sh :
  is_perm (length (tshape t)) p -> is_perm (length b) q -> length (tshape t) < length b ->
  involution p -> involution q -> distinct_sizes (tshape t) ->
  fuse_wrapped_reshape p (sel (tshape t) p) b q (sel b q) = Some (Some sh) ->
  teq (wrapped p b q t) (reshape sh t) /\ sh = sel b q.
Proof.
  intros Hp Hq Lb Ip Iq HD H. set (s := tshape t) in *. set (a := sel s p) in *. pose proof (is_perm_length _ _ Hp) as Lp. pose proof (is_perm_length _ _ Hq) as Lq.
  assert (La : length a = length s) by (unfold a; rewrite sel_length; exact Lp).
  unfold fuse_wrapped_reshape in H. destruct (is_simple_reshape a b) as [mm|] eqn:Es; [|discriminate].
  assert (Ew : without_ones a = without_ones b) by (apply (proj1 (simple_reshape_correct a b)); eauto).
  destruct (match_loop_axes b a q) as (M & EM & OM); [exact Hq|symmetry; exact Ew|lia|].
  assert (HDb : distinct_sizes b).
  { unfold distinct_sizes in *. change (NoDup (without_ones b)). rewrite <- Ew. eapply Permutation_NoDup; [|exact HD]. apply filter_perm. symmetry. apply (selb_perm 0 s p Hp). }
  pose proof (distinct_order b a M HDb (eq_sym Ew) OM) as KO. destruct OM as (NM & FM & SM). rewrite app_nil_r in SM.
  assert (LM : length M = length s) by (rewrite <- La, <- SM, sel_length; reflexivity).
  unfold fuse_perms_extended in H. rewrite La in H.
  assert (C1 : (length s <? length b) = true) by (apply Nat.ltb_lt; lia).
  assert (C2 : (length b <? length s) = false) by (apply Nat.ltb_ge; lia).
  rewrite C1, C2 in H. cbv beta iota in H.
  assert (C3 : list_eqb b a = false) by (destruct (list_eqb b a) eqn:X; auto; apply list_eqb_spec in X; rewrite X in *; lia).
  assert (C4 : (length b =? length s) = false) by (apply Nat.eqb_neq; lia).
  rewrite C3, La, C4 in H. cbn [negb] in H. rewrite La in EM. rewrite EM in H. cbn [option_map] in H.
  destruct (list_eqb (sel (argsort (sel q M)) p) (np_sort (sel (argsort (sel q M)) p))) eqn:El; [|discriminate]. inversion H; subst sh.
  split; [|reflexivity].
  assert (NL : NoDup (sel q M)).
  { apply NoDup_map_inj; auto. intros x y Hx Hy G. rewrite Forall_forall in FM. pose proof (FM _ Hx). pose proof (FM _ Hy).
    rewrite <- (find_pos_nth x q), <- (find_pos_nth y q); try apply (is_perm_NoDup _ _ Hq); try lia. rewrite G. reflexivity. }
  pose proof (accepted_sorts (sel q M) p NL ltac:(rewrite sel_length, LM; exact Hp) Ip El) as HS.
  (* the way back is a squeeze *)
  set (y := wrapped p b q t). assert (Sy : tshape y = sel b q) by reflexivity.
  assert (Ib : sel (sel b q) q = b).
  { rewrite <- (involution_inv _ _ Hq Iq) at 2. apply sel_inv_r. exact Hq. }
  assert (Ia : sel a p = s).
  { unfold a. rewrite <- (involution_inv _ _ Hp Ip) at 2. apply sel_inv_r. exact Hp. }
  assert (PB : prod b = prod a).
  { assert (G : forall l, prod l = prod (without_ones l)).
    { intros l. unfold without_ones. induction l as [|x l IH]; [reflexivity|]. cbn [filter prod]. rewrite IH. destruct (Nat.eqb_spec x 1) as [->|]; cbn [negb prod]; lia. }
    rewrite (G b), (G a), Ew. reflexivity. }
  assert (PQ : prod (sel b q) = prod b) by (apply prod_perm, (selb_perm 0 b q Hq)).
  assert (PS : prod a = prod s) by (apply prod_perm, (selb_perm 0 s p Hp)).
  assert (Back : teq (wrapped q a p y) (reshape s y)).
  { replace s with (sel (sel (sel (tshape y) q) M) p) by (rewrite Sy, Ib, SM, Ia; reflexivity).
    replace a with (sel (sel (tshape y) q) M) by (rewrite Sy, Ib, SM; reflexivity).
    apply squeeze_view; auto.
    - rewrite Sy, sel_length, Lq. exact Hq.
    - apply Forall_forall. intros k Hk. rewrite Forall_forall in FM. specialize (FM _ Hk). rewrite Lq. exact FM.
    - rewrite Sy, Ib. exact KO.
    - rewrite LM. exact Hp.
    - apply sorted_filter. exact HS. }
  assert (Same : teq (wrapped q a p y) t).
  { unfold wrapped at 1. unfold y, wrapped.
    assert (T1 : teq (transpose q (transpose q (reshape b (transpose p t)))) (reshape b (transpose p t))).
    { rewrite <- (involution_inv _ _ Hq Iq) at 1. apply (transpose_inv_l (length b)); auto. }
    assert (T2 : teq (reshape a (transpose q (transpose q (reshape b (transpose p t))))) (transpose p t)).
    { eapply teq_trans; [apply reshape_congr; [|exact T1]|].
      - cbn. rewrite Ib. symmetry. exact PB.
      - eapply teq_trans; [apply reshape_reshape; cbn; fold s a; auto|].
        exact (reshape_id (transpose p t)). }
    eapply teq_trans; [apply transpose_congr; [|exact T2]|].
    - cbn. rewrite La. exact Hp.
    - rewrite <- (involution_inv _ _ Hp Ip) at 1. apply (transpose_inv_l (length s)); auto. }
  pose proof (teq_trans _ _ _ (teq_sym _ _ Back) Same) as E.
  (* y = reshape of t *)
  apply teq_sym. eapply teq_trans; [apply (reshape_congr (sel b q) t (reshape s y)); [cbn; fold s; lia|apply teq_sym; exact E]|].
  eapply teq_trans; [apply reshape_reshape; cbn [tshape]; rewrite Sy; lia|].
  rewrite <- Sy. apply reshape_id.
Qed.

(** The pass always comes to a decision. *)
Lemma wrapped_defined s p b q out : is_perm (length s) p -> is_perm (length b) q -> fuse_wrapped_reshape p (sel s p) b q out <> None.
Proof.
  intros Hp Hq. set (a := sel s p). pose proof (is_perm_length _ _ Hp) as Lp. pose proof (is_perm_length _ _ Hq) as Lq.
  assert (La : length a = length s) by (unfold a; rewrite sel_length; exact Lp).
  unfold fuse_wrapped_reshape. destruct (is_simple_reshape a b) as [mm|] eqn:Es; [|discriminate].
  assert (Ew : without_ones a = without_ones b) by (apply (proj1 (simple_reshape_correct a b)); eauto).
  assert (D : exists np, fuse_perms_extended p a b q = Some np).
  { unfold fuse_perms_extended. rewrite La. destruct (Nat.lt_trichotomy (length s) (length b)) as [L|[L|L]].
    - assert (C1 : (length s <? length b) = true) by (apply Nat.ltb_lt; lia).
      assert (C2 : (length b <? length s) = false) by (apply Nat.ltb_ge; lia). rewrite C1, C2.
      destruct (list_eqb b a); [eexists; reflexivity|]. rewrite La. assert (C4 : (length b =? length s) = false) by (apply Nat.eqb_neq; lia). rewrite C4. cbn [negb].
      destruct (match_loop_axes b a q) as (M & EM & _); [exact Hq|symmetry; exact Ew|lia|]. rewrite La in EM. rewrite EM. eexists; reflexivity.
    - rewrite L, Nat.ltb_irrefl. destruct (list_eqb b a); [eexists; reflexivity|]. rewrite La, L, Nat.eqb_refl. cbn [negb].
      destruct (same_rank_perm a b Ew ltac:(congruence)) as (m & Em & _). rewrite La, L in Em. rewrite Em. eexists; reflexivity.
    - assert (C1 : (length s <? length b) = false) by (apply Nat.ltb_ge; lia).
      assert (C2 : (length b <? length s) = true) by (apply Nat.ltb_lt; lia). rewrite C1, C2.
      destruct (list_eqb a b); [eexists; reflexivity|]. rewrite La. assert (C4 : (length s =? length b) = false) by (apply Nat.eqb_neq; lia). rewrite C4. cbn [negb].
      destruct (match_loop_axes a b p) as (M & EM & _); [rewrite La; exact Hp|exact Ew|lia|]. rewrite EM. eexists; reflexivity. }
  destruct D as (np & ->). discriminate.
Qed.

Lemma window_ok {N} (f : N -> bool) chain w : alternates f chain -> wrapped_window f chain = Some w ->
  exists l x y z r, w = [x; y; z] /\ chain = l ++ w ++ r /\ f x = true /\ f y = false /\ f z = true.
Proof.
  intros HA H. destruct chain as [|x rest]; [discriminate|]. unfold wrapped_window in H.
  destruct ((3 <=? length (x :: rest)) && f x) eqn:C.
  - apply andb_true_iff in C. destruct C as [C Fx]. apply Nat.leb_le in C. destruct rest as [|y [|z r]]; cbn in C; try lia.
    inversion H; subst w. exists [], x, y, z, r. repeat split; auto.
    + pose proof (HA [] x y (z :: r) eq_refl). destruct (f y); cbn in *; congruence.
    + pose proof (HA [] x y (z :: r) eq_refl). pose proof (HA [x] y z r eq_refl). destruct (f y), (f z); cbn in *; congruence.
  - destruct (4 <=? length (x :: rest)) eqn:C2; [|discriminate]. apply Nat.leb_le in C2.
    destruct rest as [|y [|z [|v r]]]; cbn in C2; try lia.
    assert (Fx : f x = false) by (apply andb_false_iff in C; destruct C as [C|C]; auto; cbn in C; discriminate).
    inversion H; subst w. exists [x], y, z, v, r. repeat split; auto.
    + pose proof (HA [] x y (z :: v :: r) eq_refl). destruct (f y); cbn in *; congruence.
    + pose proof (HA [] x y (z :: v :: r) eq_refl). pose proof (HA [x] y z (v :: r) eq_refl). destruct (f y), (f z); cbn in *; congruence.
    + pose proof (HA [] x y (z :: v :: r) eq_refl). pose proof (HA [x] y z (v :: r) eq_refl). pose proof (HA [x; y] z v r eq_refl). destruct (f y), (f z), (f v); cbn in *; congruence.
Qed.

(** Comparing two concrete tensors. *)
Lemma not_teq_at {A} (t u : tensor A) idx : valid (tshape t) idx -> tget t idx <> tget u idx -> ~ teq t u.
Proof. intros V H [_ E]. apply H, E, V. Qed.

Lemma wrapped_cases {A} (t : tensor A) p b q sh :
  is_perm (length (tshape t)) p -> is_perm (length b) q ->
  (length b = length (tshape t) \/
   (length b < length (tshape t) /\ involution q /\ distinct_sizes (tshape t)) \/
   (length (tshape t) < length b /\ involution p /\ involution q /\ distinct_sizes (tshape t))) ->
  fuse_wrapped_reshape p (sel (tshape t) p) b q (sel b q) = Some (Some sh) ->
  teq (wrapped p b q t) (reshape sh t).
Proof.
  intros Hp Hq C H. destruct C as [L|[(L & I1 & D)|(L & I1 & I2 & D)]].
  - destruct (wrapped_same_rank t p b q sh Hp ltac:(rewrite <- L; exact Hq) L H) as [T ->].
    eapply teq_trans; [exact T|]. apply teq_sym, reshape_id.
  - apply (wrapped_squeeze t p b q sh); auto.
  - apply (wrapped_expand t p b q sh); auto.
Qed.

Lemma transpose_to_reshape_iff s p deg : is_perm (length s) p -> Forall (fun d => 0 < d) s -> 1 <= deg ->
  (transpose_to_reshape deg s (sel s p) p = Some (sel s p) <-> keeps_order s p) /\
  (transpose_to_reshape deg s (sel s p) p = Some (sel s p) <->
   forall A (t : tensor A), tshape t = s -> teq (transpose p t) (reshape (sel s p) t)).
Proof.
  intros Hp HF Hd. destruct (transpose_reshape_iff s p Hp HF) as [H1 H2].
  assert (E : transpose_to_reshape deg s (sel s p) p = Some (sel s p) <-> transpose_same_as_reshape s (sel s p) p = true).
  { unfold transpose_to_reshape. apply Nat.leb_le in Hd. rewrite Hd. cbn [andb]. destruct (transpose_same_as_reshape s (sel s p) p); split; intros; congruence. }
  split; rewrite E; assumption.
Qed.
Lemma transpose_to_reshape_ok s p sh deg : is_perm (length s) p -> transpose_to_reshape deg s (sel s p) p = Some sh ->
  forall A (t : tensor A), tshape t = s -> teq (transpose p t) (reshape sh t).
Proof.
  intros Hp H A t Ht. unfold transpose_to_reshape in H. destruct (1 <=? deg); [|discriminate]. cbn [andb] in H.
  destruct (transpose_same_as_reshape s (sel s p) p) eqn:E; [|discriminate]. inversion H; subst sh. apply same_reshape; auto.
Qed.
