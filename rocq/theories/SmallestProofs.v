(** Proofs about [get_smallest_k], [prune_groups], the recurrent index helpers and [drop_remainder]. *)
From Coq Require Import List Arith Bool ZArith QArith Lia Permutation Sorted.
From Verif Require Import PruneModel MergeProofs SetOrderProofs.
Import ListNotations.
Local Open Scope nat_scope.

Section Smallest.
  Context {A : Type} (leb : A -> A -> bool).
  Hypothesis leb_total : forall x y, leb x y = true \/ leb y x = true.
  Hypothesis leb_trans : forall x y z, leb x y = true -> leb y z = true -> leb x z = true.

  (** the order of the stable sort: by key, then by position *)
  Definition before (p q : nat * A) : Prop :=
    leb (snd p) (snd q) = true /\ (leb (snd q) (snd p) = true -> fst p < fst q).

  Lemma before_trans p q r : before p q -> before q r -> before p r.
  Proof.
    intros [H1 H2] [H3 H4]. split; [eapply leb_trans; eauto|].
    intro H. assert (leb (snd q) (snd p) = true) by (eapply leb_trans; eauto).
    assert (leb (snd r) (snd q) = true) by (eapply leb_trans; eauto).
    specialize (H2 H0). specialize (H4 H5). lia.
  Qed.

  Lemma kinsert_perm x l : Permutation (kinsert leb x l) (x :: l).
  Proof.
    induction l as [|y l IH]; simpl; auto. destruct (leb (snd x) (snd y)); auto.
    eapply perm_trans; [apply perm_skip, IH|constructor].
  Qed.
  Lemma ksort_perm l : Permutation (ksort leb l) l.
  Proof.
    induction l; simpl; auto. eapply perm_trans; [apply kinsert_perm|now constructor].
  Qed.
  Lemma kinsert_sorted x l :
    StronglySorted before l -> Forall (fun y => fst x < fst y) l ->
    StronglySorted before (kinsert leb x l).
  Proof.
    induction 1 as [|y l S IH F]; simpl; intro B; [constructor; constructor|].
    inversion B as [|? ? B1 B2]; subst.
    destruct (leb (snd x) (snd y)) eqn:E.
    - assert (Hxy : before x y) by (split; auto).
      constructor; [constructor; auto|]. constructor; auto.
      eapply Forall_impl; [|exact F]. intros z Hz. eapply before_trans; eauto.
    - constructor; [apply IH; auto|].
      assert (Hyx : before y x).
      { split; [|congruence]. destruct (leb_total (snd x) (snd y)); congruence. }
      eapply Permutation_Forall; [apply Permutation_sym, kinsert_perm|]. constructor; auto.
  Qed.
  Lemma ksort_sorted l : StronglySorted (fun p q => fst p < fst q) l -> StronglySorted before (ksort leb l).
  Proof.
    induction 1 as [|x l S IH F]; simpl; [constructor|]. apply kinsert_sorted; auto.
    eapply Permutation_Forall; [apply Permutation_sym, ksort_perm|auto].
  Qed.

  Lemma enum_sorted (lst : list A) k :
    StronglySorted (fun p q => fst p < fst q) (combine (seq k (length lst)) lst).
  Proof.
    revert k. induction lst as [|a l IH]; intro k; simpl; constructor; auto.
    apply Forall_forall. intros [i v] H. apply in_combine_l, in_seq in H. simpl. lia.
  Qed.
  Lemma enum_In (lst : list A) i v :
    In (i, v) (combine (seq 0 (length lst)) lst) <-> nth_error lst i = Some v.
  Proof.
    assert (G : forall k, In (i, v) (combine (seq k (length lst)) lst) <-> k <= i /\ nth_error lst (i - k) = Some v).
    { induction lst as [|a l IH]; intro k; simpl.
      - split; [tauto|]. intros [_ H]. destruct (i - k); discriminate.
      - rewrite IH. split.
        + intros [H|[H1 H2]].
          * inversion H; subst. rewrite Nat.sub_diag. auto.
          * split; [lia|]. replace (i - k) with (S (i - S k)) by lia. auto.
        + intros [H1 H2]. destruct (i - k) as [|d] eqn:E; simpl in H2.
          * left. injection H2 as <-. f_equal. lia.
          * right. split; [lia|]. replace (i - S k) with d by lia. auto. }
    rewrite G, Nat.sub_0_r. split; [tauto|]. intro; split; [lia|auto].
  Qed.
  Lemma enum_keys (lst : list A) : map fst (combine (seq 0 (length lst)) lst) = seq 0 (length lst).
  Proof.
    assert (forall k, map fst (combine (seq k (length lst)) lst) = seq k (length lst)); [|auto].
    induction lst; simpl; intro k; auto. now rewrite IHlst.
  Qed.

  Lemma ins_sorted x l : StronglySorted lt l -> ~ In x l -> StronglySorted lt (ins x l).
  Proof.
    induction 1 as [|y l S IH F]; simpl; intro N; [constructor; constructor|].
    destruct (x <=? y) eqn:E.
    - apply Nat.leb_le in E. constructor; [constructor; auto|]. constructor; [lia|].
      eapply Forall_impl; [|exact F]. simpl. intros; lia.
    - apply Nat.leb_gt in E. constructor; [apply IH; tauto|].
      apply Forall_forall. intros z Hz. apply ins_In in Hz. destruct Hz as [->|Hz]; auto.
      rewrite Forall_forall in F. auto.
  Qed.
  Lemma foldins_sorted l : NoDup l -> StronglySorted lt (fold_right ins [] l).
  Proof.
    induction 1; simpl; [constructor|]. apply ins_sorted; auto. now rewrite foldins_In.
  Qed.
  Lemma foldins_length l : length (fold_right ins [] l) = length l.
  Proof.
    assert (L : forall x l, length (ins x l) = S (length l)).
    { induction l0 as [|y l0 IH]; simpl; auto. destruct (x <=? y); simpl; auto. }
    induction l; simpl; auto. rewrite L. auto.
  Qed.

  Lemma NoDup_firstn {B} k (l : list B) : NoDup l -> NoDup (firstn k l).
  Proof.
    revert k. induction l; intros [|k] H; simpl; try constructor; inversion H; subst.
    - intro Q. apply H2. clear -Q. revert k Q. induction l; intros [|k]; simpl; try tauto.
      intros [->|Q]; [now left|right; eauto].
    - auto.
  Qed.
  Lemma sorted_split {B} (R : B -> B -> Prop) k l x y :
    StronglySorted R l -> In x (firstn k l) -> In y (skipn k l) -> R x y.
  Proof.
    revert l. induction k; simpl; intros l S; [tauto|]. destruct l as [|a l]; simpl; [tauto|].
    inversion S; subst. intros [->|Hx] Hy; [|eauto].
    rewrite Forall_forall in H2. apply H2. rewrite <- (firstn_skipn k l). apply in_app_iff. auto.
  Qed.

  Lemma get_smallest_k_correct lst k offset :
    let out := get_smallest_k leb lst k offset in
    length out = Nat.min k (length lst) /\ StronglySorted lt out /\
    (forall i, In i out -> offset <= i < offset + length lst) /\
    (forall i j vi vj, In (offset + i) out -> ~ In (offset + j) out ->
       nth_error lst i = Some vi -> nth_error lst j = Some vj ->
       leb vi vj = true /\ (leb vj vi = true -> i < j)).
  Proof.
    unfold get_smallest_k. set (e := combine (seq 0 (length lst)) lst).
    pose proof (ksort_perm e) as P. pose proof (ksort_sorted e (enum_sorted lst 0)) as S.
    set (s := ksort leb e) in *. cbv zeta.
    assert (Le : length s = length lst).
    { rewrite (Permutation_length P). unfold e. rewrite combine_length, seq_length. lia. }
    assert (ND : NoDup (map fst s)).
    { eapply Permutation_NoDup; [apply Permutation_map, Permutation_sym, P|].
      unfold e. rewrite enum_keys. apply seq_NoDup. }
    assert (ND2 : NoDup (map (fun p : nat * A => fst p + offset) (firstn k s))).
    { replace (map (fun p : nat * A => fst p + offset) (firstn k s))
        with (map (fun i => i + offset) (firstn k (map fst s))) by (rewrite firstn_map, map_map; auto).
      assert (NF : NoDup (firstn k (map fst s))) by now apply NoDup_firstn.
      clear -NF. induction NF; simpl; constructor; auto. intro Q. apply in_map_iff in Q.
      destruct Q as (z & E & Hz). assert (z = x) by lia. now subst. }
    split; [|split; [|split]].
    - rewrite foldins_length, map_length, firstn_length, Le. reflexivity.
    - now apply foldins_sorted.
    - intros i Hi. apply foldins_In, in_map_iff in Hi. destruct Hi as ([a v] & <- & Ha).
      assert (Hs : In (a, v) s) by (rewrite <- (firstn_skipn k s); apply in_app_iff; auto).
      apply (Permutation_in _ P) in Hs. apply in_combine_l, in_seq in Hs. simpl. lia.
    - intros i j vi vj Hi Hj Ei Ej.
      apply foldins_In, in_map_iff in Hi. destruct Hi as ([a v] & E & Ha). simpl in E.
      assert (a = i) by lia. subst a.
      assert (v = vi).
      { assert (Hs : In (i, v) s) by (rewrite <- (firstn_skipn k s); apply in_app_iff; auto).
        apply (Permutation_in _ P), enum_In in Hs. congruence. }
      subst v.
      assert (Hjs : In (j, vj) s) by (eapply Permutation_in; [apply Permutation_sym, P|now apply enum_In]).
      rewrite <- (firstn_skipn k s) in Hjs. apply in_app_iff in Hjs. destruct Hjs as [Hjs|Hjs].
      + exfalso. apply Hj, foldins_In, in_map_iff. exists (j, vj). split; auto. simpl. lia.
      + exact (sorted_split before k s (i, vi) (j, vj) S Ha Hjs).
  Qed.
End Smallest.

(** *** The index helpers of recurrent layers *)
Lemma tile_correct indices gs offset j :
  In j (tile_indices_with_gate_size indices gs offset) <->
  exists g i, g < gs /\ In i indices /\ j = g * offset + i.
Proof.
  unfold tile_indices_with_gate_size. rewrite in_concat. split.
  - intros (l & Hl & Hj). apply in_map_iff in Hl. destruct Hl as (g & <- & Hg).
    apply in_map_iff in Hj. destruct Hj as (i & <- & Hi). apply in_seq in Hg.
    exists g, i. repeat split; auto; lia.
  - intros (g & i & Hg & Hi & ->). exists (map (fun i => offset * g + i) indices). split.
    + apply in_map_iff. exists g. split; auto. apply in_seq. lia.
    + apply in_map_iff. exists i. split; auto. lia.
Qed.

Lemma split_correct fwd bwd offset :
  length fwd = length bwd ->
  split_indices_with_directions (fwd ++ map (fun i => offset + i) bwd) offset 2 =
  (fwd, map Z.of_nat bwd).
Proof.
  intro L. unfold split_indices_with_directions. rewrite app_length, map_length, <- L.
  replace (length fwd + length fwd) with (length fwd * 2) by lia. rewrite Nat.div_mul by lia.
  rewrite firstn_app, firstn_all, Nat.sub_diag, firstn_O, app_nil_r.
  rewrite skipn_app, skipn_all, Nat.sub_diag. simpl. f_equal.
  rewrite map_map. apply map_ext. intro. lia.
Qed.

(** *** [prune_groups] *)
(** The loop stops exactly when a prefix of the constraints reaches the target. *)
Lemma pg_take_exact sp total k pre : forall post cur pruned,
  (0 < total)%Q -> (sp * total == inject_Z (Z.of_nat k))%Q ->
  (cur * total == inject_Z (Z.of_nat pruned))%Q ->
  pruned + list_sum pre = k -> Forall (fun c => 0 < c) pre -> 
  pg_take sp total 0 cur pruned (pre ++ post) = k.
Proof.
  induction pre as [|c pre IH]; simpl; intros post cur pruned T S C E F.
  - assert (Hle : Qle_bool sp cur = true).
    { apply Qle_bool_iff. apply Qmult_le_r with total; auto. rewrite S, C.
      rewrite <- Zle_Qle. lia. }
    destruct post as [|c post]; simpl; [lia|]. rewrite Hle. lia.
  - assert (Hle : Qle_bool sp cur = false).
    { destruct (Qle_bool sp cur) eqn:Q; auto. apply Qle_bool_iff in Q. exfalso.
      apply (Qmult_le_r _ _ total) in Q; auto. rewrite S, C, <- Zle_Qle in Q. inversion F; subst. lia. }
    rewrite Hle. inversion F; subst. apply IH; auto; [|lia].
    rewrite Qmult_comm. rewrite Qmult_div_r; [ring|]. intro Q. rewrite Q in T. discriminate.
Qed.
Lemma pg_take_delta_ext sp total : forall cons d1 d2 c1 c2 pruned,
  (d1 == d2)%Q -> (c1 == c2)%Q ->
  pg_take sp total d1 c1 pruned cons = pg_take sp total d2 c2 pruned cons.
Proof.
  induction cons as [|c cons IH]; intros d1 d2 c1 c2 pruned E Ec; simpl; auto.
  assert (Qle_bool sp c1 = Qle_bool sp c2).
  { destruct (Qle_bool sp c1) eqn:A, (Qle_bool sp c2) eqn:B; auto; exfalso.
    - apply Qle_bool_iff in A. rewrite Ec in A. apply Qle_bool_iff in A. congruence.
    - apply Qle_bool_iff in B. rewrite <- Ec in B. apply Qle_bool_iff in B. congruence. }
  rewrite H. destruct (Qle_bool sp c2); auto. apply IH; auto. now rewrite E.
Qed.

Lemma prune_groups_exact sp k groups :
  Forall (fun g => exists pre post, g = pre ++ post /\ Forall (fun c => 0 < c) g /\ g <> [] /\
             list_sum pre = k /\ (sp * inject_Z (Z.of_nat (list_sum g)) == inject_Z (Z.of_nat k))%Q) groups ->
  prune_groups sp groups = repeat k (length groups).
Proof.
  unfold prune_groups.
  assert (G : forall d, (d == 0)%Q -> Forall (fun g => exists pre post, g = pre ++ post /\ Forall (fun c => 0 < c) g /\ g <> [] /\
             list_sum pre = k /\ (sp * inject_Z (Z.of_nat (list_sum g)) == inject_Z (Z.of_nat k))%Q) groups ->
          pg_groups sp d groups = repeat k (length groups)).
  { induction groups as [|g gs IH]; intros d D F; auto.
    inversion F as [|? ? (pre & post & -> & Fp & N & Ek & Es) F']; subst.
    cbn [pg_groups length repeat].
    assert (Hp : 0 < list_sum (pre ++ post)).
    { destruct (pre ++ post) as [|c l]; [congruence|]. inversion Fp; subst. simpl. lia. }
    assert (TK : pg_take sp (inject_Z (Z.of_nat (list_sum (pre ++ post)))) d 0 0 (pre ++ post) = list_sum pre).
    { rewrite (pg_take_delta_ext _ _ _ d 0%Q 0%Q 0%Q 0) by (auto; reflexivity).
      apply pg_take_exact; auto.
      - change 0%Q with (inject_Z 0). rewrite <- Zlt_Qlt. lia.
      - apply Qmult_0_l.
      - apply Forall_app in Fp. tauto. }
    destruct (pre ++ post) as [|c l] eqn:E; [congruence|]. rewrite TK. f_equal. apply IH; auto.
    rewrite D. rewrite Qmult_comm, Es. ring. }
  intro F. apply G; auto. reflexivity.
Qed.

(** *** [drop_remainder] *)
Lemma drop_remainder_correct {A} (lst : list A) m :
  0 < m -> length lst mod m <> 0 ->
  length (drop_remainder lst m) = m * (length lst / m) /\ exists r, lst = drop_remainder lst m ++ r.
Proof.
  intros Hm Hr. unfold drop_remainder. apply Nat.eqb_neq in Hr. rewrite Hr.
  rewrite firstn_length. pose proof (Nat.div_mod (length lst) m). split; [lia|].
  exists (skipn (length lst - length lst mod m) lst). symmetry. apply firstn_skipn.
Qed.
