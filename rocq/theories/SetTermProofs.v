(** The probe sequence of the set always finds a free slot, so
    [complementary_list] never runs out of fuel. *)
From Coq Require Import List Arith Bool Lia Permutation ZArith Znumtheory.
From Verif Require Import PruneModel MergeProofs SetOrderProofs.
Import ListNotations.
Local Open Scope nat_scope.

(** [i -> 5*i+1] modulo a power of two has full period *)
Fixpoint lcg (j x : nat) : nat := match j with 0 => x | S j' => lcg j' (5 * x + 1) end.
Fixpoint geo (d : nat) : nat := match d with 0 => 0 | S d' => 5 * geo d' + 1 end.

Lemma lcg_S j x : lcg (S j) x = 5 * lcg j x + 1.
Proof. revert x. induction j; intro x; [reflexivity|]. change (lcg (S (S j)) x) with (lcg (S j) (5 * x + 1)). now rewrite IHj. Qed.
Lemma lcg_add i j x : lcg (i + j) x = lcg i (lcg j x).
Proof. induction i; auto. simpl plus. now rewrite !lcg_S, IHi. Qed.
(** [lcg d x = x + geo d * (4x+1)] *)
Lemma lcg_closed d x : lcg d x = x + geo d * (4 * x + 1).
Proof. induction d; [simpl; lia|]. rewrite lcg_S, IHd. simpl geo. lia. Qed.

Lemma geo_double e : geo (2 * e) = geo e * (5 ^ e + 1).
Proof.
  assert (P : forall e, 4 * geo e + 1 = 5 ^ e).
  { induction e0; [reflexivity|]. simpl geo. rewrite Nat.pow_succ_r'. lia. }
  assert (A : forall i j, geo (i + j) = geo i * 5 ^ j + geo j).
  { induction i; intro j; simpl geo; simpl plus; [lia|]. simpl geo. rewrite IHi. rewrite <- (P j). lia. }
  replace (2 * e) with (e + e) by lia. rewrite A. nia.
Qed.
Lemma pow5_mod4 e : exists q, 5 ^ e + 1 = 2 * (2 * q + 1).
Proof.
  induction e as [|e [q IH]]; [exists 0; reflexivity|].
  rewrite Nat.pow_succ_r'. exists (5 * q + 1). lia.
Qed.
Lemma geo_parity e : exists q, geo (2 * e) = 2 * q.
Proof. rewrite geo_double. destruct (pow5_mod4 e) as [q ->]. exists (geo e * (2 * q + 1)). lia. Qed.

Lemma odd_cancel k : forall a q, Nat.divide (2 ^ k) (a * (2 * q + 1)) -> Nat.divide (2 ^ k) a.
Proof.
  intros a q H. rewrite Nat.mul_comm in H. eapply Nat.gauss; eauto.
  clear. induction k.
  - apply Nat.gcd_1_l.
  - rewrite Nat.pow_succ_r'. 
    assert (Hg : Nat.gcd 2 (2 * q + 1) = 1).
    { rewrite Nat.gcd_comm. replace (2 * q + 1) with (1 + q * 2) by lia. rewrite Nat.gcd_comm.
      rewrite Nat.gcd_add_mult_diag_r. reflexivity. }
    apply Nat.divide_1_r.
    set (g := Nat.gcd (2 * 2 ^ k) (2 * q + 1)).
    assert (G1 : Nat.divide g (2 * 2 ^ k)) by apply Nat.gcd_divide_l.
    assert (G2 : Nat.divide g (2 * q + 1)) by apply Nat.gcd_divide_r.
    assert (G3 : Nat.divide g (2 ^ k)).
    { eapply Nat.gauss; [exact G1|]. apply Nat.divide_1_r.
      assert (D : Nat.divide (Nat.gcd g 2) (Nat.gcd 2 (2 * q + 1))).
      { apply Nat.gcd_greatest; [apply Nat.gcd_divide_r|].
        eapply Nat.divide_trans; [apply Nat.gcd_divide_l|exact G2]. }
      rewrite Hg in D. exact D. }
    assert (D : Nat.divide g (Nat.gcd (2 ^ k) (2 * q + 1))) by (apply Nat.gcd_greatest; auto).
    rewrite IHk in D. exact D.
Qed.

Lemma geo_divides k : forall d, Nat.divide (2 ^ k) (geo d) -> Nat.divide (2 ^ k) d.
Proof.
  induction k as [|k IH]; intros d H; [apply Nat.divide_1_l|].
  destruct (Nat.Even_or_Odd d) as [[e ->]|[e ->]].
  - rewrite geo_double in H. destruct (pow5_mod4 e) as [q E]. rewrite E in H.
    rewrite Nat.pow_succ_r' in *. apply Nat.mul_divide_mono_l, IH.
    apply odd_cancel with q. apply (Nat.mul_divide_cancel_l _ _ 2); [lia|].
    eapply Nat.divide_trans; [exact H|]. exists 1. lia.
  - exfalso. replace (2 * e + 1) with (S (2 * e)) in H by lia. simpl geo in H.
    destruct (geo_parity e) as [q E]. replace (e + (e + 0)) with (2 * e) in H by lia.
    rewrite E in H. destruct H as [z H]. rewrite Nat.pow_succ_r' in H. lia.
Qed.

Lemma lcg_inj k x a b : a < b < 2 ^ k -> lcg a x mod 2 ^ k = lcg b x mod 2 ^ k -> False.
Proof.
  intros H E. set (m := 2 ^ k) in *. assert (m <> 0) by lia.
  (* equal residues: the difference is geo * (5^a stuff) *)
  assert (Hd : Nat.divide m (lcg b x - lcg a x)).
  { assert (lcg a x <= lcg b x).
    { replace b with ((b - a) + a) by lia. rewrite lcg_add, (lcg_closed (b - a)). lia. }
    exists (lcg b x / m - lcg a x / m).
    pose proof (Nat.div_mod (lcg a x) m H0). pose proof (Nat.div_mod (lcg b x) m H0).
    rewrite Nat.mul_sub_distr_r. nia. }
  replace b with ((b - a) + a) in Hd by lia. rewrite lcg_add, (lcg_closed (b - a)) in Hd.
  set (y := lcg a x) in *.
  replace (y + geo (b - a) * (4 * y + 1) - y) with (geo (b - a) * (2 * (2 * y) + 1)) in Hd by lia.
  apply odd_cancel, geo_divides in Hd. apply Nat.divide_pos_le in Hd; lia.
Qed.

Lemma lcg_covers k x y : y < 2 ^ k -> exists j, j < 2 ^ k /\ lcg j x mod 2 ^ k = y.
Proof.
  intro Hy. set (m := 2 ^ k) in *.
  assert (I : incl (seq 0 m) (map (fun j => lcg j x mod m) (seq 0 m))).
  { apply NoDup_length_incl.
    - assert (ND : forall l, (forall j, In j l -> j < m) -> NoDup l -> NoDup (map (fun j => lcg j x mod m) l)).
      { induction l as [|a l IH]; simpl; intros B N; constructor.
        - inversion N; subst. intro Q. apply in_map_iff in Q. destruct Q as (b & E & Hb).
          assert (a <> b) by (intros ->; auto).
          assert (a < m) by auto. assert (b < m) by auto.
          destruct (lt_dec a b); [eapply (lcg_inj k x a b); eauto|eapply (lcg_inj k x b a); eauto]; lia.
        - inversion N; subst. apply IH; auto. }
      apply ND; [|apply seq_NoDup]. intros j Hj. apply in_seq in Hj. lia.
    - rewrite map_length. lia.
    - intros z Hz. apply in_map_iff in Hz. destruct Hz as (j & <- & _). apply in_seq.
      split; [lia|]. simpl. apply Nat.mod_upper_bound. lia. }
  specialize (I y). destruct (in_map_iff (fun j => lcg j x mod m) (seq 0 m) y) as [W _].
  destruct W as (j & E & Hj); [apply I, in_seq; lia|]. apply in_seq in Hj. exists j. split; [lia|auto].
Qed.

(** *** The search *)
Lemma first_free_here t k i : nth i t None = None -> first_free t k i <> None.
Proof. destruct k; simpl; now intros ->. Qed.

Lemma step_mod i m : m <> 0 -> (i * 5 + 1 + 0) mod m = (5 * (i mod m) + 1) mod m.
Proof.
  intro H. rewrite Nat.add_0_r, (Nat.mul_comm i 5).
  rewrite (Nat.add_mod (5 * i)), (Nat.mul_mod 5 i) by auto.
  rewrite (Nat.add_mod (5 * (i mod m))), (Nat.mul_mod 5 (i mod m)), Nat.mod_mod by auto. reflexivity.
Qed.
Lemma lcg_mod j x m : m <> 0 -> lcg j (x mod m) mod m = lcg j x mod m.
Proof.
  intro H. revert x. induction j; intro x; simpl; [now apply Nat.mod_mod|].
  replace (x mod m + (x mod m + (x mod m + (x mod m + (x mod m + 0)))) + 1) with (5 * (x mod m) + 1) by lia.
  replace (x + (x + (x + (x + (x + 0)))) + 1) with (5 * x + 1) by lia.
  rewrite <- (IHj (5 * (x mod m) + 1)), <- (IHj (5 * x + 1)).
  rewrite <- (step_mod x m H). f_equal. f_equal. f_equal. lia.
Qed.

Lemma set_slot_zero f t i j :
  length t <> 0 -> i < length t -> j < f -> nth (lcg j i mod length t) t None = None ->
  set_slot f t i 0 <> None.
Proof.
  intro L. revert i f. induction j as [|j IH]; intros i f Hi Hf E; destruct f; try lia; cbn [set_slot].
  - simpl in E. rewrite Nat.mod_small in E by auto.
    destruct (first_free t _ i) eqn:Q; [discriminate|]. exfalso. eapply first_free_here; eauto.
  - destruct (first_free t _ i); [discriminate|]. change (0 / 32) with 0.
    apply IH; [now apply Nat.mod_upper_bound|lia|].
    rewrite lcg_mod by auto. replace (i * 5 + 1 + 0) with (5 * i + 1) by lia. exact E.
Qed.
Lemma set_slot_some k t : length t = 2 ^ k -> (exists y, y < length t /\ nth y t None = None) ->
  forall p i f, i < length t -> length t + p <= f -> set_slot f t i p <> None.
Proof.
  intros L (y & Hy & E). 
  assert (L0 : length t <> 0) by lia.
  induction p as [p IHp] using lt_wf_ind. intros i f Hi Hf.
  destruct p as [|p].
  - destruct (lcg_covers k i y) as (j & Hj & Ej); [lia|]. rewrite <- L in *.
    apply set_slot_zero with j; auto; [lia|]. now rewrite Ej.
  - destruct f; [lia|]. cbn [set_slot]. destruct (first_free t _ i); [discriminate|].
    assert (S p / 32 < S p) by (apply Nat.div_lt; lia).
    apply IHp; auto; [now apply Nat.mod_upper_bound|lia].
Qed.

Definition pow2 (n : nat) : Prop := exists k, n = 2 ^ k.
Lemma tbl_iter_full t : (forall y, y < length t -> nth y t None <> None) -> length t <= length (tbl_iter t).
Proof.
  induction t as [|o t IH]; simpl; intro H; [lia|]. rewrite tbl_iter_cons, app_length.
  assert (length t <= length (tbl_iter t)) by (apply IH; intros y Hy; apply (H (S y)); lia).
  specialize (H 0). simpl in H. destruct o; simpl; [lia|exfalso; apply H; auto; lia].
Qed.
Lemma free_exists t : length (tbl_iter t) < length t -> exists y, y < length t /\ nth y t None = None.
Proof.
  intro H. destruct (existsb (fun y => match nth y t None with None => true | _ => false end) (seq 0 (length t))) eqn:E.
  - apply existsb_exists in E. destruct E as (y & Hy & Q). exists y. apply in_seq in Hy. split; [lia|].
    now destruct (nth y t None).
  - exfalso. assert (length t <= length (tbl_iter t)); [|lia]. apply tbl_iter_full. intros y Hy Q.
    assert (existsb (fun y => match nth y t None with None => true | _ => false end) (seq 0 (length t)) = true); [|congruence].
    apply existsb_exists. exists y. split; [apply in_seq; lia|now rewrite Q].
Qed.
Lemma tbl_insert_some t h : pow2 (length t) -> length (tbl_iter t) < length t -> tbl_insert t h <> None.
Proof.
  intros [k L] H. unfold tbl_insert.
  destruct (set_slot _ t _ h) eqn:E; [discriminate|]. exfalso. revert E.
  apply (set_slot_some k); auto; [now apply free_exists|apply Nat.mod_upper_bound; lia].
Qed.
Lemma fill_some l : forall t, pow2 (length t) -> length l + length (tbl_iter t) < length t ->
  fold_left (fun o h => match o with None => None | Some t => tbl_insert t h end) l (Some t) <> None.
Proof.
  induction l as [|h l IH]; simpl; intros t P H; [discriminate|].
  destruct (tbl_insert t h) as [t1|] eqn:E.
  - destruct (tbl_insert_spec t h t1 ltac:(lia) E) as [L1 P1]. apply IH; [now rewrite L1|].
    rewrite (Permutation_length P1), L1. simpl. lia.
  - exfalso. revert E. apply tbl_insert_some; auto. lia.
Qed.
Lemma newsize_pow2 fuel : forall s m, pow2 s -> pow2 (newsize fuel s m).
Proof.
  induction fuel; cbn [newsize]; intros s m H; auto. destruct (s <=? m); auto.
  apply IHfuel. destruct H as [k ->]. exists (S k). now rewrite Nat.pow_succ_r'.
Qed.
Lemma pow2_8 : pow2 8. Proof. exists 3. reflexivity. Qed.

Lemma set_add_some n l t h :
  sinv n l t -> pow2 (length t) ->
  exists o, set_add (Some t) h = Some o /\ pow2 (length o).
Proof.
  intros (P & L & F & _) W. unfold set_add.
  assert (Lt : length (tbl_iter t) = length l) by now apply Permutation_length.
  destruct (tbl_insert t h) as [t1|] eqn:E.
  2:{ exfalso. revert E. apply tbl_insert_some; auto. lia. }
  destruct (tbl_insert_spec t h t1 ltac:(lia) E) as [L1 P1].
  destruct (_ <? _); [exists t1; split; auto; now rewrite L1|].
  unfold tbl_resize, tbl_fill. set (m := length (tbl_iter t1) * 4).
  destruct (newsize_ok m) as [M1 M2].
  assert (W2 : pow2 (newsize (S m) 8 m)) by (apply newsize_pow2, pow2_8).
  set (s := newsize (S m) 8 m) in *.
  destruct (fold_left _ (tbl_iter t1) _) as [o|] eqn:Q.
  - exists o. split; auto. apply fill_gen in Q; [|rewrite repeat_length; lia].
    destruct Q as [Q _]. rewrite Q, repeat_length. auto.
  - exfalso. revert Q. apply fill_some; rewrite repeat_length; auto.
    rewrite tbl_iter_empty. simpl. unfold m in M1. lia.
Qed.
Lemma fold_add_some n l' : forall l t,
  sinv n l t -> pow2 (length t) -> NoDup (l' ++ l) -> Forall (fun x => x < n) (l' ++ l) ->
  fold_left set_add l' (Some t) <> None.
Proof.
  induction l' as [|h l' IH]; cbn [fold_left app]; intros l t I W N B; [discriminate|].
  destruct (set_add_some n l t h I W) as (o & E & Wo). rewrite E.
  assert (PM : Permutation (h :: l' ++ l) (l' ++ h :: l)) by apply Permutation_middle.
  apply (IH (h :: l)); auto.
  - eapply set_add_inv; eauto.
    + inversion N; subst. constructor.
      * intro K. apply H1, in_app_iff. auto.
      * clear -H2. induction l'; simpl in *; auto. inversion H2; auto.
    + inversion B; subst. constructor; auto. apply Forall_app in H2. tauto.
  - eapply Permutation_NoDup; eauto.
  - eapply Permutation_Forall; eauto.
Qed.

Lemma complementary_list_total n b : exists l, complementary_list n b = Some l.
Proof.
  unfold complementary_list. destruct (set_of_range n) as (t & -> & ->).
  destruct (_ <? _).
  - set (s := if n * 5 <? 21 then 8 else newsize (S (2 * n)) 8 (2 * n)).
    assert (Hs : n < s /\ pow2 s).
    { unfold s. destruct (n * 5 <? 21) eqn:Q; [apply Nat.ltb_lt in Q; split; [lia|apply pow2_8]|].
      pose proof (newsize_ok (2 * n)). split; [lia|]. apply newsize_pow2, pow2_8. }
    destruct (tbl_fill s (seq 0 n)) eqn:E; [eauto|]. exfalso. revert E.
    apply fill_some; rewrite repeat_length; [tauto|]. rewrite tbl_iter_empty, seq_length. simpl. lia.
  - destruct (fold_left set_add _ _) eqn:E; [eauto|]. exfalso. revert E.
    apply (fold_add_some n _ []).
    + apply sinv_empty.
    + rewrite repeat_length. apply pow2_8.
    + rewrite app_nil_r. apply kept_nodup.
    + rewrite app_nil_r. apply kept_bound.
Qed.

Lemma complementary_list_correct n b :
  exists l, complementary_list n b = Some l /\ Permutation l (kept n b) /\
    (n <= 8 \/ 3 * n <= 5 * length (kept n b) -> l = kept n b).
Proof.
  destruct (complementary_list_total n b) as [l E]. exists l. split; auto.
  now apply complementary_list_spec.
Qed.
