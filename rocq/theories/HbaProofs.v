From Coq Require Import Reals List Arith Bool Lia Lra.
From Verif Require Import CleModel CleSpec CleProofs HbaModel HbaSpec.
Import ListNotations.
Open Scope R_scope.

Lemma rsum_app l1 l2 : fold_right Rplus 0 (l1 ++ l2) = fold_right Rplus 0 l1 + fold_right Rplus 0 l2.
Proof. induction l1 as [|x l1 IH]; cbn; [lra|]. rewrite IH. lra. Qed.
Lemma rsum_sum n f : rsum n f = sum_n n f.
Proof. unfold rsum. induction n as [|n IH]; [reflexivity|]. rewrite seq_S, map_app, rsum_app, IH. cbn. lra. Qed.
Lemma sum_minus n f h : sum_n n (fun i => f i - h i) = sum_n n f - sum_n n h.
Proof. induction n as [|n IH]; cbn [sum_n]; [lra|]. rewrite IH. lra. Qed.
Lemma sum_scale n f a : sum_n n (fun i => f i * a) = sum_n n f * a.
Proof. induction n as [|n IH]; cbn [sum_n]; [lra|]. rewrite IH. lra. Qed.
Lemma shift_pos gam bet c : 0 <= shift gam bet c.
Proof. unfold shift. cbv zeta. destruct (Rlt_dec _ _); lra. Qed.
Lemma correct_is g og ig K w2 s d o : (0 < g)%nat -> (0 < og)%nat -> (0 < ig)%nat -> (o < g * og)%nat -> correct (g * ig) (g * og) ig K w2 s = Some d ->
  d o = sum_n ig (fun i => sum_n K (w2 o i) * s (o / og * ig + i)%nat).
Proof.
  intros G OG IG L H. unfold correct in H. destruct (ig =? 1) eqn:E1.
  - apply Nat.eqb_eq in E1. subst ig. destruct (g * og =? g * 1) eqn:E2.
    + apply Nat.eqb_eq in E2. assert (og = 1%nat) by nia. subst og. injection H as <-. cbn [sum_n]. unfold reduced. rewrite rsum_sum, Nat.div_1_r, Nat.mul_1_r, Nat.add_0_r. lra.
    + destruct (g * 1 =? 1) eqn:E3; [|discriminate]. apply Nat.eqb_eq in E3. assert (g = 1%nat) by lia. subst g. injection H as <-. cbn [sum_n]. unfold reduced. rewrite rsum_sum, Nat.div_small by lia. cbn [plus Nat.mul]. lra.
  - destruct (ig =? g * ig) eqn:E2; [|discriminate]. apply Nat.eqb_eq in E2. assert (g = 1%nat) by nia. subst g. injection H as <-. rewrite rsum_sum. apply sum_ext. intros i I. unfold reduced. rewrite rsum_sum, Nat.div_small by lia. reflexivity.
Qed.
Lemma absorb_keeps g og ig J K k1 k2 gam bet w1 b1 act w2 b2 b1' b2' x o : (0 < g)%nat -> (0 < og)%nat -> (0 < ig)%nat -> (o < g * og)%nat -> keeps_positive act ->
  (forall k c, (k < K)%nat -> (c < g * ig)%nat -> three_sigma gam bet c (pre_act J w1 b1 x k c) /\ 0 <= pre_act J w1 b1 x k c) ->
  absorb k1 k2 (g * ig) (g * og) ig K gam bet b1 w2 b2 = Some (b1', b2') -> two_layers og ig J K w1 b1' act w2 b2' x o = two_layers og ig J K w1 b1 act w2 b2 x o.
Proof.
  intros G OG IG L KP TS H. unfold absorb in H. destruct k1, k2; try discriminate H; try (injection H as <- <-; reflexivity). cbv zeta in H.
  destruct (correct _ _ _ _ _ _) as [d|] eqn:D; [|discriminate]. injection H as <- <-. rename o into p. unfold two_layers. cbv beta. rewrite (correct_is g og ig K w2 _ d p G OG IG L D).
  rewrite Rplus_assoc. f_equal. match goal with |- ?A + ?B = ?C => enough (Q : B = C - A) by (rewrite Q; lra) end. rewrite <- sum_minus. apply sum_ext. intros i I. cbv zeta. set (c := (p / og * ig + i)%nat).
  rewrite <- sum_scale, <- sum_minus. apply sum_ext. intros k KK.
  assert (C : (c < g * ig)%nat). { assert (P : (p / og < g)%nat) by (apply Nat.div_lt_upper_bound; lia). unfold c. nia. }
  destruct (TS k c KK C) as (T & NN). unfold pre_act, three_sigma in *. set (y := sum_n J _) in *.
  assert (S : shift gam bet c <= b1 c + y).
  { unfold shift. cbv zeta. destruct (Rlt_dec _ _); [exact NN|]. pose proof (Rle_abs (- (b1 c + y - bet c))) as Q. rewrite Rabs_Ropp in Q. lra. }
  rewrite (KP c (b1 c + y)) by exact NN. rewrite KP by lra. lra.
Qed.
Lemma absorb_fails g og ig K gam bet b1 w2 b2 : (1 < g)%nat -> (0 < og)%nat -> (0 < ig)%nat -> (1 < ig \/ 1 < og)%nat -> absorb HBn HBn (g * ig) (g * og) ig K gam bet b1 w2 b2 = None.
Proof.
  intros G OG IG D. unfold absorb, correct. cbv zeta. destruct (ig =? 1) eqn:E1.
  - apply Nat.eqb_eq in E1. subst ig. replace (g * og =? g * 1)%nat with false by (symmetry; apply Nat.eqb_neq; nia). replace (g * 1 =? 1)%nat with false by (symmetry; apply Nat.eqb_neq; nia). reflexivity.
  - apply Nat.eqb_neq in E1. replace (ig =? g * ig)%nat with false by (symmetry; apply Nat.eqb_neq; nia). reflexivity.
Qed.
Lemma absorb_works g og ig K gam bet b1 w2 b2 : g = 1%nat \/ (ig = 1%nat /\ og = 1%nat) -> exists r, absorb HBn HBn (g * ig) (g * og) ig K gam bet b1 w2 b2 = Some r.
Proof.
  intros D. unfold absorb, correct. cbv zeta. destruct (ig =? 1) eqn:E1.
  - apply Nat.eqb_eq in E1. subst ig. destruct (g * og =? g * 1)%nat eqn:E2; [eauto|]. apply Nat.eqb_neq in E2. destruct D as [->|(_ & ->)]; [change (1 * 1 =? 1)%nat with true; eexists; reflexivity|lia].
  - apply Nat.eqb_neq in E1. destruct D as [->|(E & _)]; [|contradiction]. rewrite Nat.mul_1_l, Nat.eqb_refl. eauto.
Qed.
(** * Counterexamples *)
Lemma relu_positive : keeps_positive (fun _ y => Rmax 0 y).
Proof. intros c y H. now apply Rmax_right. Qed.
Lemma pad_lemma : exists og ig J K pad gam bet w1 b1 act w2 b2 b1' b2' x o, (o < 1 * og)%nat /\ keeps_positive act /\
  (forall k c, (k < K)%nat -> (c < 1 * ig)%nat -> three_sigma gam bet c (pre_act J w1 b1 x k c) /\ 0 <= pre_act J w1 b1 x k c) /\
  absorb HBn HBn (1 * ig) (1 * og) ig K gam bet b1 w2 b2 = Some (b1', b2') /\ two_layers_pad og ig J K pad w1 b1' act w2 b2' x o <> two_layers_pad og ig J K pad w1 b1 act w2 b2 x o.
Proof.
  destruct (absorb_works 1 1 1 1 (fun _ => 0) (fun _ => 1) (fun _ => 1) (fun _ _ _ => 1) (fun _ => 0) (or_introl eq_refl)) as ([b1' b2'] & E).
  exists 1%nat, 1%nat, 1%nat, 1%nat, (fun _ => true), (fun _ => 0), (fun _ => 1), (fun _ _ => 0), (fun _ => 1), (fun _ y => Rmax 0 y), (fun _ _ _ => 1), (fun _ => 0), b1', b2', (fun _ _ _ => 0), 0%nat.
  split; [lia|]. split; [exact relu_positive|]. split; [intros k c _ _; unfold three_sigma, pre_act; cbn [sum_n]; split; [|lra]; replace (1 + (0 + 0 * 0) - 1) with 0 by lra; rewrite Rabs_R0; lra|].
  split; [exact E|]. cbn in E. injection E as <- <-. unfold two_layers_pad, reduced, rsum, shift. cbn [sum_n map seq fold_right]. cbv zeta. rewrite Rabs_R0. destruct (Rlt_dec _ _); lra.
Qed.
(** the batch norm that is remembered is not scaled by the equalization before *)
Lemma stale_lemma : exists smin smax thr g og ig J K w1 b1 w2 w1' b1' w2' gam bet act b2 b1'' b2'' x o,
  (o < g * og)%nat /\ 0 < smin /\ smin <= smax /\ homogeneous act /\ keeps_positive act /\ equalize_pair smin smax thr g og ig J K w1 b1 w2 = Some (w1', b1', w2') /\
  (forall k c, (k < K)%nat -> (c < g * ig)%nat -> three_sigma gam bet c (pre_act J w1 b1 x k c) /\ 0 <= pre_act J w1 b1 x k c) /\
  absorb HBn HBn (g * ig) (g * og) ig K gam bet b1' w2' b2 = Some (b1'', b2'') /\
  two_layers og ig J K w1' b1'' act w2' b2'' x o <> two_layers og ig J K w1 b1 act w2 b2 x o.
Proof.
  destruct (cle_clean (/ 100) 100 (/ 2) 1 1 1 1 1 (fun _ _ => 4) (fun _ => 0) (fun _ _ _ => 1)) as ([[w1' b1'] w2'] & E); [intros c _; exists 0%nat; split; [lia|lra]|].
  destruct (absorb_works 1 1 1 1 (fun _ => 1) (fun _ => 4) b1' w2' (fun _ => 0) (or_introl eq_refl)) as ([b1'' b2''] & F).
  exists (/ 100), 100, (/ 2), 1%nat, 1%nat, 1%nat, 1%nat, 1%nat, (fun _ _ => 4), (fun _ => 0), (fun _ _ _ => 1), w1', b1', w2', (fun _ => 1), (fun _ => 4), (fun _ y => Rmax 0 y), (fun _ => 0), b1'', b2'', (fun _ _ _ => / 4), 0%nat.
  split; [lia|]. split; [lra|]. split; [lra|]. split; [intros c a y A; rewrite <- (Rmult_0_r a) at 1; apply RmaxRmult; lra|]. split; [exact relu_positive|]. split; [exact E|].
  split; [intros k c _ _; unfold three_sigma, pre_act; cbn [sum_n]; split; [|lra]; replace (0 + (0 + 4 * / 4) - 4) with (- (3)) by lra; rewrite Rabs_Ropp, Rabs_R1, Rabs_right; lra|].
  split; [exact F|]. destruct (pair_scales _ _ _ _ _ _ _ _ _ _ _ _ _ _ E) as (s & S & E1 & E2 & E3 & _).
  assert (S0 : s 0%nat = 2).
  { specialize (S 0%nat ltac:(lia)). unfold cle_scale in S. rewrite (row_max_is 1 _ 4), (row_max_is (1 * 1) _ 1) in S.
    - unfold scale in S. destruct (Rlt_dec (4 + 1) (/ 2)); [lra|]. replace (4 * 1) with (2 * 2) in S by lra. rewrite sqrt_square in S by lra. cbv zeta in S. destruct (Req_EM_T 2 0); [lra|].
      replace (4 / 2) with 2 in S by lra. rewrite Rmax_left, Rmin_left in S by lra. congruence.
    - intros q _. unfold rows_2. rewrite Rabs_R1. lra.
    - exists 0%nat. split; [lia|apply Rabs_R1].
    - intros q _. rewrite Rabs_right; lra.
    - exists 0%nat. split; [lia|]. rewrite Rabs_right; lra. }
  assert (SH : shift (fun _ => 1) (fun _ => 4) 0 = 1) by (unfold shift; cbv zeta; rewrite Rabs_R1; destruct (Rlt_dec _ _); lra).
  cbn [absorb correct Nat.eqb Nat.mul Nat.add] in F. injection F as <- <-. unfold two_layers, reduced, rsum. cbn [sum_n map seq fold_right]. cbv zeta. change (0 / 1 * 1 + 0)%nat with 0%nat. rewrite SH, E1, E2, E3.
  change (0 / 1 * 1 + 0)%nat with 0%nat. rewrite S0. rewrite (Rmax_left 0 (0 / 2 - 1 + (0 + 4 / 2 * / 4))) by lra. rewrite (Rmax_right 0 (0 + (0 + 4 * / 4))) by lra. lra.
Qed.
(** * All groups *)
Lemma groups_ok bn sh co m : forall gs org org', in_order gs -> absorb_groups bn sh co m org gs = Some org' ->
  forall n c, ((exists a d, In (a, n) gs /\ bn a = true /\ bn n = true /\ co a n = Some d /\ exists sub, org' n c = m n c + d c - sub /\ ((exists b, In (n, b) gs /\ bn n = true /\ bn b = true /\ sub = sh n c) \/ ((forall b, In (n, b) gs -> bn n = false \/ bn b = false) /\ sub = 0))) \/
    ((forall a, In (a, n) gs -> bn a = false \/ bn n = false) /\ exists sub, org' n c = org n c - sub /\ ((exists b, In (n, b) gs /\ bn n = true /\ bn b = true /\ sub = sh n c) \/ ((forall b, In (n, b) gs -> bn n = false \/ bn b = false) /\ sub = 0)))).
Proof.
  induction gs as [|[a b] gs IH]; intros org org' IO H n c.
  - cbn in H. injection H as <-. right. split; [intros a []|]. exists 0. split; [lra|]. right. split; [intros b []|reflexivity].
  - inversion IO as [|a0 b0 gs0 IO' NE A1 B1 A2 EQ]; subst. cbn [absorb_groups] in H. destruct (absorb_group _ _ _ _ _ _ _) as [org1|] eqn:E; [|discriminate]. specialize (IH org1 org' IO' H n c). unfold absorb_group in E.
    destruct (bn a && bn b) eqn:BN.
    + apply andb_prop in BN. destruct BN as (BA & BB). destruct (co a b) as [d|] eqn:CO; [|discriminate]. injection E as <-. unfold set_bias in IH.
      destruct (Nat.eq_dec n b) as [->|NB].
      * rewrite Nat.eqb_refl in IH. destruct IH as [(x & y & I & _)|(_ & sub & Q & S)]; [elim (B1 x I)|]. left. exists a, d. split; [now left|]. repeat (split; [assumption|]). exists sub. split; [exact Q|].
        destruct S as [(z & I & S)|(S & Z)]; [left; exists z; split; [now right|exact S]|]. right. split; [|exact Z]. intros z [I|I]; [injection I as -> _; congruence|]. now apply S.
      * apply Nat.eqb_neq in NB. rewrite NB in IH. apply Nat.eqb_neq in NB. destruct (Nat.eq_dec n a) as [->|NA].
        -- rewrite Nat.eqb_refl in IH. destruct IH as [(x & y & I & _)|(F & sub & Q & S)]; [elim (A2 x I)|]. right. split; [intros x [I|I]; [injection I as _ ->; congruence|elim (A2 x I)]|].
           destruct S as [(z & I & _)|(_ & ->)]; [elim (A1 z I)|]. exists (sh a c). split; [lra|]. left. exists b. split; [now left|]. auto.
        -- apply Nat.eqb_neq in NA. rewrite NA in IH. apply Nat.eqb_neq in NA.
           assert (X : forall sub, ((exists z, In (n, z) gs /\ bn n = true /\ bn z = true /\ sub = sh n c) \/ ((forall z, In (n, z) gs -> bn n = false \/ bn z = false) /\ sub = 0)) -> ((exists z, In (n, z) ((a, b) :: gs) /\ bn n = true /\ bn z = true /\ sub = sh n c) \/ ((forall z, In (n, z) ((a, b) :: gs) -> bn n = false \/ bn z = false) /\ sub = 0))).
           { intros sub [(z & I & S)|(S & Z)]; [left; exists z; split; [now right|exact S]|]. right. split; [|exact Z]. intros z [I|I]; [congruence|now apply S]. }
           destruct IH as [(x & y & I & P1 & P2 & P3 & sub & Q & S)|(F & sub & Q & S)].
           ++ left. exists x, y. split; [now right|]. repeat (split; [assumption|]). exists sub. auto.
           ++ right. split; [intros x [I|I]; [congruence|now apply F]|]. exists sub. auto.
    + injection E as <-. apply andb_false_iff in BN.
      assert (X : forall sub, ((exists z, In (n, z) gs /\ bn n = true /\ bn z = true /\ sub = sh n c) \/ ((forall z, In (n, z) gs -> bn n = false \/ bn z = false) /\ sub = 0)) -> ((exists z, In (n, z) ((a, b) :: gs) /\ bn n = true /\ bn z = true /\ sub = sh n c) \/ ((forall z, In (n, z) ((a, b) :: gs) -> bn n = false \/ bn z = false) /\ sub = 0))).
      { intros sub [(z & I & S)|(S & Z)]; [left; exists z; split; [now right|exact S]|]. right. split; [|exact Z]. intros z [I|I]; [injection I as <- <-; exact BN|now apply S]. }
      destruct IH as [(x & y & I & P1 & P2 & P3 & sub & Q & S)|(F & sub & Q & S)].
      * left. exists x, y. split; [now right|]. repeat (split; [assumption|]). exists sub. auto.
      * right. split; [intros x [I|I]; [injection I as <- <-; exact BN|now apply F]|]. exists sub. auto.
Qed.
Lemma model_ok bn sh co m gs m' : in_order gs -> absorb_model bn sh co m gs = Some m' -> forall n c, moved bn sh co m gs n c (m' n c).
Proof.
  intros IO H n c. unfold moved. destruct (groups_ok bn sh co m gs m m' IO H n c) as [(a & d & I & P1 & P2 & P3 & sub & Q & S)|(F & sub & Q & S)].
  - exists (d c), sub. split; [exact Q|]. split; [left; exists a, d; auto|exact S].
  - exists 0, sub. split; [lra|]. split; [right; auto|exact S].
Qed.
Lemma order_lemma : exists bn sh co m gs m' n c, NoDup (map fst gs) /\ NoDup (map snd gs) /\ (forall x, ~ In (x, x) gs) /\ absorb_model bn sh co m gs = Some m' /\ ~ moved bn sh co m gs n c (m' n c).
Proof.
  exists (fun _ => true), (fun _ _ => 1), (fun _ _ => Some (fun _ => 0)), (fun _ _ => 5), [(2, 3); (1, 2)]%nat. eexists. exists 2%nat, 0%nat.
  split; [repeat constructor; cbn; intuition discriminate|]. split; [repeat constructor; cbn; intuition discriminate|]. split; [intros x [I|[I|[]]]; injection I as E1 E2; congruence|]. split; [reflexivity|].
  unfold set_bias. cbn [Nat.eqb]. intros (add & sub & E & [(a & d & _ & _ & _ & D & ->)|(F & _)] & [(b & _ & _ & _ & ->)|(F' & _)]).
  - injection D as <-. lra.
  - destruct (F' 3%nat (or_introl eq_refl)); discriminate.
  - destruct (F 1%nat (or_intror (or_introl eq_refl))); discriminate.
  - destruct (F 1%nat (or_intror (or_introl eq_refl))); discriminate.
Qed.
