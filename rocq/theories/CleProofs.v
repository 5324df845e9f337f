From Coq Require Import Reals List Arith Lia Lra.
From Verif Require Import CleModel CleSpec.
Import ListNotations.
Open Scope R_scope.

Lemma fold_max_ge : forall l x, In x l -> x <= fold_right Rmax 0 l.
Proof. induction l as [|y l IH]; intros x []; cbn [fold_right]; [subst; apply Rmax_l|]. eapply Rle_trans; [apply IH; assumption|apply Rmax_r]. Qed.
Lemma fold_max_in : forall l, fold_right Rmax 0 l = 0 \/ In (fold_right Rmax 0 l) l.
Proof.
  induction l as [|y l IH]; [now left|]. cbn [fold_right]. destruct (Rle_dec y (fold_right Rmax 0 l)) as [L|L].
  - rewrite Rmax_right by exact L. destruct IH as [->|IH]; [now left|]. right. now right.
  - rewrite Rmax_left by lra. right. now left.
Qed.
Lemma row_max_is n f m : (forall j, (j < n)%nat -> Rabs (f j) <= m) -> (exists j, (j < n)%nat /\ Rabs (f j) = m) -> row_max n f = m.
Proof.
  intros A (j & L & E). unfold row_max. assert (I : In m (map (fun j => Rabs (f j)) (seq 0 n))) by (apply in_map_iff; exists j; split; [exact E|apply in_seq; lia]).
  apply Rle_antisym; [|now apply fold_max_ge]. destruct (fold_max_in (map (fun j => Rabs (f j)) (seq 0 n))) as [->|I2].
  - rewrite <- E. apply Rabs_pos.
  - apply in_map_iff in I2. destruct I2 as (q & <- & Q). apply in_seq in Q. apply A. lia.
Qed.
Lemma row_max_pos n f : 0 <= row_max n f.
Proof. unfold row_max. destruct (fold_max_in (map (fun j => Rabs (f j)) (seq 0 n))) as [->|I]; [lra|]. apply in_map_iff in I. destruct I as (q & <- & _). apply Rabs_pos. Qed.
Lemma all_some_nth : forall l r, all_some l = Some r -> length r = length l /\ forall i, (i < length l)%nat -> nth i l None = Some (nth i r 1).
Proof.
  induction l as [|[x|] l IH]; intros r H; cbn in H; [injection H as <-; split; [reflexivity|cbn; lia]| |discriminate].
  destruct (all_some l) as [q|]; [|discriminate]. injection H as <-. destruct (IH q eq_refl) as (L & N). split; [cbn; now rewrite L|].
  intros [|i] I; [reflexivity|]. cbn in *. apply N. lia.
Qed.
Lemma all_some_ex : forall l, (forall x, In x l -> x <> None) -> exists r, all_some l = Some r.
Proof.
  induction l as [|[x|] l IH]; intros H; [now exists []| |elim (H None); [now left|reflexivity]].
  destruct IH as (r & E); [intros y Y; apply H; now right|]. cbn. rewrite E. eauto.
Qed.
Lemma scale_pos smin smax thr r1 r2 x : 0 < smin -> smin <= smax -> scale smin smax thr r1 r2 = Some x -> 0 < x.
Proof.
  intros A B H. unfold scale in H. destruct (Rlt_dec _ _); [injection H as <-; lra|]. destruct (Req_EM_T (sqrt _) 0).
  - destruct (Req_EM_T r1 0); [discriminate|]. injection H as <-. lra.
  - injection H as <-. apply Rmin_glb_lt; [|lra]. eapply Rlt_le_trans; [exact A|apply Rmax_r].
Qed.
Lemma sum_ext n f h : (forall i, (i < n)%nat -> f i = h i) -> sum_n n f = sum_n n h.
Proof. induction n as [|n IH]; intros H; [reflexivity|]. cbn [sum_n]. rewrite IH by (intros; apply H; lia). now rewrite H by lia. Qed.
Lemma sum_div n f a : sum_n n (fun j => f j / a) = sum_n n f / a.
Proof. induction n as [|n IH]; cbn [sum_n]; [unfold Rdiv; lra|]. rewrite IH. unfold Rdiv. lra. Qed.

Lemma pair_scales smin smax thr g og ig J K w1 b1 w2 w1' b1' w2' : equalize_pair smin smax thr g og ig J K w1 b1 w2 = Some (w1', b1', w2') ->
  exists s, (forall c, (c < g * ig)%nat -> cle_scale smin smax thr g og J K w1 w2 c = Some (s c)) /\ (forall c j, w1' c j = w1 c j / s c) /\ (forall c, b1' c = b1 c / s c) /\ (forall o i k, w2' o i k = w2 o i k * s ((o / og) * ig + i)%nat) /\
    (forall c, (g * ig <= c)%nat -> s c = 1).
Proof.
  unfold equalize_pair. destruct (all_some _) as [l|] eqn:E; [|discriminate]. intros H. injection H as <- <- <-. destruct (all_some_nth _ _ E) as (L & N). rewrite map_length, seq_length in L, N.
  exists (fun c => nth c l 1). split; [|repeat split; auto; intros c C; apply nth_overflow; lia].
  intros c C. rewrite <- (N c C). rewrite (nth_indep _ None (cle_scale smin smax thr g og J K w1 w2 0%nat)) by (rewrite map_length, seq_length; exact C). rewrite map_nth, seq_nth by exact C. reflexivity.
Qed.
Lemma cle_keeps smin smax thr g og ig J K w1 b1 w2 w1' b1' w2' act b2 x o : 0 < smin -> smin <= smax -> homogeneous act ->
  equalize_pair smin smax thr g og ig J K w1 b1 w2 = Some (w1', b1', w2') -> two_layers og ig J K w1' b1' act w2' b2 x o = two_layers og ig J K w1 b1 act w2 b2 x o.
Proof.
  intros A B HO E. destruct (pair_scales _ _ _ _ _ _ _ _ _ _ _ _ _ _ E) as (s & S & E1 & E2 & E3 & S1). unfold two_layers. f_equal. apply sum_ext. intros i _. apply sum_ext. intros k _. cbv zeta.
  set (c := (o / og * ig + i)%nat). rewrite E3. fold c. assert (P : 0 < s c).
  { destruct (le_lt_dec (g * ig) c) as [L|L]; [rewrite (S1 c L); lra|]. exact (scale_pos _ _ _ _ _ _ A B (S c L)). }
  rewrite E2, (sum_ext J _ (fun j => (w1 c j * x k c j) / s c)) by (intros j _; rewrite E1; unfold Rdiv; lra). rewrite sum_div.
  replace (b1 c / s c + sum_n J (fun j => w1 c j * x k c j) / s c) with (/ s c * (b1 c + sum_n J (fun j => w1 c j * x k c j))) by (unfold Rdiv; lra).
  rewrite HO by now apply Rinv_0_lt_compat. field. lra.
Qed.
Lemma cle_clean smin smax thr g og ig J K w1 b1 w2 : (forall c, (c < g * ig)%nat -> exists j, (j < J)%nat /\ w1 c j <> 0) -> exists r, equalize_pair smin smax thr g og ig J K w1 b1 w2 = Some r.
Proof.
  intros H. unfold equalize_pair. destruct (all_some_ex (map (cle_scale smin smax thr g og J K w1 w2) (seq 0 (g * ig)))) as (r & E); [|rewrite E; eauto].
  intros x X. apply in_map_iff in X. destruct X as (c & <- & C). apply in_seq in C. destruct (H c) as (j & L & NZ); [lia|]. unfold cle_scale, scale. destruct (Rlt_dec _ _); [discriminate|].
  destruct (Req_EM_T (sqrt _) 0); [|discriminate]. destruct (Req_EM_T (row_max J (w1 c)) 0) as [Z|]; [|discriminate]. exfalso.
  assert (I : Rabs (w1 c j) <= row_max J (w1 c)) by (apply fold_max_ge, in_map_iff; exists j; split; [reflexivity|apply in_seq; lia]). pose proof (Rabs_pos_lt _ NZ). lra.
Qed.
(** * Ranges *)
Lemma rows_2_range g og ig K w2 c b : g = 1%nat \/ ig = 1%nat -> (0 < og)%nat -> (0 < K)%nat -> (c < g * ig)%nat -> in_range og ig K w2 c b -> row_max (og * K) (rows_2 g og K w2 c) = b.
Proof.
  intros D OG KP C (A & (o & k & O & KK & E)).
  assert (CD : (c mod g = c / ig)%nat /\ (c / g = c mod ig)%nat).
  { destruct D as [->| ->].
    - rewrite Nat.mod_1_r, Nat.div_1_r. rewrite Nat.mul_1_l in C. rewrite Nat.div_small, Nat.mod_small by exact C. auto.
    - rewrite Nat.mod_1_r, Nat.div_1_r. rewrite Nat.mul_1_r in C. rewrite Nat.div_small, Nat.mod_small by exact C. auto. }
  destruct CD as (C1 & C2). apply row_max_is; unfold rows_2; rewrite C1, C2.
  - intros q Q. apply A.
    + rewrite Nat.add_comm, Nat.div_add by lia. rewrite Nat.div_small; [reflexivity|]. apply Nat.div_lt_upper_bound; lia.
    + apply Nat.mod_upper_bound. lia.
  - exists ((o mod og) * K + k)%nat. assert (M : (o mod og < og)%nat) by (apply Nat.mod_upper_bound; lia). split; [nia|].
    rewrite (Nat.add_comm (o mod og * K)), Nat.div_add, Nat.mod_add, (Nat.div_small k), (Nat.mod_small k) by lia. rewrite <- O. rewrite <- E. f_equal. f_equal. cbn [plus]. pose proof (Nat.div_mod o og). lia.
Qed.
Lemma out_scaled J w w' c a s : 0 < s -> (forall j, w' c j = w c j / s) -> out_range J w c a -> out_range J w' c (a / s).
Proof.
  intros P E (A & (j & L & B)). assert (AB : forall y, Rabs (y / s) = Rabs y / s) by (intros y; unfold Rdiv; rewrite Rabs_mult; f_equal; apply Rabs_right; left; now apply Rinv_0_lt_compat).
  split; [|exists j; split; [exact L|rewrite E, AB, B; reflexivity]].
  intros q Q. rewrite E, AB. apply Rmult_le_compat_r; [left; now apply Rinv_0_lt_compat|now apply A].
Qed.
Lemma in_scaled og ig K w w' c b s : 0 < s -> (forall o k, (o / og = c / ig)%nat -> w' o (c mod ig)%nat k = w o (c mod ig)%nat k * s) -> in_range og ig K w c b -> in_range og ig K w' c (b * s).
Proof.
  intros P E (A & (o & k & O & L & B)). assert (AB : forall y, Rabs (y * s) = Rabs y * s) by (intros y; rewrite Rabs_mult; f_equal; apply Rabs_right; lra).
  split; [|exists o, k; repeat split; auto; rewrite E, AB, B by exact O; reflexivity].
  intros q t Q T. rewrite E, AB by exact Q. apply Rmult_le_compat_r; [lra|now apply A].
Qed.
Lemma scale_root smin smax thr a b x : 0 < a -> 0 < b -> thr <= a + b -> 0 < smin -> smin <= smax -> smin * smin * b <= a <= smax * smax * b -> scale smin smax thr a b = Some x -> 0 < x /\ x * x * b = a.
Proof.
  intros A B T S1 S2 (L & U) H. unfold scale in H. destruct (Rlt_dec (a + b) thr); [lra|]. assert (AB : 0 < a * b) by now apply Rmult_lt_0_compat.
  pose proof (sqrt_lt_R0 _ AB) as SP. pose proof (sqrt_sqrt (a * b)) as SS. specialize (SS (Rlt_le _ _ AB)). set (d := sqrt (a * b)) in *. cbv zeta in H.
  destruct (Req_EM_T d 0); [lra|]. set (q := a / d) in *. assert (QD : q * d = a) by (unfold q; field; lra). assert (QP : 0 < q) by (unfold q; apply Rdiv_lt_0_compat; lra).
  assert (QQ : q * q * b = a). { apply Rmult_eq_reg_r with (d * d); [|nra]. transitivity ((q * d) * (q * d) * b); [lra|]. rewrite QD, SS. lra. }
  assert (Q1 : smin <= q). { destruct (Rle_lt_dec smin q) as [|K]; [assumption|]. exfalso. assert (q * q < smin * smin) by nra. nra. }
  assert (Q2 : q <= smax). { destruct (Rle_lt_dec q smax) as [|K]; [assumption|]. exfalso. assert (smax * smax < q * q) by nra. nra. }
  rewrite Rmax_left, Rmin_left in H by lra. injection H as <-. auto.
Qed.
Lemma in_group c og ig o s : (0 < ig)%nat -> (o / og = c / ig)%nat -> s ((o / og) * ig + c mod ig)%nat = s c :> R.
Proof. intros I O. f_equal. rewrite O. pose proof (Nat.div_mod c ig). lia. Qed.
Lemma cle_equal smin smax thr g og ig J K w1 b1 w2 w1' b1' w2' c a b : g = 1%nat \/ ig = 1%nat -> (0 < og)%nat -> (0 < K)%nat -> (c < g * ig)%nat -> 0 < smin -> smin <= smax ->
  equalize_pair smin smax thr g og ig J K w1 b1 w2 = Some (w1', b1', w2') -> out_range J w1 c a -> in_range og ig K w2 c b -> 0 < a -> 0 < b -> thr <= a + b -> smin * smin * b <= a <= smax * smax * b ->
  exists m, out_range J w1' c m /\ in_range og ig K w2' c m /\ m * m = a * b.
Proof.
  intros D OG KP C S1 S2 E RA RB A B T LU. destruct (pair_scales _ _ _ _ _ _ _ _ _ _ _ _ _ _ E) as (s & S & E1 & _ & E3 & _). specialize (S c C). unfold cle_scale in S.
  rewrite (rows_2_range g og ig K w2 c b D OG KP C RB), (row_max_is J (w1 c) a) in S by apply RA. destruct (scale_root _ _ _ _ _ _ A B T S1 S2 LU S) as (P & Q).
  exists (b * s c). assert (M : a / s c = b * s c) by (rewrite <- Q; field; lra). split; [rewrite <- M; apply (out_scaled J w1); auto|]. split.
  - apply (in_scaled og ig K w2); auto. intros o k O. rewrite E3. f_equal. apply (in_group c); auto. destruct ig; lia.
  - rewrite <- Q at 1. lra.
Qed.
Lemma cle_small smin smax thr g og ig J K w1 b1 w2 w1' b1' w2' c a b : g = 1%nat \/ ig = 1%nat -> (0 < og)%nat -> (0 < K)%nat -> (c < g * ig)%nat ->
  equalize_pair smin smax thr g og ig J K w1 b1 w2 = Some (w1', b1', w2') -> out_range J w1 c a -> in_range og ig K w2 c b -> a + b < thr ->
  (forall j, w1' c j = w1 c j) /\ b1' c = b1 c /\ forall o k, (o / og = c / ig)%nat -> w2' o (c mod ig)%nat k = w2 o (c mod ig)%nat k.
Proof.
  intros D OG KP C E RA RB T. destruct (pair_scales _ _ _ _ _ _ _ _ _ _ _ _ _ _ E) as (s & S & E1 & E2 & E3 & _). specialize (S c C). unfold cle_scale in S.
  rewrite (rows_2_range g og ig K w2 c b D OG KP C RB), (row_max_is J (w1 c) a) in S by apply RA. unfold scale in S. destruct (Rlt_dec (a + b) thr); [|lra]. injection S as S.
  split; [intros j; rewrite E1, <- S; field|]. split; [rewrite E2, <- S; field|]. intros o k O. rewrite E3, (in_group c) by (auto; destruct ig; lia). rewrite <- S. lra.
Qed.
Lemma all_some_none : forall l, In None l -> all_some l = None.
Proof. induction l as [|[x|] l IH]; intros H; [destruct H| |reflexivity]. destruct H as [H|H]; [discriminate|]. cbn. now rewrite (IH H). Qed.
Lemma cle_dead smin smax thr g og ig J K w1 b1 w2 c b : g = 1%nat \/ ig = 1%nat -> (0 < og)%nat -> (0 < K)%nat -> (c < g * ig)%nat -> (0 < J)%nat ->
  (forall j, (j < J)%nat -> w1 c j = 0) -> in_range og ig K w2 c b -> thr <= b -> equalize_pair smin smax thr g og ig J K w1 b1 w2 = None.
Proof.
  intros D OG KP C JP Z RB T. unfold equalize_pair. rewrite all_some_none; [reflexivity|]. apply in_map_iff. exists c. split; [|apply in_seq; lia]. unfold cle_scale.
  rewrite (rows_2_range g og ig K w2 c b D OG KP C RB), (row_max_is J (w1 c) 0).
  - unfold scale. destruct (Rlt_dec _ _); [lra|]. rewrite Rmult_0_l, sqrt_0. destruct (Req_EM_T 0 0); [reflexivity|lra].
  - intros j L. rewrite (Z j L), Rabs_R0. lra.
  - exists 0%nat. rewrite (Z 0%nat JP), Rabs_R0. auto.
Qed.
(** * Counterexamples *)
Definition gw (o i k : nat) : R := match o, i with O, S O => 4 | _, _ => 1 end.
Lemma group_lemma : exists smin smax thr g og ig J K w1 b1 w2 w1' b1' w2' c a b,
  (0 < og)%nat /\ (0 < K)%nat /\ (c < g * ig)%nat /\ 0 < smin /\ smin <= smax /\ equalize_pair smin smax thr g og ig J K w1 b1 w2 = Some (w1', b1', w2') /\
  out_range J w1 c a /\ in_range og ig K w2 c b /\ 0 < a /\ 0 < b /\ thr <= a + b /\ smin * smin * b <= a <= smax * smax * b /\
  ~ exists m, out_range J w1' c m /\ in_range og ig K w2' c m.
Proof.
  destruct (cle_clean (/ 100) 100 (/ 2) 2 1 2 1 1 (fun _ _ => 1) (fun _ => 0) gw) as ([[w1' b1'] w2'] & E); [intros c _; exists 0%nat; split; [lia|lra]|].
  exists (/ 100), 100, (/ 2), 2%nat, 1%nat, 2%nat, 1%nat, 1%nat, (fun _ _ => 1), (fun _ => 0), gw, w1', b1', w2', 1%nat, 1, 4.
  repeat split; try lia; try lra; try exact E.
  - intros j _. rewrite Rabs_R1. lra.
  - exists 0%nat. split; [lia|apply Rabs_R1].
  - intros o k O _. rewrite Nat.div_1_r in O. cbn in O. subst o. cbn. rewrite Rabs_right; lra.
  - exists 0%nat, 0%nat. repeat split; auto. cbn. rewrite Rabs_right; lra.
  - intros (m & (A & (j & L & B)) & (C & _)). destruct (pair_scales _ _ _ _ _ _ _ _ _ _ _ _ _ _ E) as (s & S & E1 & _ & E3 & _).
    assert (S1 : s 1%nat = 1).
    { specialize (S 1%nat ltac:(lia)). unfold cle_scale in S. rewrite (row_max_is 1 _ 1), (row_max_is (1 * 1) _ 1) in S.
      - unfold scale in S. destruct (Rlt_dec (1 + 1) (/ 2)); [lra|]. rewrite Rmult_1_r, sqrt_1 in S. destruct (Req_EM_T 1 0); [lra|]. cbv zeta in S. unfold Rdiv in S. rewrite Rinv_1, Rmult_1_r in S. rewrite Rmax_left, Rmin_left in S by lra. congruence.
      - intros q Q. assert (q = 0%nat) by lia. subst q. cbn. rewrite Rabs_R1. lra.
      - exists 0%nat. split; [lia|]. cbn. apply Rabs_R1.
      - intros q _. rewrite Rabs_R1. lra.
      - exists 0%nat. split; [lia|apply Rabs_R1]. }
    rewrite E1, S1 in B. unfold Rdiv in B. rewrite Rinv_1, Rmult_1_r, Rabs_R1 in B. specialize (C 0%nat 0%nat eq_refl ltac:(lia)). rewrite E3, (in_group 1 1 2 0 s), S1 in C by (auto; lia). change (gw 0 (1 mod 2) 0) with 4 in C. rewrite Rabs_right in C; lra.
Qed.
Lemma nan_lemma : exists smin smax thr g og ig J K (w1 : nat -> nat -> R) b1 w2, (0 < og)%nat /\ (0 < K)%nat /\ (0 < g * ig)%nat /\ (0 < J)%nat /\ 0 < smin /\ smin <= smax /\ equalize_pair smin smax thr g og ig J K w1 b1 w2 = None.
Proof.
  exists (/ 100), 100, (/ 2), 1%nat, 1%nat, 1%nat, 1%nat, 1%nat, (fun _ _ => 0), (fun _ => 0), (fun _ _ _ => 1).
  repeat split; try lia; try lra. apply (cle_dead _ _ _ _ _ _ _ _ _ _ _ 0%nat 1); try lia; auto; [|lra]. split.
  - intros o k _ _. rewrite Rabs_R1. lra.
  - exists 0%nat, 0%nat. repeat split; auto. apply Rabs_R1.
Qed.
