(** The merged and the candidate histogram keep the mass; the search returns the first minimum in range (C62). *)
From Coq Require Import List Arith ZArith Bool Reals Lra Lia Permutation.
From Verif Require Import Tensor ConvSpec FuseModel FuseProofs HistModel.
Import ListNotations.
Local Open Scope R_scope.

(* ------------------------------------------------------------------ *)
(** * Sums *)

Lemma lsum_seq_S f n : lsum (seq 0 (S n)) f = lsum (seq 0 n) f + f n.
Proof. rewrite seq_S, lsum_app, lsum_cons, lsum_nil. cbn [Nat.add]. ring. Qed.
Lemma lsum_tele f n : lsum (seq 0 n) (fun j => f (S j) - f j) = f n - f 0%nat.
Proof. induction n as [|n IH]; [cbn [seq]; rewrite lsum_nil; ring|]. rewrite lsum_seq_S, IH. ring. Qed.
Lemma lsum_from f a n : lsum (seq 0 n) (fun m => f (a + m)%nat) = lsum (seq 0 (a + n)) f - lsum (seq 0 a) f.
Proof.
  induction n as [|n IH]; [cbn [seq]; rewrite Nat.add_0_r, lsum_nil; ring|].
  rewrite lsum_seq_S, IH, Nat.add_succ_r, lsum_seq_S. ring.
Qed.
Lemma lsum_perm0 {A} (l l' : list A) f : Permutation l l' -> lsum l f = lsum l' f.
Proof.
  induction 1 as [|x l l' _ IH|x y l|l l' l'' _ IH1 _ IH2]; trivial.
  - rewrite !lsum_cons, IH. reflexivity.
  - rewrite !lsum_cons. ring.
  - congruence.
Qed.
Lemma lsum_one n a c : (a < n)%nat -> lsum (seq 0 n) (fun k => if (a =? k)%nat then c else 0) = c.
Proof.
  induction n as [|n IH]; intro H; [lia|]. rewrite lsum_seq_S. destruct (Nat.eqb_spec a n) as [->|E].
  - rewrite (lsum_ext _ _ (fun _ => 0)); [rewrite lsum_zero by trivial; ring|]. intros k Hk. apply in_seq in Hk.
    destruct (Nat.eqb_spec n k); [lia|reflexivity].
  - rewrite IH by lia. ring.
Qed.

Lemma find_sum (idx : nat -> nat) (v : nat -> R) k l : NoDup (map idx l) ->
  match find (fun j => idx j =? k)%nat l with Some j => v j | None => 0 end = lsum l (fun j => if (idx j =? k)%nat then v j else 0).
Proof.
  induction l as [|a l IH]; intro H; [rewrite lsum_nil; reflexivity|]. cbn [map] in H. inversion H as [|a' l' Ha Hl]; subst a' l'.
  cbn [find]. rewrite lsum_cons. destruct (Nat.eqb_spec (idx a) k) as [E|E].
  - rewrite (lsum_ext _ _ (fun _ => 0)); [rewrite lsum_zero by trivial; ring|]. intros j Hj.
    destruct (Nat.eqb_spec (idx j) k) as [E'|E']; trivial. exfalso. apply Ha. rewrite E, <- E'. apply in_map. exact Hj.
  - rewrite IH by exact Hl. ring.
Qed.
Lemma fancy_sum n e js idx v : NoDup (map idx js) -> (forall j, In j js -> (idx j < n)%nat) ->
  lsum (seq 0 n) (fancy_add e js idx v) = lsum (seq 0 n) e + lsum js v.
Proof.
  intros ND HB. transitivity (lsum (seq 0 n) (fun k => e k + lsum js (fun j => if (idx j =? k)%nat then v j else 0))).
  - apply lsum_ext. intros k _. rewrite (lsum_perm0 js (rev js)) by apply Permutation_rev.
    rewrite <- find_sum by (rewrite map_rev; apply (Permutation_NoDup (Permutation_rev _)); exact ND).
    unfold fancy_add. destruct find; ring.
  - rewrite lsum_plus. f_equal. rewrite lsum_swap. apply lsum_ext. intros j Hj. apply lsum_one. apply HB. exact Hj.
Qed.
Lemma NoDup_map_in {A B} (f : A -> B) l : NoDup l -> (forall x y, In x l -> In y l -> f x = f y -> x = y) -> NoDup (map f l).
Proof.
  induction 1 as [|a l Ha Hl IH]; intro HI; cbn [map]; constructor.
  - intro C. apply in_map_iff in C. destruct C as (b & E & Hb). apply Ha.
    rewrite (HI a b); [exact Hb|left; reflexivity|right; exact Hb|symmetry; exact E].
  - apply IH. intros x y Hx Hy. apply HI; right; trivial.
Qed.

(* ------------------------------------------------------------------ *)
(** * Bins *)

Section Bins.
Variables (T : nat) (d : nat -> R) (i : nat).
Hypothesis HT : (0 < T)%nat.
Hypothesis Hi : (T <= i)%nat.

(** mass below the border [u / T] *)
Definition below (f : nat -> R) (u : nat) : R := lsum (seq 0 (u / T)) f + INR (u mod T) / INR T * f (u / T)%nat.

Lemma INR_T : INR T <> 0. Proof. apply not_0_INR. lia. Qed.
Lemma upper_cases j : let u := (j * i)%nat in
  (u mod T = 0 /\ left_upper T i j = u / T /\ left_flag T i j = false)%nat \/
  ((0 < u mod T)%nat /\ left_upper T i j = S (u / T) /\ left_flag T i j = true).
Proof.
  intro u. unfold left_flag, left_upper. fold u. pose proof (Nat.div_mod u T ltac:(lia)) as E. pose proof (Nat.mod_upper_bound u T ltac:(lia)) as L.
  destruct (Nat.eq_dec (u mod T) 0) as [Z|Z]; [left|right].
  - assert (Q : ((u + (T - 1)) / T = u / T)%nat).
    { symmetry. apply (Nat.div_unique _ _ _ (T - 1)%nat); [lia|]. rewrite E at 1. rewrite Z. lia. }
    rewrite Q. split; [exact Z|]. split; [reflexivity|]. apply Nat.ltb_ge. nia.
  - assert (Q : ((u + (T - 1)) / T = S (u / T))%nat).
    { symmetry. apply (Nat.div_unique _ _ _ (u mod T - 1)%nat); [lia|]. nia. }
    rewrite Q. split; [lia|]. split; [reflexivity|]. apply Nat.ltb_lt. nia.
Qed.
Lemma lower_cases j : let u := (j * i + i)%nat in
  right_lower T i j = (u / T)%nat /\ right_flag T i j = negb (u mod T =? 0)%nat /\
  right_scale T i j = INR (u mod T) / INR T.
Proof.
  intro u. unfold right_flag, right_scale, right_lower. fold u. pose proof (Nat.div_mod u T ltac:(lia)) as E.
  split; [reflexivity|]. split.
  - destruct (Nat.eqb_spec (u mod T) 0) as [Z|Z]; cbn [negb]; [apply Nat.ltb_ge|apply Nat.ltb_lt]; nia.
  - f_equal. f_equal. nia.
Qed.
Lemma left_part f j : lsum (seq 0 (left_upper T i j)) f - (if left_flag T i j then left_scale T i j * f (left_upper T i j - 1)%nat else 0)
  = below f (j * i).
Proof.
  unfold below. destruct (upper_cases j) as [(Z & E & F)|(Z & E & F)]; rewrite F.
  - rewrite Z, E. cbn [INR]. unfold Rdiv. ring.
  - unfold left_scale. rewrite E. replace (S (j * i / T) - 1)%nat with (j * i / T)%nat by lia. rewrite lsum_seq_S.
    pose proof (Nat.div_mod (j * i) T ltac:(lia)) as D. pose proof (Nat.mod_upper_bound (j * i) T ltac:(lia)) as L.
    replace (S (j * i / T) * T - j * i)%nat with (T - (j * i) mod T)%nat by nia.
    rewrite minus_INR by lia. field. apply INR_T.
Qed.
Lemma right_part f j : lsum (seq 0 (right_lower T i j)) f + (if right_flag T i j then right_scale T i j * f (right_lower T i j) else 0)
  = below f (j * i + i).
Proof.
  unfold below. destruct (lower_cases j) as (-> & -> & ->). destruct (Nat.eqb_spec ((j * i + i) mod T) 0) as [Z|Z]; cbn [negb]; [|reflexivity].
  rewrite Z. cbn [INR]. unfold Rdiv. ring.
Qed.
Lemma merge_below f j : merge T i f j = below f (S j * i) - below f (j * i).
Proof.
  rewrite <- (left_part f j). replace (S j * i)%nat with (j * i + i)%nat by lia. rewrite <- right_part. unfold merge, cumsum. ring.
Qed.
Lemma merge_mass f : lsum (seq 0 T) (merge T i f) = lsum (seq 0 i) f.
Proof.
  rewrite (lsum_ext _ _ (fun j => below f (S j * i) - below f (j * i))) by (intros j _; apply merge_below).
  rewrite (lsum_tele (fun j => below f (j * i)) T). unfold below at 2. cbn [Nat.mul].
  rewrite Nat.div_0_l, Nat.mod_0_l by lia. unfold below. rewrite (Nat.mul_comm T i), Nat.div_mul, Nat.mod_mul by lia.
  cbn [INR seq]. rewrite lsum_nil. unfold Rdiv. ring.
Qed.

(** ** Expansion *)

Lemma upper_bounds j : (j * i <= left_upper T i j * T)%nat /\ (left_upper T i j * T <= j * i + (T - 1))%nat.
Proof.
  unfold left_upper. pose proof (Nat.div_mod (j * i + (T - 1)) T ltac:(lia)) as D.
  pose proof (Nat.mod_upper_bound (j * i + (T - 1)) T ltac:(lia)). nia.
Qed.
Lemma lower_bounds j : (right_lower T i j * T <= j * i + i)%nat /\ (j * i + i < right_lower T i j * T + T)%nat.
Proof.
  unfold right_lower. pose proof (Nat.div_mod (j * i + i) T ltac:(lia)) as D.
  pose proof (Nat.mod_upper_bound (j * i + i) T ltac:(lia)). nia.
Qed.
Lemma k_bounds : (right_lower T i 0 * T <= i)%nat /\ (i < right_lower T i 0 * T + T)%nat /\ right_lower T i 0 = (i / T)%nat.
Proof. pose proof (lower_bounds 0) as (A & B). split; [lia|]. split; [lia|]. reflexivity. Qed.
Lemma upper_inj a b : left_upper T i a = left_upper T i b -> a = b.
Proof.
  intro E. pose proof (upper_bounds a) as (A1 & A2). pose proof (upper_bounds b) as (B1 & B2). rewrite E in *.
  destruct (Nat.lt_trichotomy a b) as [L|[L|L]]; trivial; exfalso; nia.
Qed.
Lemma lower_inj a b : right_lower T i a = right_lower T i b -> a = b.
Proof.
  intro E. pose proof (lower_bounds a) as (A1 & A2). pose proof (lower_bounds b) as (B1 & B2). rewrite E in *.
  destruct (Nat.lt_trichotomy a b) as [L|[L|L]]; trivial; exfalso; nia.
Qed.
Lemma upper_fit j : (j < T)%nat -> (left_upper T i j + right_lower T i 0 <= i)%nat.
Proof.
  intro H. pose proof (upper_bounds j) as (A1 & A2). destruct k_bounds as (K1 & K2 & _).
  assert ((left_upper T i j + right_lower T i 0) * T < (i + 1) * T)%nat by nia. nia.
Qed.
Lemma full_bins j : let n := (right_lower T i j - left_upper T i j)%nat in
  (left_upper T i j <= right_lower T i j)%nat /\ (n = right_lower T i 0 \/ n = right_lower T i 0 - 1)%nat /\ (1 <= right_lower T i 0)%nat.
Proof.
  intro n. pose proof (upper_bounds j) as (A1 & A2). pose proof (lower_bounds j) as (B1 & B2). destruct k_bounds as (K1 & K2 & _).
  assert (Q1 : (1 <= right_lower T i 0)%nat) by nia.
  assert (Q2 : (left_upper T i j <= right_lower T i j)%nat) by (assert (left_upper T i j * T < (right_lower T i j + 1) * T)%nat by nia; nia).
  split; [exact Q2|]. split; [|exact Q1].
  assert (Q3 : (n * T = right_lower T i j * T - left_upper T i j * T)%nat) by (unfold n; nia).
  assert (U : (n * T < (right_lower T i 0 + 1) * T)%nat) by nia. assert (V : (right_lower T i 0 * T < (n + 2) * T)%nat) by nia.
  clearbody n. assert (n <= right_lower T i 0)%nat by nia. assert (right_lower T i 0 < n + 2)%nat by nia. lia.
Qed.

Lemma lsum_if {A} (p : A -> bool) l (f : A -> R) : lsum (filter p l) f = lsum l (fun x => if p x then f x else 0).
Proof. apply lsum_filter. Qed.

Lemma expanded_mass0 : lsum (seq 0 i) (expanded T d i) =
  lsum (seq 0 T) (fun j => to_expand T d i j * ((if left_flag T i j then left_scale T i j else 0) +
     (if right_flag T i j then right_scale T i j else 0) +
     (cumsum (nz d) (right_lower T i j) - cumsum (nz d) (left_upper T i j)))).
Proof.
  set (k := right_lower T i 0). unfold expanded. fold k. cbn zeta. destruct k_bounds as (K1 & K2 & KE). fold k in K1, K2, KE.
  pose proof (full_bins 0) as (_ & _ & Hk). fold k in Hk.
  set (e1 := fancy_add (fun _ => 0) _ _ _). set (e2 := fancy_add e1 _ _ _).
  assert (In_lt : forall j, In j (seq 0 T) -> (j < T)%nat) by (intros j H; apply in_seq in H; lia).
  assert (S1 : lsum (seq 0 i) e1 = lsum (seq 0 T) (fun j => to_expand T d i j * (if left_flag T i j then left_scale T i j else 0))).
  { unfold e1. rewrite fancy_sum.
    - rewrite lsum_zero by trivial. rewrite lsum_if, Rplus_0_l. apply lsum_ext. intros j _.
      destruct (count_flag T d i j) eqn:C; cbn [andb]; [destruct left_flag; ring|]. unfold to_expand. rewrite C. ring.
    - apply NoDup_map_in; [apply NoDup_filter, seq_NoDup|]. intros x y Hx Hy E. apply filter_In in Hx. apply filter_In in Hy.
      destruct Hx as (Hx & Fx). destruct Hy as (Hy & Fy). apply andb_prop in Fx. apply andb_prop in Fy. destruct Fx as (_ & Fx). destruct Fy as (_ & Fy).
      unfold left_flag in Fx, Fy. apply Nat.ltb_lt in Fx. apply Nat.ltb_lt in Fy. apply upper_inj.
      destruct (left_upper T i x), (left_upper T i y); lia.
    - intros j Hj. apply filter_In in Hj. destruct Hj as (Hj & Fj). apply In_lt in Hj. pose proof (upper_fit j Hj). fold k in H.
      apply andb_prop in Fj. destruct Fj as (_ & Fj). unfold left_flag in Fj. apply Nat.ltb_lt in Fj. destruct (left_upper T i j); lia. }
  assert (S2 : lsum (seq 0 i) e2 = lsum (seq 0 i) e1 + lsum (seq 0 T) (fun j => to_expand T d i j * (if right_flag T i j then right_scale T i j else 0))).
  { unfold e2. rewrite fancy_sum.
    - f_equal. rewrite lsum_if. apply lsum_ext. intros j _.
      destruct (count_flag T d i j) eqn:C; cbn [andb]; [destruct right_flag; ring|]. unfold to_expand. rewrite C. ring.
    - apply NoDup_map_in; [apply NoDup_filter, seq_NoDup|]. intros x y _ _. apply lower_inj.
    - intros j Hj. apply filter_In in Hj. destruct Hj as (Hj & Fj). apply In_lt in Hj. apply andb_prop in Fj. destruct Fj as (_ & Fj).
      unfold right_flag in Fj. apply Nat.ltb_lt in Fj. nia. }
  assert (S3 : forall n e, (n <= k - 1)%nat -> lsum (seq 0 i) (fold_left (fun e m => fancy_add e (seq 0 T) (fun j => left_upper T i j + m)%nat
       (fun j => to_expand T d i j * nz d (left_upper T i j + m)%nat)) (seq 0 n) e) =
     lsum (seq 0 i) e + lsum (seq 0 T) (fun j => to_expand T d i j * lsum (seq 0 n) (fun m => nz d (left_upper T i j + m)%nat))).
  { induction n as [|n IH]; intros e Hn.
    - cbn [seq fold_left]. rewrite (lsum_zero (seq 0 T)); [ring|]. intros j _. cbn [seq]. rewrite lsum_nil. ring.
    - rewrite seq_S, fold_left_app. cbn [fold_left Nat.add]. rewrite fancy_sum.
      + rewrite IH by lia. rewrite Rplus_assoc, <- lsum_plus. f_equal. apply lsum_ext. intros j _. rewrite lsum_app, lsum_cons, lsum_nil. ring.
      + apply NoDup_map_in; [apply seq_NoDup|]. intros x y _ _ E. apply upper_inj. lia.
      + intros j Hj. pose proof (upper_fit j (In_lt j Hj)) as Q. fold k in Q. lia. }
  rewrite fancy_sum.
  - rewrite S3, S2, S1 by lia. rewrite <- !lsum_plus. apply lsum_ext. intros j Hj.
    destruct (full_bins j) as (F1 & F2 & _). fold k in F2. unfold cumsum.
    assert (D : lsum (seq 0 (right_lower T i j)) (nz d) - lsum (seq 0 (left_upper T i j)) (nz d) =
      lsum (seq 0 (right_lower T i j - left_upper T i j)) (fun m => nz d (left_upper T i j + m)%nat)).
    { rewrite lsum_from. f_equal. f_equal. f_equal. lia. }
    rewrite D, <- KE.
    destruct (Nat.eqb_spec k (right_lower T i j - left_upper T i j)) as [E|E].
    + rewrite <- E. assert (KS : lsum (seq 0 k) (fun m => nz d (left_upper T i j + m)%nat) = lsum (seq 0 (k - 1)) (fun m => nz d (left_upper T i j + m)%nat) + nz d (left_upper T i j + (k - 1))%nat) by (rewrite <- (lsum_seq_S (fun m => nz d (left_upper T i j + m)%nat)); f_equal; f_equal; lia). rewrite KS.
      replace (left_upper T i j + k - 1)%nat with (left_upper T i j + (k - 1))%nat by lia. ring.
    + destruct F2 as [F2|F2]; [congruence|]. rewrite F2. ring.
  - apply NoDup_map_in; [apply seq_NoDup|]. intros x y _ _ E. apply upper_inj. lia.
  - intros j Hj. pose proof (upper_fit j (In_lt j Hj)) as Q. fold k in Q. lia.
Qed.

Lemma nz_nonneg k : 0 <= nz d k. Proof. unfold nz. destruct Req_EM_T; lra. Qed.
Lemma nz_zero k : nz d k = 0 -> d k = 0. Proof. unfold nz. destruct Req_EM_T; [trivial|lra]. Qed.
Lemma nz_one k : d k <> 0 -> nz d k = 1. Proof. unfold nz. destruct Req_EM_T; [congruence|trivial]. Qed.
Lemma lsum_nonneg0 {A} (l : list A) f : (forall x, In x l -> 0 <= f x) -> 0 <= lsum l f.
Proof.
  induction l as [|a l IH]; intro H; [rewrite lsum_nil; lra|]. rewrite lsum_cons.
  assert (0 <= f a) by (apply H; left; reflexivity). assert (0 <= lsum l f) by (apply IH; intros; apply H; right; trivial). lra.
Qed.
Lemma lsum_zero_all {A} (l : list A) f : (forall x, In x l -> 0 <= f x) -> lsum l f = 0 -> forall x, In x l -> f x = 0.
Proof.
  induction l as [|a l IH]; intros H E x Hx; [contradiction|]. rewrite lsum_cons in E.
  assert (0 <= f a) by (apply H; left; reflexivity). assert (0 <= lsum l f) by (apply lsum_nonneg0; intros; apply H; right; trivial).
  destruct Hx as [<-|Hx]; [lra|]. apply IH; trivial; [intros; apply H; right; trivial|lra].
Qed.
Lemma scale_pos j : (left_flag T i j = true -> 0 < left_scale T i j) /\ (right_flag T i j = true -> 0 < right_scale T i j).
Proof.
  assert (0 < INR T) by (apply lt_0_INR; lia). split; intro F.
  - unfold left_flag in F. apply Nat.ltb_lt in F. unfold left_scale. apply Rdiv_lt_0_compat; trivial. apply lt_0_INR. lia.
  - unfold right_flag in F. apply Nat.ltb_lt in F. unfold right_scale. apply Rdiv_lt_0_compat; trivial. apply lt_0_INR. lia.
Qed.
(** a target bin that overlaps no nonzero bin has no mass *)
Lemma count_zero j : count_ T d i j = 0 -> quantize_dis T d i j = 0.
Proof.
  unfold count_, quantize_dis, merge, cumsum. intro E. destruct (full_bins j) as (F1 & _). destruct (scale_pos j) as (P1 & P2).
  assert (D : forall f, lsum (seq 0 (right_lower T i j)) f - lsum (seq 0 (left_upper T i j)) f =
     lsum (seq 0 (right_lower T i j - left_upper T i j)) (fun m => f (left_upper T i j + m)%nat)).
  { intro f. rewrite lsum_from. f_equal. f_equal. f_equal. lia. }
  rewrite D in E |- *. pose proof (lsum_nonneg0 (seq 0 (right_lower T i j - left_upper T i j)) (fun m => nz d (left_upper T i j + m)%nat) (fun m _ => nz_nonneg _)) as N0.
  assert (N1 : 0 <= if left_flag T i j then left_scale T i j * nz d (left_upper T i j - 1)%nat else 0).
  { destruct left_flag; [|lra]. apply Rmult_le_pos; [left; apply P1; reflexivity|apply nz_nonneg]. }
  assert (N2 : 0 <= if right_flag T i j then right_scale T i j * nz d (right_lower T i j) else 0).
  { destruct right_flag; [|lra]. apply Rmult_le_pos; [left; apply P2; reflexivity|apply nz_nonneg]. }
  assert (Z0 : lsum (seq 0 (right_lower T i j - left_upper T i j)) (fun m => nz d (left_upper T i j + m)%nat) = 0) by lra.
  rewrite (lsum_zero _ (fun m => d (left_upper T i j + m)%nat)).
  2:{ intros m Hm. apply nz_zero. exact (lsum_zero_all _ _ (fun m _ => nz_nonneg _) Z0 m Hm). }
  assert (A : (if left_flag T i j then left_scale T i j * d (left_upper T i j - 1)%nat else 0) = 0).
  { destruct left_flag; trivial. specialize (P1 eq_refl). rewrite nz_zero; [ring|]. apply (Rmult_eq_reg_l (left_scale T i j)); lra. }
  assert (B : (if right_flag T i j then right_scale T i j * d (right_lower T i j) else 0) = 0).
  { destruct right_flag; trivial. specialize (P2 eq_refl). rewrite nz_zero; [ring|]. apply (Rmult_eq_reg_l (right_scale T i j)); lra. }
  rewrite A, B. ring.
Qed.
Lemma expanded_mass : (forall j, (j < T)%nat -> ((j * i) mod T <> 0)%nat -> d (j * i / T)%nat <> 0) ->
  lsum (seq 0 i) (expanded T d i) = lsum (seq 0 i) d.
Proof.
  intro Hcut. rewrite expanded_mass0, <- (merge_mass d). apply lsum_ext. intros j Hj. apply in_seq in Hj.
  assert (E : ((if left_flag T i j then left_scale T i j else 0) + (if right_flag T i j then right_scale T i j else 0) +
     (cumsum (nz d) (right_lower T i j) - cumsum (nz d) (left_upper T i j))) = count_ T d i j).
  { unfold count_, merge. f_equal. f_equal.
    - destruct (upper_cases j) as [(Z & E & F)|(Z & E & F)]; rewrite F; trivial. rewrite E.
      replace (S (j * i / T) - 1)%nat with (j * i / T)%nat by lia. rewrite nz_one by (apply Hcut; lia). ring.
    - destruct (lower_cases j) as (L & F & _). rewrite F. destruct (Nat.eqb_spec ((j * i + i) mod T) 0) as [Z|Z]; cbn [negb]; trivial.
      rewrite L. replace (j * i + i)%nat with (S j * i)%nat in * by lia. rewrite nz_one; [ring|]. apply Hcut; [|exact Z].
      destruct (Nat.eq_dec (S j) T) as [C|C]; [|lia]. exfalso. apply Z. rewrite C, Nat.mul_comm. apply Nat.mod_mul. lia. }
  rewrite E. unfold to_expand. destruct (count_flag T d i j) eqn:C; unfold count_flag in C; destruct Req_EM_T as [Z|Z]; try discriminate.
  - unfold quantize_dis. field. exact Z.
  - rewrite Rmult_0_l. symmetry. apply (count_zero j Z).
Qed.
End Bins.

(* ------------------------------------------------------------------ *)
(** * The search *)

(** the candidate with [i] bins: everything from bin [i - 1] on is in the last bin *)
Definition clipped (dist : list R) (i : nat) : list R :=
  map (fun k => if (k =? i - 1)%nat then lsum (skipn (i - 1) dist) (fun v => v) else nth k dist 0) (seq 0 i).
(** the divergence of a candidate *)
Definition divergence (T : nat) (kl : list R -> list R -> option R) (dist : list R) (i : nat) : option R :=
  kl (map (expanded T (fun k => nth k dist 0) i) (seq 0 i)) (clipped dist i).

Lemma skipn_sum (dist : list R) i : (i < length dist)%nat ->
  lsum (skipn i dist) (fun v => v) = nth i dist 0 + lsum (skipn (S i) dist) (fun v => v).
Proof.
  revert i. induction dist as [|a r IH]; intros i H; [cbn in H; lia|]. destruct i as [|i].
  - cbn [skipn nth]. rewrite lsum_cons. reflexivity.
  - cbn [length] in H. change (skipn (S i) (a :: r)) with (skipn i r). change (skipn (S (S i)) (a :: r)) with (skipn (S i) r).
    cbn [nth]. apply IH. lia.
Qed.
Lemma lsum_list (l : list R) : lsum l (fun v => v) = lsum (seq 0 (length l)) (fun k => nth k l 0).
Proof.
  induction l as [|a l IH]; [reflexivity|]. cbn [length seq]. rewrite !lsum_cons. f_equal. rewrite IH.
  rewrite <- seq_shift, lsum_map. reflexivity.
Qed.
Lemma clipped_mass dist i : (0 < i)%nat -> (i <= length dist)%nat ->
  lsum (clipped dist i) (fun v => v) = lsum dist (fun v => v).
Proof.
  intros H1 H2. unfold clipped. rewrite lsum_map. destruct i as [|n]; [lia|]. rewrite lsum_seq_S.
  replace (S n - 1)%nat with n by lia. rewrite Nat.eqb_refl.
  rewrite (lsum_ext _ _ (fun k => nth k dist 0)).
  2:{ intros k Hk. apply in_seq in Hk. destruct (Nat.eqb_spec k n); [lia|reflexivity]. }
  transitivity (lsum (firstn n dist ++ skipn n dist) (fun v => v)); [|rewrite firstn_skipn; reflexivity]. rewrite lsum_app. f_equal.
  rewrite (lsum_list (firstn n dist)), firstn_length, Nat.min_l by lia. apply lsum_ext. intros k Hk. apply in_seq in Hk.
  rewrite <- (firstn_skipn n dist) at 1. rewrite app_nth1; [reflexivity|]. rewrite firstn_length. lia.
Qed.

(** what the loop knows after the candidates up to [i] *)
Definition best_of (val : nat -> option R) (lo hi : nat) (t : nat) (b : option R) : Prop :=
  match b with
  | None => t = lo /\ forall i v, (lo <= i < hi)%nat -> val i = Some v -> v = 1
  | Some v => (lo <= t < hi)%nat /\ val t = Some v /\ v <> 1 /\
      forall i u, (lo <= i < hi)%nat -> val i = Some u -> u <> 1 -> v <= u /\ ((i < t)%nat -> v < u)
  end.
Lemma kl_loop T dist m kl : (0 < T)%nat -> (m <= length dist)%nat -> forall n, (T + n <= m + 1)%nat ->
  exists t b a, fold_left (kl_step T dist m kl) (seq T n) (T, None, lsum (skipn T dist) (fun v => v)) = (t, b, a) /\
    best_of (divergence T kl dist) T (T + n) t b /\ ((T + n <= m)%nat -> a = lsum (skipn (T + n) dist) (fun v => v)).
Proof.
  intros HT Hm. induction n as [|n IH]; intro Hn.
  - cbn [seq fold_left]. do 3 eexists. split; [reflexivity|]. split; [split; [reflexivity|intros; lia]|]. intros _. rewrite Nat.add_0_r. reflexivity.
  - destruct IH as (t & b & a & E & B & A); [lia|]. rewrite seq_S, fold_left_app, E. cbn [fold_left]. unfold kl_step.
    specialize (A ltac:(lia)). set (i := (T + n)%nat) in *.
    assert (EC : map (fun k => nth k dist 0 + (if (k =? i - 1)%nat then a else 0)) (seq 0 i) = clipped dist i).
    { unfold clipped. apply map_ext_in. intros k Hk. apply in_seq in Hk. destruct (Nat.eqb_spec k (i - 1)) as [->|Q]; [|ring].
      rewrite A, (skipn_sum dist (i - 1)) by lia. replace (S (i - 1)) with i by lia. reflexivity. }
    rewrite EC. change (kl (map (expanded T (fun k => nth k dist 0) i) (seq 0 i)) (clipped dist i)) with (divergence T kl dist i).
    set (a' := if (i =? m)%nat then 0 else a - nth i dist 0).
    assert (EA : (T + S n <= m)%nat -> a' = lsum (skipn (T + S n) dist) (fun v => v)).
    { intro Q. unfold a'. destruct (Nat.eqb_spec i m); [lia|]. rewrite A, (skipn_sum dist i) by lia.
      replace (T + S n)%nat with (S i) by lia. ring. }
    assert (ES : (T + S n)%nat = S i) by lia. rewrite ES in *. unfold best_of in *.
    destruct (divergence T kl dist i) as [cur|] eqn:D.
    + unfold kl_better. destruct b as [v|].
      * destruct B as (B1 & B2 & B3 & B4). destruct (Rlt_dec cur v) as [L|L]; cbn [andb]; [destruct (Req_EM_T cur 1) as [Q|Q]|].
        -- do 3 eexists. split; [reflexivity|]. split; [|exact EA]. split; [lia|]. split; [exact B2|]. split; [exact B3|].
           intros j u Hj Hu Hne. destruct (Nat.eq_dec j i) as [->|Ne]; [congruence|]. apply B4; trivial. lia.
        -- do 3 eexists. split; [reflexivity|]. split; [|exact EA]. split; [lia|]. split; [exact D|]. split; [exact Q|].
           intros j u Hj Hu Hne. destruct (Nat.eq_dec j i) as [->|Ne].
           ++ rewrite D in Hu. injection Hu as <-. split; [lra|lia].
           ++ destruct (B4 j u ltac:(lia) Hu Hne) as (C1 & _). split; [lra|intros; lra].
        -- do 3 eexists. split; [reflexivity|]. split; [|exact EA]. split; [lia|]. split; [exact B2|]. split; [exact B3|].
           intros j u Hj Hu Hne. destruct (Nat.eq_dec j i) as [->|Ne]; [|apply B4; trivial; lia].
           rewrite D in Hu. injection Hu as <-. split; [lra|lia].
      * destruct B as (-> & B). cbn [andb]. destruct (Req_EM_T cur 1) as [Q|Q].
        -- do 3 eexists. split; [reflexivity|]. split; [|exact EA]. split; [reflexivity|].
           intros j v Hj Hv. destruct (Nat.eq_dec j i) as [->|Ne]; [congruence|]. apply (B j v); trivial. lia.
        -- do 3 eexists. split; [reflexivity|]. split; [|exact EA]. split; [lia|]. split; [exact D|]. split; [exact Q|].
           intros j u Hj Hu Hne. destruct (Nat.eq_dec j i) as [->|Ne].
           ++ rewrite D in Hu. injection Hu as <-. split; [lra|lia].
           ++ exfalso. apply Hne. apply (B j u); trivial. lia.
    + do 3 eexists. split; [reflexivity|]. split; [|exact EA]. destruct b as [v|].
      * destruct B as (B1 & B2 & B3 & B4). split; [lia|]. split; [exact B2|]. split; [exact B3|].
        intros j u Hj Hu Hne. destruct (Nat.eq_dec j i) as [->|Ne]; [congruence|]. apply B4; trivial. lia.
      * destruct B as (-> & B). split; [reflexivity|]. intros j v Hj Hv. destruct (Nat.eq_dec j i) as [->|Ne]; [congruence|].
        apply (B j v); trivial. lia.
Qed.

Lemma threshold_correct T dist m kl t : (0 < T)%nat -> (T <= m)%nat -> compute_threshold T dist m kl = Some t ->
  (T <= t <= m)%nat /\
  forall i v, (T <= i <= m)%nat -> divergence T kl dist i = Some v -> v <> 1 ->
    exists b, divergence T kl dist t = Some b /\ b <= v /\ ((i < t)%nat -> b < v).
Proof.
  intros HT HTm E. unfold compute_threshold in E. destruct (Nat.leb_spec m (length dist)) as [L|]; [|discriminate].
  destruct (kl_loop T dist m kl HT L (m + 1 - T) ltac:(lia)) as (t' & b & a & F & B & _). rewrite F in E. cbn [fst] in E. injection E as <-.
  replace (T + (m + 1 - T))%nat with (m + 1)%nat in B by lia. destruct b as [b|]; cbn [best_of] in B.
  - destruct B as (B1 & B2 & _ & B4). split; [lia|]. intros i v Hi Hv Hne. exists b. split; [exact B2|]. apply B4; trivial. lia.
  - destruct B as (-> & B). split; [lia|]. intros i v Hi Hv Hne. exfalso. apply Hne. apply (B i v); trivial. lia.
Qed.

Lemma hist_norm_length h : length (hist_norm h) = length h.
Proof. unfold hist_norm. rewrite !map_length. destruct h as [|a [|b r]]; reflexivity. Qed.
Lemma search_range T kl hist lo hi : (0 < T)%nat -> (T <= length hist)%nat -> lo <= hi ->
  let m := length hist in
  exists a b, hist_search T m kl hist lo hi = Some (a, b) /\
    lo <= a /\ b <= hi /\ b - a >= INR T * ((hi - lo) / INR m).
Proof.
  intros HT Hm Hlo m. unfold hist_search. set (dist := hist_norm hist).
  assert (LD : length dist = m) by apply hist_norm_length.
  destruct (compute_threshold T dist m kl) as [r|] eqn:E1.
  2:{ unfold compute_threshold in E1. rewrite LD, Nat.leb_refl in E1. discriminate. }
  destruct (threshold_correct T dist m kl r HT Hm E1) as (R1 & _). cbn [obind].
  assert (LL : length (rev (firstn r dist)) = r) by (rewrite rev_length, firstn_length; lia). rewrite LL.
  destruct (compute_threshold T (rev (firstn r dist)) r kl) as [l|] eqn:E2.
  2:{ unfold compute_threshold in E2. rewrite LL, Nat.leb_refl in E2. discriminate. }
  destruct (threshold_correct T _ r kl l HT ltac:(lia) E2) as (R2 & _). cbn [obind]. do 2 eexists. split; [reflexivity|].
  assert (Pm : 0 < INR m) by (apply lt_0_INR; lia). fold m. set (wd := (hi - lo) / INR m).
  assert (Pw : 0 <= wd) by (unfold wd; apply Rmult_le_pos; [lra|left; apply Rinv_0_lt_compat; exact Pm]).
  assert (Em : wd * INR m = hi - lo) by (unfold wd; field; lra).
  rewrite minus_INR by lia. pose proof (le_INR _ _ (proj2 R1)). pose proof (le_INR _ _ (proj2 R2)). pose proof (le_INR _ _ (proj1 R2)).
  split; [|split]; nra.
Qed.

(** ** A border through an empty bin: mass is added *)
Lemma expand_gains T : (2 <= T)%nat -> let d := fun k => if (k =? 0)%nat then 1 else 0 in
  lsum (seq 0 (S T)) (expanded T d (S T)) = 1 + 1 / INR T.
Proof.
  intros HT d. assert (N0 : nz d 0 = 1) by (unfold nz, d; cbn; destruct Req_EM_T; lra).
  assert (N1 : forall k, (1 <= k)%nat -> nz d k = 0) by (intros [|k] H; [lia|]; unfold nz, d; cbn; destruct Req_EM_T; lra).
  assert (C1 : forall f k, (1 <= k)%nat -> (forall k, (1 <= k)%nat -> f k = 0) -> cumsum f k = f 0%nat).
  { intros f k Hk Hf. unfold cumsum. destruct k as [|k]; [lia|]. cbn [seq]. rewrite lsum_cons, (lsum_zero (seq 1 k)); [ring|].
    intros m Hm. apply in_seq in Hm. apply Hf. lia. }
  assert (PT : 0 < INR T) by (apply lt_0_INR; lia).
  assert (R0 : right_lower T (S T) 0 = 1%nat).
  { unfold right_lower. cbn [Nat.mul Nat.add]. symmetry. apply (Nat.div_unique _ _ _ 1%nat); lia. }
  assert (L0 : left_upper T (S T) 0 = 0%nat) by (unfold left_upper; cbn [Nat.mul Nat.add]; apply Nat.div_small; lia).
  rewrite expanded_mass0 by lia. destruct T as [|T']; [lia|]. set (T := S T') in *. replace (seq 0 T) with (0%nat :: seq 1 T') by reflexivity.
  rewrite lsum_cons, (lsum_zero (seq 1 T')).
  - assert (LF : left_flag T (S T) 0 = false) by (unfold left_flag; rewrite L0; reflexivity).
    assert (RF : right_flag T (S T) 0 = true) by (unfold right_flag; rewrite R0; apply Nat.ltb_lt; lia).
    assert (RS : right_scale T (S T) 0 = 1 / INR T).
    { unfold right_scale. rewrite R0. f_equal. replace (0 * S T + S T - 1 * T)%nat with 1%nat by lia. reflexivity. }
    assert (CC : forall f, cumsum f 1 = f 0%nat) by (intro f; unfold cumsum; cbn [seq]; rewrite lsum_cons, lsum_nil; ring).
    assert (CZ : forall f, cumsum f 0 = 0) by (intro f; reflexivity).
    unfold to_expand, count_flag, count_, quantize_dis, merge. rewrite LF, RF, RS, R0, L0, !CC, !CZ, N0, (N1 1%nat) by lia.
    change (d 0%nat) with 1. change (d 1%nat) with 0.
    destruct Req_EM_T as [Q|Q]; [exfalso; lra|]. field. lra.
  - intros j Hj. apply in_seq in Hj. pose proof (upper_bounds T (S T) ltac:(lia) ltac:(lia) j) as (U1 & U2).
    pose proof (lower_bounds T (S T) ltac:(lia) ltac:(lia) j) as (B1 & B2).
    assert (UL : (1 <= left_upper T (S T) j)%nat) by nia. assert (LL : (1 <= right_lower T (S T) j)%nat) by nia.
    assert (Z : count_ T d (S T) j = 0).
    { unfold count_, merge. rewrite !C1 by trivial. rewrite (N1 (right_lower T (S T) j)) by exact LL.
      destruct (left_flag T (S T) j) eqn:F.
      - unfold left_flag in F. apply Nat.ltb_lt in F. rewrite N1 by nia. destruct right_flag; ring.
      - destruct right_flag; ring. }
    unfold to_expand, count_flag. rewrite Z. destruct Req_EM_T; [ring|congruence].
Qed.
Lemma expand_refuted : exists d i, (128 <= i)%nat /\ lsum (seq 0 i) d = 1 /\
  lsum (seq 0 i) (expanded 128 d i) = 1 + 1 / INR 128.
Proof.
  exists (fun k => if (k =? 0)%nat then 1 else 0), (S 128). split; [lia|]. split.
  - etransitivity; [|apply (lsum_one (S 128) 0 1); lia]. apply lsum_ext. intros k _. rewrite Nat.eqb_sym. reflexivity.
  - apply expand_gains. lia.
Qed.
