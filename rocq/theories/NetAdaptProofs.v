(** Proofs about the NetAdapt pruner. *)
From Coq Require Import List ZArith QArith Qpower Bool Lia Znumtheory.
From Verif Require Import NetAdaptModel NetAdaptSpec.
Import ListNotations.
Local Open Scope Z_scope.

Lemma below_true f t : below f t = true <-> (inject_Z f < t)%Q.
Proof.
  unfold below. rewrite negb_true_iff. split; intro H.
  - apply Qnot_le_lt. intro L. apply Qle_bool_iff in L. congruence.
  - destruct (Qle_bool t (inject_Z f)) eqn:E; [|reflexivity]. apply Qle_bool_iff in E.
    exfalso. apply (Qlt_not_le _ _ H E).
Qed.
Lemma below_false f t : below f t = false <-> ~ (inject_Z f < t)%Q.
Proof. rewrite <- below_true. destruct (below f t); split; congruence. Qed.

(** * The count *)
Lemma smaller_layer l rin rout : channels_left l rin rout -> layer_flops (smaller l rin rout) 0 0 = layer_flops l rin rout.
Proof.
  destruct l as [e ci co g k b|e f|e f|e fi fo|]; cbn [channels_left smaller layer_flops]; unfold fdiv; intro H; [| | | |reflexivity].
  - destruct H as (H1 & H2 & H3 & H4 & H5). rewrite !Z.sub_0_r.
    rewrite (proj2 (Z.eqb_neq _ _) H1), (proj2 (Z.eqb_neq _ _) H3). cbn [obind]. rewrite Z.div_mul by exact H3.
    destruct ((ci =? g) && (g =? co)) eqn:E.
    + apply andb_true_iff in E. destruct E as [E1 E2]. apply Z.eqb_eq in E1, E2. subst.
      rewrite (H5 eq_refl eq_refl) in *. rewrite !Z.eqb_refl. cbn [andb]. reflexivity.
    + destruct ((ci - rin =? g) && (g =? co - rout)) eqn:E'; [|reflexivity].
      apply andb_true_iff in E'. destruct E' as [E1 E2]. apply Z.eqb_eq in E1, E2. rewrite <- E1. reflexivity.
  - destruct H as (H1 & H2). rewrite (proj2 (Z.eqb_neq _ _) H1), (proj2 (Z.eqb_neq _ _) H2). cbn [obind].
    rewrite Z.div_mul by exact H2. now rewrite Z.sub_0_r.
  - destruct H as (H1 & H2). rewrite (proj2 (Z.eqb_neq _ _) H1), (proj2 (Z.eqb_neq _ _) H2). cbn [obind].
    rewrite Z.div_mul by exact H2. now rewrite Z.sub_0_r.
  - destruct H as (H1 & H2). rewrite (proj2 (Z.eqb_neq _ _) H1), (proj2 (Z.eqb_neq _ _) H2). cbn [obind].
    rewrite Z.div_mul by exact H2. now rewrite !Z.sub_0_r.
Qed.
Lemma smaller_lemma ls : Forall (fun e => channels_left (fst e) (fst (snd e)) (snd (snd e))) ls ->
  calc_flops (map (fun e => (smaller (fst e) (fst (snd e)) (snd (snd e)), (0, 0))) ls) = calc_flops ls.
Proof.
  induction 1 as [|[l [rin rout]] ls H F IH]; [reflexivity|]. cbn [map fst snd calc_flops].
  cbn [fst snd] in H. rewrite (smaller_layer _ _ _ H), IH. reflexivity.
Qed.

Lemma rem_left n c (l : bool) x : (l = true -> x = n) -> x - removed n c l = if l then c else x.
Proof. destruct l; cbn; intros H; [rewrite (H eq_refl)|]; lia. Qed.
Lemma fits_quadratic n l li lo : fits n l li lo ->
  exists a b k, (one_sided l li lo -> a = 0) /\ forall c, 0 < c <= n -> layer_flops l (removed n c li) (removed n c lo) = Some (a * c * c + b * c + k).
Proof.
  intros F. destruct F as [s ci co k b li lo Hi Ho P1 P2|s k b|s ci co g k b lo Ho P1 P2 P3|s f li lo Hi P|s f li lo Hi P|s fi fo li lo Hi Ho P|li lo].
  - assert (X : forall c, 0 < c <= n -> layer_flops (LConv (s * co) ci co 1 k b) (removed n c li) (removed n c lo) =
        Some (s * (if lo then c else co) * ((if li then c else ci) * k + b)) \/
        (ci = 1 /\ co = 1 /\ layer_flops (LConv (s * co) ci co 1 k b) (removed n c li) (removed n c lo) = Some (s * (if lo then c else co) * (1 * k + b)))).
    { intros c Hc. cbn [layer_flops]. unfold fdiv. rewrite (proj2 (Z.eqb_neq co 0)) by lia. cbn [obind].
      rewrite Z.div_mul by lia. rewrite (rem_left n c li ci Hi), (rem_left n c lo co Ho).
      destruct ((ci =? 1) && (1 =? co)) eqn:E.
      - right. apply andb_true_iff in E. destruct E as [E1 E2]. apply Z.eqb_eq in E1, E2.
        assert (N : (if li then c else ci) <> 0) by (destruct li; lia).
        rewrite (proj2 (Z.eqb_neq _ 0) N). cbn [obind]. rewrite Z.div_same by exact N. repeat split; lia.
      - left. cbn [Z.eqb]. cbn [obind]. now rewrite Z.div_1_r. }
    assert (Y : forall c, 0 < c <= n -> layer_flops (LConv (s * co) ci co 1 k b) (removed n c li) (removed n c lo) =
        Some (s * (if lo then c else co) * ((if li then c else ci) * k + b))).
    { intros c Hc. destruct (X c Hc) as [E|(E1 & E2 & E)]; [exact E|]. rewrite E. do 3 f_equal.
      destruct li; [specialize (Hi eq_refl); assert (c = 1) by lia; subst c; reflexivity|now rewrite E1]. }
    destruct li, lo.
    + exists (s * k), (s * b), 0. split; [intros O; destruct (O eq_refl eq_refl); lia|]. intros c Hc. rewrite (Y c Hc). f_equal; ring.
    + exists 0, (s * co * k), (s * co * b). split; [reflexivity|]. intros c Hc. rewrite (Y c Hc). f_equal; ring.
    + exists 0, (s * (ci * k + b)), 0. split; [reflexivity|]. intros c Hc. rewrite (Y c Hc). f_equal; ring.
    + exists 0, 0, (s * co * (ci * k + b)). split; [reflexivity|]. intros c Hc. rewrite (Y c Hc). f_equal; ring.
  - exists 0, (s * (k + b)), 0. split; [reflexivity|]. intros c Hc. cbn [layer_flops removed]. unfold fdiv.
    rewrite (proj2 (Z.eqb_neq n 0)) by lia. cbn [obind]. rewrite !Z.eqb_refl. cbn [andb].
    replace (n - (n - c)) with c by lia. rewrite (proj2 (Z.eqb_neq c 0)) by lia. cbn [obind].
    rewrite Z.div_mul, Z.div_same by lia. f_equal; ring.
  - assert (Y : forall c, 0 < c <= n -> layer_flops (LConv (s * co) ci co g k b) (removed n c false) (removed n c lo) =
        Some (s * (if lo then c else co) * (ci / g * k + b))).
    { intros c Hc. cbn [layer_flops]. unfold fdiv. rewrite (proj2 (Z.eqb_neq co 0)) by lia. cbn [obind].
      rewrite Z.div_mul by lia. rewrite (rem_left n c lo co Ho), (proj2 (Z.eqb_neq ci g)) by lia. cbn [andb].
      rewrite (proj2 (Z.eqb_neq g 0)) by lia. cbn [obind removed]. now rewrite Z.sub_0_r. }
    destruct lo; [exists 0, (s * (ci / g * k + b)), 0|exists 0, 0, (s * co * (ci / g * k + b))]; (split; [first [reflexivity|intros O; destruct (O eq_refl eq_refl)]|]); intros c Hc; rewrite (Y c Hc); f_equal; ring.
  - assert (Y : forall c, 0 < c <= n -> layer_flops (LBn (s * f) f) (removed n c li) (removed n c lo) = Some (2 * (s * if li then c else f))).
    { intros c Hc. cbn [layer_flops]. unfold fdiv. rewrite (proj2 (Z.eqb_neq f 0)) by lia. cbn [obind].
      rewrite Z.div_mul by lia. now rewrite (rem_left n c li f Hi). }
    destruct li; [exists 0, (2 * s), 0|exists 0, 0, (2 * s * f)]; (split; [first [reflexivity|intros O; destruct (O eq_refl eq_refl)]|]); intros c Hc; rewrite (Y c Hc); f_equal; ring.
  - assert (Y : forall c, 0 < c <= n -> layer_flops (LUnary (s * f) f) (removed n c li) (removed n c lo) = Some (1 * (s * if li then c else f))).
    { intros c Hc. cbn [layer_flops]. unfold fdiv. rewrite (proj2 (Z.eqb_neq f 0)) by lia. cbn [obind].
      rewrite Z.div_mul by lia. now rewrite (rem_left n c li f Hi). }
    destruct li; [exists 0, s, 0|exists 0, 0, (s * f)]; (split; [first [reflexivity|intros O; destruct (O eq_refl eq_refl)]|]); intros c Hc; rewrite (Y c Hc); f_equal; ring.
  - assert (Y : forall c, 0 < c <= n -> layer_flops (LLin (s * fo) fi fo) (removed n c li) (removed n c lo) =
        Some ((if li then c else fi) * (s * if lo then c else fo))).
    { intros c Hc. cbn [layer_flops]. unfold fdiv. rewrite (proj2 (Z.eqb_neq fo 0)) by lia. cbn [obind].
      rewrite Z.div_mul by lia. now rewrite (rem_left n c li fi Hi), (rem_left n c lo fo Ho). }
    destruct li, lo; [exists s, 0, 0|exists 0, (s * fo), 0|exists 0, (s * fi), 0|exists 0, 0, (fi * (s * fo))]; (split; [first [reflexivity|intros O; destruct (O eq_refl eq_refl)]|]); intros c Hc; rewrite (Y c Hc); f_equal; ring.
  - exists 0, 0, 0. split; [reflexivity|]. intros c Hc. cbn. f_equal; ring.
Qed.
Lemma flops_poly n ls : Forall (fun e => fits n (fst e) (fst (snd e)) (snd (snd e))) ls ->
  exists a b k, (Forall (fun e => one_sided (fst e) (fst (snd e)) (snd (snd e))) ls -> a = 0) /\
    forall c, 0 < c <= n -> calc_flops (masked n c ls) = Some (a * c * c + b * c + k).
Proof.
  induction 1 as [|[l [li lo]] ls H F IH].
  - exists 0, 0, 0. split; [reflexivity|]. intros. cbn. f_equal; ring.
  - cbn [fst snd] in H. destruct (fits_quadratic _ _ _ _ H) as (a & b & k & O & E). destruct IH as (a' & b' & k' & O' & E').
    exists (a + a'), (b + b'), (k + k'). split.
    + intros X. inversion X as [|? ? X1 X2]; subst. cbn [fst snd] in X1. rewrite (O X1), (O' X2). reflexivity.
    + intros c Hc. cbn [masked map fst snd calc_flops]. rewrite (E c Hc). cbn [obind].
      unfold masked in E'. rewrite (E' c Hc). cbn [obind]. f_equal; ring.
Qed.
Lemma flops_quadratic_lemma n ls : Forall (fun e => fits n (fst e) (fst (snd e)) (snd (snd e))) ls ->
  exists a b k, forall c, 0 < c <= n -> calc_flops (masked n c ls) = Some (a * c * c + b * c + k).
Proof. intros F. destruct (flops_poly n ls F) as (a & b & k & _ & E). exists a, b, k. exact E. Qed.

(** * The plan *)
Lemma plan_below flops target cs : forall idx prev post diff poss c f,
  plan_loop flops target cs idx prev post diff poss = Some (c, f) -> In c cs /\ (inject_Z f < target)%Q.
Proof.
  induction cs as [|c0 cs IH]; intros idx prev post diff poss c f; cbn [plan_loop]; [discriminate|].
  destruct diff as [d|].
  - destruct (below (post - d) target) eqn:B.
    + intros E. injection E as <- <-. split; [now left|now apply below_true].
    + intros E. apply IH in E. split; [right|]; apply E.
  - match goal with |- context [let '(_, _) := ?X in _] => destruct X as [d' p'] end.
    destruct (below (flops c0) target) eqn:B.
    + intros E. injection E as <- <-. split; [now left|now apply below_true].
    + intros E. apply IH in E. split; [right|]; apply E.
Qed.

(** the numbers tried: [j*m], [(j-1)*m], ..., [m] *)
Fixpoint down (m : Z) (j : nat) : list Z := match j with O => [] | S j' => Z.of_nat j * m :: down m j' end.
Lemma rev_seq_down m j : map (fun k => Z.of_nat k * m) (rev (seq 1 j)) = down m j.
Proof. induction j as [|j IH]; [reflexivity|]. rewrite seq_S, rev_app_distr. cbn [app rev map plus]. now rewrite IH. Qed.
Lemma down_in m j c : In c (down m j) <-> exists k, (1 <= k <= j)%nat /\ c = Z.of_nat k * m.
Proof.
  induction j as [|j IH]; cbn [down In]; [split; [tauto|intros (k & H & _); lia]|]. rewrite IH. split.
  - intros [<-|(k & H & E)]; [exists (S j); split; [lia|reflexivity]|exists k; split; [lia|exact E]].
  - intros (k & H & E). destruct (Nat.eq_dec k (S j)) as [->|N]; [left; auto|right; exists k; split; [lia|exact E]].
Qed.

(** what is known of [diff] and [poss] at index [idx] with [j] multiples still to be tried *)
Definition consistent (flops : Z -> Z) (m : Z) (idx j : nat) (diff poss : option Z) : Prop :=
  match diff with
  | Some d => forall k, (1 <= k <= j)%nat -> flops (Z.of_nat k * m) = flops (Z.of_nat (S k) * m) - d
  | None => idx = 2%nat -> forall d, poss = Some d -> d = flops (Z.of_nat (S (S j)) * m) - flops (Z.of_nat (S j) * m)
  end.
Lemma quad_step a b k m x : (a * ((x+1) * m) * ((x+1) * m) + b * ((x+1) * m) + k) - (a * (x * m) * (x * m) + b * (x * m) + k) = a * m * m * (2 * x + 1) + b * m.
Proof. ring. Qed.

(** [K] is the number of the candidates *)
Lemma plan_loop_exact flops n m a b k target K : 0 < m -> Z.of_nat K * m <= n -> quadratic flops n a b k ->
  (a <> 0 -> k <> a * ((Z.of_nat K - 1) * m) * ((Z.of_nat K - 2) * m)) ->
  forall j idx diff poss, (idx + S j = K)%nat ->
  (idx = 0%nat -> diff = None) -> (diff <> None -> a = 0 ) -> consistent flops m idx j diff poss -> (idx = 0%nat \/ idx = 1%nat -> diff = None /\ poss = None) ->
  forall post, (idx <> 0%nat -> post = flops (Z.of_nat (S j) * m)) ->
  match plan_loop flops target (down m j) idx (Z.of_nat (S j) * m) post diff poss with
  | Some (c, f) => In c (down m j) /\ f = flops c /\ (forall c', In c' (down m j) -> c < c' -> below (flops c') target = false)
  | None => forall c', In c' (down m j) -> below (flops c') target = false
  end.
Proof.
  intros M KN Q NC. induction j as [|j IH]; intros idx diff poss I D0 DA C Z01 post P.
  - cbn [down plan_loop]. intros c' [].
  - cbn [down plan_loop].
    assert (G : forall x, (1 <= x <= K)%nat -> flops (Z.of_nat x * m) = a * (Z.of_nat x * m) * (Z.of_nat x * m) + b * (Z.of_nat x * m) + k).
    { intros x Hx. apply Q. nia. }
    assert (LT : forall c', In c' (down m j) -> c' < Z.of_nat (S j) * m).
    { intros c' H. apply down_in in H. destruct H as (x & H & ->). nia. }
    assert (STEP : forall diff' poss' post', post' = flops (Z.of_nat (S j) * m) -> (diff' <> None -> a = 0) ->
        consistent flops m (S idx) j diff' poss' -> (idx = 0%nat -> diff' = None /\ poss' = None) ->
        match (if below post' target then Some (Z.of_nat (S j) * m, post') else plan_loop flops target (down m j) (S idx) (Z.of_nat (S j) * m) post' diff' poss') with
        | Some (c, f) => In c (Z.of_nat (S j) * m :: down m j) /\ f = flops c /\ (forall c', In c' (Z.of_nat (S j) * m :: down m j) -> c < c' -> below (flops c') target = false)
        | None => forall c', In c' (Z.of_nat (S j) * m :: down m j) -> below (flops c') target = false
        end).
    { intros diff' poss' post' E A' C' Z'. destruct (below post' target) eqn:B.
      - split; [now left|]. split; [exact E|]. intros c' [<-|H] L; [lia|]. specialize (LT c' H). lia.
      - assert (X := IH (S idx) diff' poss' ltac:(lia) ltac:(discriminate) A' C').
        assert (Z1 : S idx = 0%nat \/ S idx = 1%nat -> diff' = None /\ poss' = None).
        { intros [X1|X1]; [discriminate|apply Z'; lia]. }
        specialize (X Z1 post' (fun _ => E)).
        destruct (plan_loop flops target (down m j) (S idx) (Z.of_nat (S j) * m) post' diff' poss') as [[c f]|].
        + destruct X as (X1 & X2 & X3). split; [now right|]. split; [exact X2|]. intros c' [<-|H] L; [now rewrite <- E|now apply X3].
        + intros c' [<-|H]; [now rewrite <- E|now apply X]. }
    destruct diff as [d|].
    + assert (NZ : idx <> 0%nat) by (intros H; specialize (D0 H); discriminate).
      apply STEP.
      * rewrite (P NZ). rewrite (C (S j) ltac:(lia)). reflexivity.
      * exact DA.
      * intros x Hx. apply C. lia.
      * intros H. now elim NZ.
    + assert (LIN : a = 0 -> forall x, (1 <= x <= j)%nat -> forall y, (1 <= y < K)%nat -> flops (Z.of_nat x * m) = flops (Z.of_nat (S x) * m) - (flops (Z.of_nat (S y) * m) - flops (Z.of_nat y * m))).
      { intros A x Hx y Hy. rewrite !G by lia. rewrite A. rewrite !Nat2Z.inj_succ. ring. }
      destruct idx as [|[|[|idx]]].
      * apply STEP; [reflexivity|congruence|intros H; discriminate H|]. intros _. apply Z01. now left.
      * (* index 1 *)
        specialize (P ltac:(discriminate)).
        destruct ((post mod (Z.of_nat (S (S j)) * m) =? 0) && (flops (Z.of_nat (S j) * m) mod (Z.of_nat (S j) * m) =? 0) &&
                  (post / (Z.of_nat (S (S j)) * m) =? flops (Z.of_nat (S j) * m) / (Z.of_nat (S j) * m))) eqn:E.
        -- apply andb_true_iff in E. destruct E as [E E3]. apply andb_true_iff in E. destruct E as [E1 E2].
           apply Z.eqb_eq in E1, E2, E3.
           assert (A0 : a = 0).
           { destruct (Z.eq_dec a 0) as [A|A]; [exact A|]. exfalso. specialize (NC A). apply NC.
             apply Z_div_exact_full_2 in E1; [|nia]. apply Z_div_exact_full_2 in E2; [|nia].
             rewrite <- E3 in E2. set (q := post / (Z.of_nat (S (S j)) * m)) in *. rewrite P in E1.
             rewrite G in E1, E2 by lia. replace (Z.of_nat K) with (Z.of_nat j + 3) by lia.
             assert (e1 : Z.of_nat (S (S j)) = Z.succ (Z.succ (Z.of_nat j))) by lia. assert (e2 : Z.of_nat (S j) = Z.succ (Z.of_nat j)) by lia.
             clearbody q. rewrite e1 in E1. rewrite e2 in E2. set (z := Z.of_nat j) in *.
             (* quotients equal: (x+m) * F(x) = x * F(x+m) *)
             assert (Y : (Z.succ z * m) * (a * (Z.succ (Z.succ z) * m) * (Z.succ (Z.succ z) * m) + b * (Z.succ (Z.succ z) * m) + k) =
                         (Z.succ (Z.succ z) * m) * (a * (Z.succ z * m) * (Z.succ z * m) + b * (Z.succ z * m) + k)).
             { rewrite E1, E2. ring. }
             assert (Y2 : m * (a * ((z + 3 - 1) * m) * ((z + 3 - 2) * m) - k) = 0).
             { assert (Y3 : m * (a * ((z + 3 - 1) * m) * ((z + 3 - 2) * m) - k) =
                 (Z.succ z * m) * (a * (Z.succ (Z.succ z) * m) * (Z.succ (Z.succ z) * m) + b * (Z.succ (Z.succ z) * m) + k) -
                         (Z.succ (Z.succ z) * m) * (a * (Z.succ z * m) * (Z.succ z * m) + b * (Z.succ z * m) + k)) by ring.
               rewrite Y3, Y. ring. }
             apply Z.mul_eq_0 in Y2. lia. }
           apply STEP; [reflexivity|intros _; exact A0| |discriminate].
           intros x Hx. rewrite P. apply (LIN A0); lia.
        -- apply STEP; [reflexivity|congruence| |discriminate].
           intros _ d H. injection H as <-. now rewrite P.
      * (* index 2 *)
        specialize (P ltac:(discriminate)). cbn [consistent] in C. specialize (C eq_refl).
        destruct poss as [d|].
        -- destruct (post - flops (Z.of_nat (S j) * m) =? d) eqn:E.
           ++ apply Z.eqb_eq in E. specialize (C d eq_refl).
              assert (A0 : a = 0).
              { rewrite P, C in E. rewrite !G in E by lia. rewrite !Nat2Z.inj_succ in E.
                set (z := Z.of_nat j) in *. assert (Y : 2 * a * m * m = 0).
                { assert (Y3 : 2 * a * m * m =
                   (a * (Z.succ (Z.succ (Z.succ z)) * m) * (Z.succ (Z.succ (Z.succ z)) * m) + b * (Z.succ (Z.succ (Z.succ z)) * m) + k - (a * (Z.succ (Z.succ z) * m) * (Z.succ (Z.succ z) * m) + b * (Z.succ (Z.succ z) * m) + k)) -
                   (a * (Z.succ (Z.succ z) * m) * (Z.succ (Z.succ z) * m) + b * (Z.succ (Z.succ z) * m) + k - (a * (Z.succ z * m) * (Z.succ z * m) + b * (Z.succ z * m) + k))) by ring.
                  rewrite Y3, E. ring. }
                nia. }
              apply STEP; [reflexivity|intros _; exact A0| |discriminate].
              intros x Hx. rewrite <- E, P. apply (LIN A0); lia.
           ++ apply STEP; [reflexivity|congruence|intros H; discriminate H|discriminate].
        -- apply STEP; [reflexivity|congruence|intros H; discriminate H|discriminate].
      * apply STEP; [reflexivity|congruence|intros H; discriminate H|discriminate].
Qed.

Lemma allowed_down n m c : 0 < m -> (m | n) -> 0 < n -> allowed n m c <-> In c (down m (Nat.pred (Z.to_nat (n / m)))).
Proof.
  intros M [q ->] N. rewrite Z.div_mul by lia. rewrite down_in. unfold allowed. split.
  - intros (H & x & ->). exists (Z.to_nat x). split; [|rewrite Z2Nat.id by nia; ring].
    assert (0 < x < q) by nia. lia.
  - intros (x & H & ->). split; [nia|]. exists (Z.of_nat x). ring.
Qed.

Lemma find_plan_down flops n m pre target : 0 < m -> 0 < n -> (m | n) ->
  find_plan flops n m pre target =
  plan_loop flops target (down m (Nat.pred (Z.to_nat (n / m)))) 0 (Z.of_nat (S (Nat.pred (Z.to_nat (n / m)))) * m) pre None None.
Proof.
  intros M N [q ->]. unfold find_plan, candidates. rewrite Z.div_mul by lia. rewrite rev_seq_down.
  assert (0 < q) by nia. destruct (Z.to_nat q) as [|j] eqn:E; [lia|]. reflexivity.
Qed.

Lemma plan_exact_lemma flops n m pre target a b k : 0 < m -> 0 < n -> (m | n) -> quadratic flops n a b k ->
  (a <> 0 -> k <> a * (n - m) * (n - 2 * m)) ->
  (forall c f, find_plan flops n m pre target = Some (c, f) <-> least_cut flops n m target c f) /\
  (find_plan flops n m pre target = None <-> forall c, allowed n m c -> ~ (inject_Z (flops c) < target)%Q).
Proof.
  intros M N D Q NC. rewrite (find_plan_down _ _ _ _ _ M N D). set (j := Nat.pred (Z.to_nat (n / m))).
  assert (J : Z.of_nat (S j) * m = n).
  { subst j. destruct D as [q ->]. rewrite Z.div_mul by lia. assert (0 < q) by nia. destruct (Z.to_nat q) eqn:E; [lia|]. cbn [Nat.pred]. nia. }
  assert (AD : forall c, allowed n m c <-> In c (down m j)) by (intros; now apply allowed_down).
  assert (X := plan_loop_exact flops n m a b k target (S j) M ltac:(lia) Q).
  assert (NC' : a <> 0 -> k <> a * ((Z.of_nat (S j) - 1) * m) * ((Z.of_nat (S j) - 2) * m)).
  { intros A. specialize (NC A). replace ((Z.of_nat (S j) - 1) * m) with (n - m) by lia.
    replace ((Z.of_nat (S j) - 2) * m) with (n - 2 * m) by lia. exact NC. }
  specialize (X NC' j 0%nat None None ltac:(lia) ltac:(auto) ltac:(congruence)).
  assert (C : consistent flops m 0 j None None) by (intros H; discriminate H).
  specialize (X C ltac:(auto) pre ltac:(congruence)).
  assert (PB := plan_below flops target (down m j) 0 (Z.of_nat (S j) * m) pre None None).
  destruct (plan_loop flops target (down m j) 0 (Z.of_nat (S j) * m) pre None None) as [[c0 f0]|].
  - destruct X as (X1 & X2 & X3). destruct (PB c0 f0 eq_refl) as [_ B].
    assert (LC : least_cut flops n m target c0 f0).
    { split; [now apply AD|]. split; [exact X2|]. split; [exact B|]. intros c' A' L. apply below_false, X3; [now apply AD|exact L]. }
    split; [|split; [discriminate|intros H; elim (H c0 (proj1 LC)); now rewrite <- X2]].
    intros c f. split.
    + intros E. injection E as <- <-. exact LC.
    + intros (A1 & A2 & A3 & A4). destruct LC as (B1 & B2 & B3 & B4).
      destruct (Z.lt_trichotomy c c0) as [L|[L|L]].
      * elim (A4 c0 B1 L). now rewrite <- B2.
      * subst c. now rewrite A2, B2.
      * elim (B4 c A1 L). now rewrite <- A2.
  - split.
    + intros c f. split; [discriminate|]. intros (A1 & A2 & A3 & _). apply AD in A1. specialize (X c A1). apply below_false in X. elim X. now rewrite <- A2.
    + split; [|reflexivity]. intros _ c A. apply below_false, X, AD, A.
Qed.

Lemma width_exact_lemma flops n m pre target a b k : 0 < m -> m <= n -> quadratic flops n a b k ->
  (a <> 0 -> k <> a * (n / m * m - m) * (n / m * m - 2 * m)) ->
  (forall c f, find_plan flops n m pre target = Some (c, f) <-> least_cut flops (n / m * m) m target c f) /\
  (find_plan flops n m pre target = None <-> forall c, allowed (n / m * m) m c -> ~ (inject_Z (flops c) < target)%Q).
Proof.
  intros M N Q NC.
  assert (E : find_plan flops n m pre target = find_plan flops (n / m * m) m pre target).
  { unfold find_plan, candidates. now rewrite Z.div_mul by lia. }
  rewrite E. assert (L : n / m * m <= n) by (rewrite Z.mul_comm; apply Z.mul_div_le; lia).
  assert (P : 0 < n / m) by (apply Z.div_str_pos; lia).
  apply (plan_exact_lemma _ _ _ _ _ a b k M); [nia|exists (n / m); reflexivity| |exact NC]. intros c Hc. apply Q. lia.
Qed.
Lemma plan_network_lemma n m pre target ls : 0 < m -> 0 < n -> (m | n) ->
  Forall (fun e => fits n (fst e) (fst (snd e)) (snd (snd e))) ls -> Forall (fun e => one_sided (fst e) (fst (snd e)) (snd (snd e))) ls ->
  (forall c f, find_plan (network_flops n ls) n m pre target = Some (c, f) <-> least_cut (network_flops n ls) n m target c f) /\
  (find_plan (network_flops n ls) n m pre target = None <-> forall c, allowed n m c -> ~ (inject_Z (network_flops n ls c) < target)%Q).
Proof.
  intros M N D F O. destruct (flops_poly n ls F) as (a & b & k & A & E). specialize (A O). subst a.
  apply (plan_exact_lemma _ _ _ _ _ 0 b k M N D); [|congruence].
  intros c Hc. unfold network_flops. now rewrite (E c Hc).
Qed.
Lemma plan_below_lemma flops n m pre target c f : find_plan flops n m pre target = Some (c, f) -> (inject_Z f < target)%Q.
Proof. unfold find_plan. destruct (candidates n m); [discriminate|]. intros E. apply plan_below in E. apply E. Qed.

(** * The rounds *)
Lemma best_in b js : In (best_job b js) (b :: js).
Proof.
  revert b. induction js as [|j js IH]; intros b; cbn [best_job]; [now left|].
  destruct (IH (if Qle_bool (fst j) (fst b) then b else j)) as [H|H]; [|right; now right].
  rewrite <- H. destruct (Qle_bool (fst j) (fst b)); [now left|right; now left].
Qed.
Lemma best_max js : forall b j, In j (b :: js) -> (fst j <= fst (best_job b js))%Q.
Proof.
  induction js as [|x js IH]; intros b j H; cbn [best_job].
  - destruct H as [<-|[]]. apply Qle_refl.
  - set (y := if Qle_bool (fst x) (fst b) then b else x).
    assert (Y : (fst b <= fst y)%Q /\ (fst x <= fst y)%Q).
    { subst y. destruct (Qle_bool (fst x) (fst b)) eqn:E.
      - apply Qle_bool_iff in E. split; [apply Qle_refl|exact E].
      - split; [|apply Qle_refl]. apply Qlt_le_weak, Qnot_le_lt. intro L. apply Qle_bool_iff in L. congruence. }
    destruct H as [<-|[<-|H]].
    + eapply Qle_trans; [apply Y|]. apply IH. now left.
    + eapply Qle_trans; [apply Y|]. apply IH. now left.
    + apply IH. now right.
Qed.

Lemma target_le r d it cur : (0 <= r)%Q -> (0 <= d)%Q -> 0 <= cur -> (round_target r d it cur <= inject_Z cur)%Q.
Proof.
  intros R D C. unfold round_target. rewrite <- (Qplus_0_r (inject_Z cur)) at 3. unfold Qminus. apply Qplus_le_r.
  change 0%Q with (- 0)%Q. apply Qopp_le_compat. apply Qmult_le_0_compat; [apply Qmult_le_0_compat; [exact R|]|now apply Qpower_pos].
  change 0%Q with (inject_Z 0). now rewrite <- Zle_Qle.
Qed.

Lemma last_cons {A} (x y : A) l : last (x :: l) y = last l x.
Proof.
  revert x y. induction l as [|z l IH]; intros x y; [reflexivity|]. change (last (z :: l) y = last (z :: l) x).
  now rewrite (IH z y), (IH z x).
Qed.
Lemma rounds_lemma jobs r d budget rounds : (0 <= r)%Q -> (0 <= d)%Q -> 0 <= budget -> keeps_target jobs ->
  forall fuel it cur, (Z.to_nat (cur - budget) < fuel)%nat ->
  exists trace st, rounds_loop jobs r d budget rounds fuel it cur = Some (trace, st) /\ falling jobs r d budget it cur trace /\
    match st with
    | Reached => final cur trace <= budget
    | NoRounds => exists k, rounds = Some k /\ (k <= it + length trace)%nat /\ (trace <> [] -> (it + length trace = k)%nat)
    | AllInvalid => budget < final cur trace /\ exists a, In (a, None) (jobs (it + length trace)%nat (round_target r d (it + length trace) (final cur trace))) /\
                      forall j, In j (jobs (it + length trace)%nat (round_target r d (it + length trace) (final cur trace))) -> (fst j <= a)%Q
    | NoSubgraph => budget < final cur trace /\ jobs (it + length trace)%nat (round_target r d (it + length trace) (final cur trace)) = []
    end.
Proof.
  intros R D B KT. induction fuel as [|fuel IH]; intros it cur L; [lia|]. cbn [rounds_loop].
  destruct (match rounds with Some k => (k <=? it)%nat | None => false end) eqn:E.
  { exists [], NoRounds. split; [reflexivity|]. split; [exact I|]. destruct rounds as [k|]; [|discriminate].
    apply Nat.leb_le in E. exists k. split; [reflexivity|]. cbn [length]. split; [lia|congruence]. }
  destruct (cur <=? budget) eqn:CB.
  { exists [], Reached. split; [reflexivity|]. split; [exact I|]. now apply Z.leb_le in CB. }
  apply Z.leb_gt in CB.
  destruct (jobs it (round_target r d it cur)) as [|j js] eqn:J.
  { exists [], NoSubgraph. split; [reflexivity|]. split; [exact I|]. cbn [length final last]. rewrite Nat.add_0_r. split; [exact CB|exact J]. }
  assert (BI := best_in j js). assert (BM := best_max js j). destruct (best_job j js) as [a o] eqn:BJ. cbn [fst snd] in *.
  destruct o as [f|].
  - assert (F : f < cur).
    { rewrite <- J in BI. specialize (KT _ _ _ _ BI). rewrite Zlt_Qlt. eapply Qlt_le_trans; [exact KT|]. apply target_le; [exact R|exact D|lia]. }
    assert (L' : (Z.to_nat (f - budget) < fuel)%nat) by lia.
    destruct (IH (S it) f L') as (tr & st & E1 & E2 & E3).
    exists (f :: tr), st. rewrite E1. cbn [obind fst snd]. split; [reflexivity|]. split.
    + cbn [falling]. split; [exact CB|]. split; [exact F|]. split; [|exact E2]. exists a. rewrite J. split; [exact BI|exact BM].
    + unfold final in *. rewrite last_cons. cbn [length]. rewrite <- plus_n_Sm. change (S (it + length tr)) with (S it + length tr)%nat.
      destruct st; try exact E3. destruct E3 as (k & -> & K1 & K2). exists k. split; [reflexivity|]. split; [exact K1|]. intros _.
      destruct tr as [|t0 tr]; [|apply K2; discriminate]. cbn [length] in *. apply Nat.leb_gt in E. lia.
  - exists [], AllInvalid. split; [reflexivity|]. split; [exact I|]. cbn [length final last]. rewrite Nat.add_0_r. split; [exact CB|].
    exists a. rewrite J. split; [exact BI|exact BM].
Qed.

Lemma invalid_lemma jobs r d budget rounds fuel cur trace : (0 <= r)%Q -> (0 <= d)%Q -> 0 <= budget -> keeps_target jobs ->
  accuracies_above jobs -> (Z.to_nat (cur - budget) < fuel)%nat -> rounds_loop jobs r d budget rounds fuel 0 cur = Some (trace, AllInvalid) ->
  forall a o, In (a, o) (jobs (length trace) (round_target r d (length trace) (final cur trace))) -> o = None.
Proof.
  intros R D B KT AA L E a o H. destruct (rounds_lemma jobs r d budget rounds R D B KT fuel 0 cur L) as (tr & st & E1 & _ & E3).
  rewrite E in E1. injection E1 as <- <-. destruct E3 as (_ & a0 & I0 & M0). cbn [plus] in *.
  specialize (M0 _ H). cbn [fst] in M0. specialize (AA _ _ _ _ I0) as A0. cbn in A0. subst a0.
  specialize (AA _ _ _ _ H). destruct o as [f|]; [|reflexivity]. exfalso. apply (Qlt_not_le _ _ AA M0).
Qed.

(** the rounds with the plans of [find_plan] *)
Lemma jobs_keep (sub : nat -> Q -> list ((Z -> Q) * (Z -> Z) * (Z * Z * Z))) :
  keeps_target (fun it t => map (fun s => match s with (acc, flops, (n, m, pre)) => subgraph_job acc flops n m pre t end) (sub it t)).
Proof.
  intros it t a f H. apply in_map_iff in H. destruct H as ([[acc F] [[n m] pre]] & E & _). unfold subgraph_job in E.
  destruct (find_plan F n m pre t) as [[c f']|] eqn:P; [|discriminate]. injection E as <- <-. exact (plan_below_lemma _ _ _ _ _ _ _ P).
Qed.
Lemma jobs_above (sub : nat -> Q -> list ((Z -> Q) * (Z -> Z) * (Z * Z * Z))) :
  (forall it t acc flops s, In (acc, flops, s) (sub it t) -> forall c, (-1 < acc c)%Q) ->
  accuracies_above (fun it t => map (fun s => match s with (acc, flops, (n, m, pre)) => subgraph_job acc flops n m pre t end) (sub it t)).
Proof.
  intros A it t a o H. apply in_map_iff in H. destruct H as ([[acc F] [[n m] pre]] & E & I). unfold subgraph_job in E.
  destruct (find_plan F n m pre t) as [[c f']|]; injection E as <- <-; [|reflexivity]. eapply A; eauto.
Qed.
