(** Specification and proofs for the helpers of [UtilModel]. *)
From Coq Require Import List Arith ZArith Bool Reals Lra Lia.
From Verif Require Import Tensor ConvSpec FuseModel FuseProofs UtilModel.
Import ListNotations.
Local Open Scope R_scope.

(* ------------------------------------------------------------------ *)
(** * Average meter *)

(** The updates since the last reset. *)
Fixpoint since_reset (h : list meter_op) : list (R * Z) :=
  match h with
  | [] => []
  | MUpdate v n :: h' => if existsb (fun o => match o with MReset => true | _ => false end) h'
                         then since_reset h' else (v, n) :: since_reset h'
  | MReset :: h' => since_reset h'
  end.
Definition weight_sum (l : list (R * Z)) : Z := fold_right (fun p s => (snd p + s)%Z) 0%Z l.
Definition value_sum (l : list (R * Z)) : R := fold_right (fun p s => fst p * IZR (snd p) + s) 0 l.
Definition weighted_mean (l : list (R * Z)) : R := value_sum l / IZR (weight_sum l).
Definition is_reset (o : meter_op) : bool := match o with MReset => true | _ => false end.
(** every update has a positive weight *)
Definition positive_op (o : meter_op) : Prop := match o with MUpdate _ n => (0 < n)%Z | MReset => True end.

Lemma since_app_update : forall h v n, since_reset (h ++ [MUpdate v n]) = since_reset h ++ [(v, n)].
Proof.
  induction h as [|o h IH]; intros v n; [reflexivity|].
  destruct o; cbn [since_reset app].
  - rewrite existsb_app. cbn [existsb]. rewrite orb_false_r, IH. destruct existsb; reflexivity.
  - apply IH.
Qed.
Lemma since_app_reset : forall h, since_reset (h ++ [MReset]) = [].
Proof.
  induction h as [|o h IH]; [reflexivity|]. destruct o; cbn [since_reset app]; [|exact IH].
  rewrite existsb_app. cbn [existsb]. rewrite !orb_true_r. exact IH.
Qed.
Lemma weight_sum_app : forall l v n, weight_sum (l ++ [(v, n)]) = (weight_sum l + n)%Z.
Proof. induction l as [|p l IH]; intros v n; cbn [weight_sum fold_right app fst snd] in *; [lia|].
  fold (weight_sum (l ++ [(v, n)])). rewrite IH. unfold weight_sum. lia. Qed.
Lemma value_sum_app : forall l v n, value_sum (l ++ [(v, n)]) = value_sum l + v * IZR n.
Proof. induction l as [|p l IH]; intros v n; cbn [value_sum fold_right app fst snd] in *; [lra|].
  fold (value_sum (l ++ [(v, n)])). rewrite IH. unfold value_sum. lra. Qed.
Lemma meter_run_app : forall h o, meter_run (h ++ [o]) = meter_step (meter_run h) o.
Proof. intros. unfold meter_run. rewrite fold_left_app. reflexivity. Qed.

Lemma meter_state : forall h m, meter_run h = Some m ->
  m_sum m = value_sum (since_reset h) /\ m_count m = weight_sum (since_reset h) /\
  (since_reset h = [] -> m = meter_reset) /\
  (since_reset h <> [] -> m_avg m = weighted_mean (since_reset h)).
Proof.
  induction h as [|o h IH] using rev_ind; intros m H.
  - injection H as <-. repeat split; trivial. intros C; elim C; reflexivity.
  - rewrite meter_run_app in H. destruct (meter_run h) as [m0|] eqn:E.
    2:{ destruct o; discriminate. }
    destruct (IH m0 eq_refl) as (I1 & I2 & _). destruct o as [v n|]; cbn [meter_step option_map obind] in H.
    + unfold meter_update in H. destruct (m_count m0 + n =? 0)%Z eqn:Z0; [discriminate|].
      injection H as <-. rewrite since_app_update. cbn [m_sum m_count m_avg].
      rewrite value_sum_app, weight_sum_app, I1, I2. repeat split; trivial.
      * intros C. apply app_eq_nil in C. destruct C; discriminate.
      * intros _. unfold weighted_mean. rewrite value_sum_app, weight_sum_app. reflexivity.
    + injection H as <-. rewrite since_app_reset. repeat split; trivial. intros C; elim C; reflexivity.
Qed.

Lemma weight_nonneg : forall h, Forall positive_op h -> (0 <= weight_sum (since_reset h))%Z.
Proof.
  induction h as [|o h IH]; intros F; [reflexivity|]. inversion F as [|? ? Po Ph]; subst.
  destruct o; cbn [since_reset]; [destruct existsb|]; auto.
  cbn [weight_sum fold_right snd]. fold (weight_sum (since_reset h)). cbn [positive_op] in Po.
  specialize (IH Ph). lia.
Qed.
Lemma meter_defined : forall h, Forall positive_op h -> exists m, meter_run h = Some m.
Proof.
  induction h as [|o h IH] using rev_ind; intros F; [eexists; reflexivity|].
  apply Forall_app in F. destruct F as (Fh & Fo). destruct (IH Fh) as (m & E).
  inversion Fo as [|? ? Po _]; subst.
  rewrite meter_run_app, E. destruct o as [v n|]; cbn [meter_step obind option_map]; [|eexists; reflexivity].
  destruct (meter_state _ _ E) as (_ & I2 & _). pose proof (weight_nonneg _ Fh). cbn [positive_op] in Po.
  unfold meter_update. destruct (Z.eqb_spec (m_count m + n) 0); [lia|]. eexists; reflexivity.
Qed.
Lemma meter_last : forall h v n m, meter_run (h ++ [MUpdate v n]) = Some m -> m_val m = v.
Proof.
  intros h v n m H. rewrite meter_run_app in H. cbn [meter_step] in H.
  destruct (meter_run h) as [m0|]; [|discriminate]. cbn [obind] in H. unfold meter_update in H.
  destruct (m_count m0 + n =? 0)%Z; [discriminate|]. injection H as <-. reflexivity.
Qed.

(* ------------------------------------------------------------------ *)
(** * Training loop *)

(** weights after [n] epochs *)
Fixpoint after {W} (step : nat -> W -> W) (m : W) (n : nat) : W :=
  match n with O => m | S k => step k (after step m k) end.
Definition acc_of {W} (step : nat -> W -> W) (validate : W -> R) (m : W) (i : nat) : R :=
  validate (after step m (S i)).

Lemma train_states : forall (W : Type) (step : nat -> W -> W) validate m file n,
  let st := fold_left (train_epoch step validate) (seq 0 n) (mkTS m 0 file) in
  t_model st = after step m n /\
  ((t_best st = 0 /\ t_file st = file /\ forall i, (i < n)%nat -> acc_of step validate m i <= 0) \/
   (exists k, (k < n)%nat /\ t_file st = Some (after step m (S k)) /\ t_best st = acc_of step validate m k /\
      0 < t_best st /\ forall i, (i < n)%nat -> acc_of step validate m i <= acc_of step validate m k /\
                                 ((i < k)%nat -> acc_of step validate m i < acc_of step validate m k))).
Proof.
  intros W step validate m file. induction n as [|n IH]; cbn zeta.
  - split; [reflexivity|]. left. repeat split; trivial. intros i H; lia.
  - rewrite seq_S, fold_left_app. cbn [fold_left Nat.add].
    set (st := fold_left (train_epoch step validate) (seq 0 n) (mkTS m 0 file)) in *.
    destruct IH as (IM & I). unfold train_epoch. rewrite IM.
    change (step n (after step m n)) with (after step m (S n)).
    change (validate (after step m (S n))) with (acc_of step validate m n).
    destruct Rlt_dec as [L|L]; cbn [t_model t_best t_file]; (split; [reflexivity|]).
    + right. exists n. split; [lia|]. split; [reflexivity|]. split; [reflexivity|].
      destruct I as [(B & F & A)|(k & Hk & F & B & P & A)].
      * rewrite B in L. split; [exact L|]. intros i Hi. destruct (Nat.eq_dec i n) as [->|Q]; [split; [lra|lia]|].
        specialize (A i ltac:(lia)). split; [lra|intros _; lra].
      * split; [lra|]. intros i Hi. destruct (Nat.eq_dec i n) as [->|Q]; [split; [lra|lia]|].
        destruct (A i ltac:(lia)) as (A1 & _). split; [lra|intros _; lra].
    + destruct I as [(B & F & A)|(k & Hk & F & B & P & A)].
      * left. rewrite B, F in *. repeat split; trivial. intros i Hi.
        destruct (Nat.eq_dec i n) as [->|Q]; [lra|]. apply A. lia.
      * right. exists k. split; [lia|]. split; [exact F|]. split; [exact B|]. split; [exact P|].
        intros i Hi. destruct (Nat.eq_dec i n) as [->|Q]; [split; [lra|lia]|]. apply A. lia.
Qed.

Lemma train_best : forall (W : Type) (step : nat -> W -> W) validate n m file,
  (exists i, (i < n)%nat /\ 0 < acc_of step validate m i) ->
  exists k, (k < n)%nat /\ train step validate n m file = Some (after step m (S k)) /\
    forall i, (i < n)%nat -> acc_of step validate m i <= acc_of step validate m k /\
                             ((i < k)%nat -> acc_of step validate m i < acc_of step validate m k).
Proof.
  intros W step validate n m file (i & Hi & P). destruct (train_states W step validate m file n) as (_ & S).
  unfold train. destruct S as [(_ & _ & A)|(k & Hk & F & _ & _ & A)].
  - specialize (A i Hi). lra.
  - exists k. auto.
Qed.
Lemma train_never : forall (W : Type) (step : nat -> W -> W) validate n m file,
  (forall i, (i < n)%nat -> acc_of step validate m i <= 0) -> train step validate n m file = file.
Proof.
  intros W step validate n m file H. destruct (train_states W step validate m file n) as (_ & S).
  unfold train. destruct S as [(_ & F & _)|(k & Hk & _ & B & P & _)]; [exact F|].
  specialize (H k Hk). lra.
Qed.

(* ------------------------------------------------------------------ *)
(** * Restored batch norm *)

Lemma sqrt_ratio : forall eps rv, 0 <= rv -> 0 <= eps -> 0 < rv + eps ->
  Rabs (sqrt rv / sqrt (rv + eps) - 1) <= eps / (rv + eps).
Proof.
  intros eps rv Hr He Hs. set (v := rv + eps) in *. pose proof (sqrt_lt_R0 v Hs) as Sv.
  assert (Q : rv / v <= sqrt rv / sqrt v).
  { destruct (Req_dec rv 0) as [->|N].
    - rewrite sqrt_0. unfold Rdiv. rewrite !Rmult_0_l. lra.
    - assert (0 < rv) by lra. pose proof (sqrt_lt_R0 rv H) as Sr.
      assert (L : sqrt rv <= sqrt v) by (apply sqrt_le_1; unfold v; lra).
      pose proof (sqrt_sqrt v ltac:(lra)) as E1. pose proof (sqrt_sqrt rv ltac:(lra)) as E2.
      rewrite <- E1 at 1. rewrite <- E2 at 1.
      apply Rmult_le_reg_r with (sqrt v * sqrt v); [nra|].
      replace (sqrt rv * sqrt rv / (sqrt v * sqrt v) * (sqrt v * sqrt v)) with (sqrt rv * sqrt rv) by (field; lra).
      replace (sqrt rv / sqrt v * (sqrt v * sqrt v)) with (sqrt rv * sqrt v) by (field; lra). nra. }
  assert (U : sqrt rv / sqrt v <= 1).
  { apply Rmult_le_reg_r with (sqrt v); trivial. replace (sqrt rv / sqrt v * sqrt v) with (sqrt rv) by (field; lra).
    rewrite Rmult_1_l. apply sqrt_le_1; unfold v; lra. }
  assert (E : rv / v = 1 - eps / v) by (unfold v in *; field; lra).
  rewrite Rabs_left1 by lra. lra.
Qed.

Lemma bn_restored : forall eps rm rv y, 0 <= rv -> 0 <= eps -> 0 < rv + eps ->
  Rabs (bn_affine eps (sqrt rv) rm rm rv y - y) <= Rabs (y - rm) * (eps / (rv + eps)).
Proof.
  intros eps rm rv y Hr He Hs. unfold bn_affine. pose proof (sqrt_lt_R0 _ Hs) as Sv.
  replace ((y - rm) / sqrt (rv + eps) * sqrt rv + rm - y) with ((y - rm) * (sqrt rv / sqrt (rv + eps) - 1)) by (field; lra).
  rewrite Rabs_mult. apply Rmult_le_compat_l; [apply Rabs_pos|]. apply sqrt_ratio; trivial.
Qed.

Lemma restored_bound : forall eps rm rv y idx, 0 <= eps ->
  (nth 1 idx 0 < length rv)%nat -> 0 <= nth (nth 1 idx 0%nat) rv 0 -> 0 < nth (nth 1 idx 0%nat) rv 0 + eps ->
  Rabs (tget (run_bn (restored_bn eps rm rv) ANone y) idx - tget y idx) <=
  Rabs (tget y idx - nth (nth 1 idx 0%nat) rm 0) * (eps / (nth (nth 1 idx 0%nat) rv 0 + eps)).
Proof.
  intros eps rm rv y idx He Hl H1 H2. unfold run_bn, restored_bn, tmap, batch_norm.
  cbn [tget bn_eps bn_w bn_b bn_mean bn_var act_fn].
  rewrite <- sqrt_0 at 1. rewrite map_nth. apply bn_restored; trivial.
Qed.

Lemma restored_exact : forall rm rv y idx,
  (nth 1 idx 0 < length rv)%nat -> 0 < nth (nth 1 idx 0%nat) rv 0 ->
  tget (run_bn (restored_bn 0 rm rv) ANone y) idx = tget y idx.
Proof.
  intros rm rv y idx Hl H. pose proof (restored_bound 0 rm rv y idx ltac:(lra) Hl ltac:(lra) ltac:(lra)) as B.
  unfold Rdiv in B. rewrite Rmult_0_l, Rmult_0_r in B.
  pose proof (Rabs_pos (tget (run_bn (restored_bn 0 rm rv) ANone y) idx - tget y idx)).
  assert (E : Rabs (tget (run_bn (restored_bn 0 rm rv) ANone y) idx - tget y idx) = 0) by lra.
  destruct (Req_dec (tget (run_bn (restored_bn 0 rm rv) ANone y) idx - tget y idx) 0) as [Z|Z]; [lra|].
  apply Rabs_no_R0 in Z. lra.
Qed.

(* ------------------------------------------------------------------ *)
(** * Lazy construction *)

(** What each option stands for. *)
Definition stands_for {V} (o : lopt V) (v : V) : Prop := o = LObj v \/ o = LExpr v \/ o = LPlain v.
Definition lazy_kw {V} (o : lopt V) : Prop := exists v, o = LObj v.

Lemma get_next_pos : forall (K V : Type) (pos : list (lopt V)) (kw : list (K * lopt V)) p k,
  get_next pos kw = Some (p, k) -> Forall2 stands_for pos p.
Proof.
  intros K V pos kw p k H. unfold get_next in H. destruct kw_values; [|discriminate]. injection H as <- _.
  induction pos as [|o pos IH]; cbn [map]; constructor; trivial. unfold stands_for.
  destruct o; cbn [pos_value]; tauto.
Qed.

Lemma kw_values_ok : forall (K V : Type) opt (kw : list (K * lopt V)),
  (forall k v, In (k, LObj v) kw -> opt = Some (LObj v)) ->
  exists l, kw_values opt kw = Some l /\ Forall2 (fun a b => fst a = fst b /\ stands_for (snd a) (snd b)) kw l.
Proof.
  intros K V opt kw. induction kw as [|(k, o) kw IH]; intros H; [eexists; split; [reflexivity|constructor]|].
  destruct IH as (l & E & F); [intros k' v Hin; apply (H k'); right; exact Hin|]. cbn [kw_values].
  assert (Q : exists v, kw_value opt o = Some v /\ stands_for o v).
  { unfold stands_for. destruct o as [v|v|v]; cbn [kw_value]; [|eauto|eauto].
    rewrite (H k v (or_introl eq_refl)). eauto. }
  destruct Q as (v & -> & Sv). rewrite E. cbn [obind]. eexists. split; [reflexivity|].
  constructor; trivial. split; [reflexivity|exact Sv].
Qed.

(** keyword arguments are right exactly when every lazy keyword argument has the object of the
    last positional option *)
Lemma get_next_kw : forall (K V : Type) (pos : list (lopt V)) (kw : list (K * lopt V)),
  (exists p k, get_next pos kw = Some (p, k) /\
               Forall2 (fun a b => fst a = fst b /\ stands_for (snd a) (snd b)) kw k) <->
  (forall k v, In (k, LObj v) kw -> last_opt pos = Some (LObj v)).
Proof.
  intros K V pos kw. split.
  - intros (p & r & E & F). unfold get_next in E. destruct (kw_values (last_opt pos) kw) as [l|] eqn:Q; [|discriminate].
    injection E as <- <-. revert l Q F. induction kw as [|(k0, o) kw IH]; intros l Q F k v Hin; [elim Hin|].
    cbn [kw_values] in Q. destruct (kw_value (last_opt pos) o) as [v0|] eqn:V0; [|discriminate].
    cbn [obind] in Q. destruct (kw_values (last_opt pos) kw) as [l0|]; [|discriminate]. cbn [obind] in Q.
    injection Q as <-. inversion F as [|? ? ? ? (_ & Sv) F']; subst. cbn [fst snd] in *.
    destruct Hin as [C|Hin]; [|apply (IH l0 eq_refl F' k v Hin)]. injection C as -> ->.
    cbn [kw_value] in V0. destruct (last_opt pos) as [[w|w|w]|]; try discriminate. injection V0 as ->.
    destruct Sv as [Sv|[Sv|Sv]]; try discriminate. injection Sv as ->. reflexivity.
  - intros H. destruct (kw_values_ok K V (last_opt pos) kw H) as (l & E & F).
    exists (map pos_value pos), l. unfold get_next. rewrite E. auto.
Qed.
