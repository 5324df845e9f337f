From Coq Require Import String List Arith Bool Lia.
From Verif Require Import InitOpsModel InitOpsSpec.
Import ListNotations.

Lemma scope_eqb_eq : forall a b, scope_eqb a b = true <-> a = b.
Proof.
  intros [[x y]|] [[u w]|]; cbn; split; intros H; try discriminate; try reflexivity.
  - apply andb_true_iff in H. destruct H as [A B]. apply Nat.eqb_eq in A, B. subst. reflexivity.
  - injection H as -> ->. rewrite !Nat.eqb_refl. reflexivity.
Qed.
Lemma nm_eqb_eq : forall a b, nm_eqb a b = true <-> a = b.
Proof.
  intros [a x] [b y]. unfold nm_eqb. cbn. rewrite andb_true_iff, scope_eqb_eq, Nat.eqb_eq. split; [intros [-> ->]; reflexivity|]. intros H. injection H as -> ->. auto.
Qed.
Lemma nm_eqb_refl : forall a, nm_eqb a a = true.
Proof. intros a. apply nm_eqb_eq. reflexivity. Qed.
Lemma nm_eqb_ne : forall a b, a <> b -> nm_eqb a b = false.
Proof. intros a b H. destruct (nm_eqb a b) eqn:E; [|reflexivity]. apply nm_eqb_eq in E. contradiction. Qed.
Lemma upd_same : forall {A} (f : nm -> option A) k a, upd f k a k = Some a.
Proof. intros. unfold upd. rewrite nm_eqb_refl. reflexivity. Qed.
Lemma upd_other : forall {A} (f : nm -> option A) k a x, x <> k -> upd f k a x = f x.
Proof. intros. unfold upd. rewrite nm_eqb_ne by assumption. reflexivity. Qed.
Lemma nodup_drop : forall {A} (b x y : list A), NoDup (x ++ b ++ y) -> NoDup (x ++ y).
Proof. induction b as [|z b IH]; intros x y H; [exact H|]. apply IH. cbn in H. exact (NoDup_remove_1 _ _ _ H). Qed.

Lemma no_track_in k : no_track k = true <-> In k untracked.
Proof.
  unfold no_track. rewrite existsb_exists. split.
  - intros (x & X & E). apply String.eqb_eq in E. subst x. cbn in X. cbn. tauto.
  - intros H. exists k. split; [cbn in H; cbn; tauto|apply String.eqb_refl].
Qed.
Section P.
  Context {V : Type}.
  Variables (sem : string -> list V -> V) (pyobj : nat -> list V -> V) (truth : V -> bool).
  Notation run1 := (run1 sem truth). Notation run := (run sem truth).
  Notation walk := (walk sem pyobj truth).

  Lemma set_same : forall (e : nat -> option V) n v, set e n v n = Some v.
  Proof. intros. unfold set. rewrite Nat.eqb_refl. reflexivity. Qed.
  Lemma set_other : forall (e : nat -> option V) n v x, x <> n -> set e n v x = e x.
  Proof. intros. unfold set. apply Nat.eqb_neq in H. rewrite H. reflexivity. Qed.
  Lemma put_same : forall (e : nm -> option V) n v, put e n v n = v.
  Proof. intros. unfold put. rewrite nm_eqb_refl. reflexivity. Qed.
  Lemma put_other : forall (e : nm -> option V) n v x, x <> n -> put e n v x = e x.
  Proof. intros. unfold put. rewrite nm_eqb_ne by assumption. reflexivity. Qed.

  Lemma run1_if : forall c a b e, run1 (NIf c a b) e = match e c with Some v => if truth v then run a e else run b e | None => None end.
  Proof.
    intros c a b e. cbn. destruct (e c) as [v|]; [|reflexivity].
    assert (R : forall l e, (fix runs (l : list node) (e : nat -> option V) : option (nat -> option V) :=
      match l with [] => Some e | m :: r => match run1 m e with Some e => runs r e | None => None end end) l e = run l e)
      by (induction l as [|m l IH]; intros e0; [reflexivity|]; cbn [InitOpsSpec.run]; destruct (run1 m e0); [apply IH|reflexivity]).
    destruct (truth v); apply R.
  Qed.
  Lemma run1_py : forall s k ins out params body ret e, run1 (NPy s k ins out params body ret) e =
    match get e ins with
    | Some vs => match run body (bind (fun _ => None) params vs) with
                 | Some l => match l ret with Some r => Some (set e out r) | None => None end
                 | None => None end
    | None => None end.
  Proof.
    intros. cbn. destruct (get e ins) as [vs|]; [|reflexivity].
    assert (R : forall l e, (fix runs (l : list node) (e : nat -> option V) : option (nat -> option V) :=
      match l with [] => Some e | m :: r => match run1 m e with Some e => runs r e | None => None end end) l e = run l e)
      by (induction l as [|m l IH]; intros e0; [reflexivity|]; cbn [InitOpsSpec.run]; destruct (run1 m e0); [apply IH|reflexivity]).
    rewrite R. reflexivity.
  Qed.
  Lemma run_app : forall a b e, run (a ++ b) e = match run a e with Some e => run b e | None => None end.
  Proof. induction a as [|m a IH]; intros b e; [reflexivity|]. cbn. destruct (run1 m e); [apply IH|reflexivity]. Qed.

  Variables (same : V -> V -> Prop) (pins : list nat) (x' : list V).
  Hypothesis FX : shapes_fixed sem same.
  Definition G (s : st V) : nm -> option V := run_graph sem pins (em s) x'.
  Arguments G : simpl never.
  Definition val_ok (s : st V) (n : nm) (v v' : V) : Prop :=
    match tm s n with None => v = v' | Some (Some w) => w = v /\ v = v' | Some None => G s n = Some v' end.
  Definition Inv (c : scope) (e e' : nat -> option V) (s : st V) : Prop :=
    forall n, match e n, e' n with
    | Some v, Some v' => env s (c, n) = Some v /\ same v v' /\ val_ok s (c, n) v v'
    | None, None => tm s (c, n) = None
    | _, _ => False end.
  Definition frame (c : scope) (s s' : st V) : Prop :=
    sc s' = sc s /\ cnt s' = cnt s /\ cm s' = cm s /\ forall x, fst x <> c -> env s' x = env s x /\ tm s' x = tm s x /\ G s' x = G s x.

  Lemma frame_refl : forall c s, frame c s s.
  Proof. intros. repeat split. Qed.
  Lemma frame_trans : forall c a b d, frame c a b -> frame c b d -> frame c a d.
  Proof.
    intros c a b d (A1 & A2 & A3 & A4) (B1 & B2 & B3 & B4). split; [congruence|]. split; [congruence|]. split; [congruence|].
    intros x X. destruct (A4 x X) as (P & Q & R), (B4 x X) as (P' & Q' & R'). repeat split; congruence.
  Qed.
  Lemma val_ok_frame : forall c s s' n v v', frame c s s' -> fst n <> c -> val_ok s n v v' -> val_ok s' n v v'.
  Proof. intros c s s' n v v' (_ & _ & _ & F) N H. unfold val_ok in *. destruct (F n N) as (_ & T & H2). rewrite T, H2. exact H. Qed.

  Lemma get_rel : forall c e e' s, Inv c e e' s -> forall ins vs, get e ins = Some vs ->
    exists vs', get e' ins = Some vs' /\ get_all (env s) (map (pair c) ins) = Some vs /\ Forall2 same vs vs' /\
      (existsb (tracked s) (map (pair c) ins) = false -> vs = vs') /\
      arg_vals (G s) (map (fun p => to_arg s (fst p) (snd p)) (combine (map (pair c) ins) vs)) = Some vs' /\
      Forall (fun n => e n <> None) ins.
  Proof.
    intros c e e' s I. induction ins as [|n ins IH]; intros vs H.
    - injection H as <-. exists []. repeat split; constructor.
    - cbn in H. destruct (e n) as [v|] eqn:E; [|discriminate]. destruct (get e ins) as [ws|] eqn:R; [|discriminate]. injection H as <-.
      destruct (IH ws eq_refl) as (ws' & R' & GA & F & T & A & D). pose proof (I n) as J. rewrite E in J. destruct (e' n) as [v'|] eqn:E'; [|destruct J].
      destruct J as (J1 & J2 & J3). exists (v' :: ws'). cbn. rewrite E', R', J1, GA. split; [reflexivity|]. split; [reflexivity|].
      split; [constructor; assumption|]. split; [|split].
      + intros H. apply orb_false_iff in H. destruct H as [H1 H2]. rewrite (T H2). f_equal. unfold tracked in H1. unfold val_ok in J3.
        destruct (tm s (c, n)) as [[w|]|]; [exact (proj2 J3)|discriminate|exact J3].
      + rewrite A. assert (Q : arg_val (G s) (to_arg s (c, n) v) = Some v').
        { unfold to_arg. unfold val_ok in J3. destruct (tm s (c, n)) as [[w|]|]; cbn; [destruct J3; congruence|exact J3|congruence]. }
        rewrite Q. reflexivity.
      + constructor; [congruence|exact D].
  Qed.
  Lemma add_consts_spec : forall (e : nm -> option V) l vs t x, get_all e l = Some vs ->
    add_consts t l vs x = t x \/ (t x = None /\ In x l /\ exists v, e x = Some v /\ add_consts t l vs x = Some (Some v)).
  Proof.
    intros e. induction l as [|n l IH]; intros vs t x H; [left; reflexivity|].
    cbn in H. destruct (e n) as [v|] eqn:E; [|discriminate]. destruct (get_all e l) as [ws|] eqn:R; [|discriminate]. injection H as <-. cbn.
    destruct (IH ws (match t n with Some _ => t | None => upd t n (Some v) end) x eq_refl) as [K|(K1 & K2 & w & K3 & K4)].
    - rewrite K. destruct (t n) eqn:T; [left; reflexivity|]. destruct (nm_eqb x n) eqn:Q.
      + apply nm_eqb_eq in Q. subst x. right. rewrite upd_same. split; [exact T|]. split; [left; reflexivity|]. exists v. auto.
      + left. unfold upd. rewrite Q. reflexivity.
    - right. assert (T : t x = None).
      { destruct (t n) eqn:T; [exact K1|]. destruct (nm_eqb x n) eqn:Q; unfold upd in K1; rewrite Q in K1; [discriminate|exact K1]. }
      split; [exact T|]. split; [right; exact K2|]. exists w. auto.
  Qed.
  Lemma G_emit : forall s e' t' c' n' s' t, G (mkSt e' t' c' n' s' (em s ++ [t])) = run_emit sem (G s) t.
  Proof. intros. unfold G, run_graph. cbn. rewrite fold_left_app. reflexivity. Qed.

  Lemma op_ok : forall c e e' s k ins out e1, sc s = c -> Inv c e e' s -> flat_op k -> e out = None -> run1 (NOp k ins out) e = Some e1 ->
    exists s' e1', op_step sem s k ins out = Some s' /\ run1 (NOp k ins out) e' = Some e1' /\ Inv c e1 e1' s' /\ frame c s s'.
  Proof.
    intros c e e' s k ins out e1 SC I K O H. cbn in H. destruct (get e ins) as [vs|] eqn:GE; [|discriminate]. injection H as <-.
    destruct (get_rel c e e' s I ins vs GE) as (vs' & GE' & GA & F & T & A & D).
    pose proof (I out) as IO. rewrite O in IO. destruct (e' out) as [|] eqn:O'; [destruct IO|].
    unfold op_step. rewrite SC, GA. cbv zeta. destruct (no_track k || negb (existsb (tracked s) (map (pair c) ins))) eqn:NT.
    - eexists. exists (set e' out (sem k vs')). split; [reflexivity|]. split; [cbn; rewrite GE'; reflexivity|]. split.
      + intros n. destruct (Nat.eq_dec n out) as [->|N].
        * rewrite !set_same. cbn. rewrite upd_same. split; [reflexivity|]. split; [apply (proj1 FX); exact F|].
          unfold val_ok. cbn. rewrite IO. apply orb_true_iff in NT. destruct NT as [NT|NT]; [exact (proj2 FX k vs vs' (proj1 (no_track_in k) NT) K F)|].
          apply negb_true_iff in NT. rewrite (T NT). reflexivity.
        * rewrite !set_other by exact N. specialize (I n). destruct (e n), (e' n); cbn; try exact I.
          rewrite upd_other by congruence. exact I.
      + split; [exact (eq_refl c) || (cbn; congruence)|]. split; [reflexivity|]. split; [reflexivity|]. intros x X. cbn.
        rewrite upd_other by (intros ->; apply X; reflexivity). repeat split.
    - apply orb_false_iff in NT. destruct NT as [_ NT]. eexists. exists (set e' out (sem k vs')). split; [reflexivity|]. split; [cbn; rewrite GE'; reflexivity|]. split.
      + intros n. destruct (Nat.eq_dec n out) as [->|N].
        * rewrite !set_same. cbn. rewrite upd_same. split; [reflexivity|]. split; [apply (proj1 FX); exact F|].
          unfold val_ok. cbn. rewrite upd_same. rewrite G_emit. cbn. rewrite put_same, A. reflexivity.
        * rewrite !set_other by exact N. specialize (I n). assert (NE : (c, n) <> (c, out)) by congruence.
          destruct (e n) as [v|] eqn:E, (e' n) as [v'|] eqn:E'; cbn; try exact I.
          -- rewrite upd_other by exact NE. destruct I as (I1 & I2 & I3). split; [exact I1|]. split; [exact I2|].
             unfold val_ok in *. cbn. rewrite upd_other by exact NE. rewrite G_emit. cbn. rewrite put_other by exact NE.
             destruct (add_consts_spec (env s) (map (pair c) ins) vs (tm s) (c, n) GA) as [Q|(Q1 & Q2 & w & Q3 & Q4)]; [rewrite Q; exact I3|].
             rewrite Q4. rewrite Q1 in I3. split; [congruence|exact I3].
          -- rewrite upd_other by exact NE.
             destruct (add_consts_spec (env s) (map (pair c) ins) vs (tm s) (c, n) GA) as [Q|(Q1 & Q2 & _)]; [rewrite Q; exact I|].
             apply in_map_iff in Q2. destruct Q2 as (m & M1 & M2). injection M1 as ->. rewrite Forall_forall in D. specialize (D n M2). contradiction.
      + split; [cbn; congruence|]. split; [reflexivity|]. split; [reflexivity|]. intros x X. assert (NE : x <> (c, out)) by (intros ->; apply X; reflexivity).
        rewrite G_emit. cbn. rewrite !upd_other by exact NE. rewrite put_other by exact NE. split; [reflexivity|]. split; [|reflexivity].
        destruct (add_consts_spec (env s) (map (pair c) ins) vs (tm s) x GA) as [Q|(_ & Q2 & _)]; [exact Q|].
        apply in_map_iff in Q2. destruct Q2 as (m & M1 & _). subst x. exfalso. apply X. reflexivity.
  Qed.

  Notation size ns := (list_sum (map nsize ns)).
  Lemma size_app : forall a b, size (a ++ b) = size a + size b.
  Proof. intros. rewrite map_app, list_sum_app. reflexivity. Qed.
  Definition outcome (ns : list node) (c : scope) (e e' e1 : nat -> option V) (s : st V) (f F : nat) (rest : list item) (P : st V -> Prop) : Prop :=
    (forallb no_if ns = false /\ walk F (map INode ns ++ rest) s = None) \/
    exists f' s' e1', f <= f' /\ walk F (map INode ns ++ rest) s = walk f' rest s' /\ run ns e' = Some e1' /\ Inv c e1 e1' s' /\ P s'.

  Lemma if_ok : forall c e e' s v, sc s = c -> Inv c e e' s -> forall n a b, e n = Some v -> tm s (c, n) = None ->
    if_step truth s n a b = Some (map INode (if truth v then a else b)) /\ e' n = Some v.
  Proof.
    intros c e e' s v SC I n a b E T. specialize (I n). rewrite E in I. destruct (e' n) as [v'|]; [|destruct I]. destruct I as (I1 & _ & I3).
    unfold val_ok in I3. rewrite T in I3. subst v'. unfold if_step. rewrite SC, I1, T. auto.
  Qed.

  Lemma plain_walk : forall N ns, size ns <= N -> Forall plain ns -> forall D c e e' s e1 f F rest,
    sc s = c -> Inv c e e' s -> NoDup (D ++ flat_map defs ns) -> (forall n, e n <> None -> In n D) -> run ns e = Some e1 -> size ns + f <= F ->
    outcome ns c e e' e1 s f F rest (frame c s).
  Proof.
    induction N as [|N IH]; intros ns SZ PL D c e e' s e1 f F rest SC I ND DM R FU.
    - destruct ns as [|n ns]; [|exfalso; change (nsize n + size ns <= 0) in SZ; destruct n; cbn [nsize] in SZ; lia].
      injection R as <-. right. exists F, s, e'. split; [cbn in FU; lia|]. split; [reflexivity|]. split; [reflexivity|]. split; [exact I|apply frame_refl].
    - destruct ns as [|n ns].
      { injection R as <-. right. exists F, s, e'. split; [cbn in FU; lia|]. split; [reflexivity|]. split; [reflexivity|]. split; [exact I|apply frame_refl]. }
      inversion PL as [|? ? P1 P2]; subst. change (nsize n + size ns <= S N) in SZ; change (nsize n + size ns + f <= F) in FU. cbn [InitOpsSpec.run] in R. destruct P1 as [k ins out K|c0 a b PA PB].
      + cbn [nsize] in SZ, FU. destruct (run1 (NOp k ins out) e) as [e2|] eqn:R1; [|discriminate].
        assert (O : e out = None).
        { destruct (e out) eqn:O; [|reflexivity]. assert (X : In out D) by (apply DM; congruence). cbn in ND. apply NoDup_remove_2 in ND. destruct ND. apply in_or_app. left. exact X. }
        destruct (op_ok (sc s) e e' s k ins out e2 eq_refl I K O R1) as (s2 & e2' & S2 & R2 & I2 & F2).
        destruct F as [|F]; [lia|].
        destruct (IH ns ltac:(lia) P2 (D ++ [out]) (sc s) e2 e2' s2 e1 f F rest (proj1 F2) I2) as [[L1 L2]|(f' & s' & e1' & L1 & L2 & L3 & L4 & L5)].
        * rewrite <- app_assoc. exact ND.
        * intros m M. cbn in R1. destruct (get e ins); [|discriminate]. injection R1 as <-. unfold set in M. apply in_or_app.
          destruct (m =? out) eqn:Q; [right; left; apply Nat.eqb_eq in Q; congruence|left; exact (DM m M)].
        * exact R.
        * lia.
        * left. split; [exact L1|]. cbn. rewrite S2. exact L2.
        * right. exists f', s', e1'. split; [exact L1|]. split; [cbn; rewrite S2; exact L2|]. split; [cbn [InitOpsSpec.run]; rewrite R2; exact L3|].
          split; [exact L4|]. exact (frame_trans _ _ _ _ F2 L5).
      + cbn [nsize] in SZ, FU. rewrite run1_if in R. destruct (e c0) as [v|] eqn:E; [|discriminate].
        destruct F as [|F]; [lia|]. destruct (tm s (sc s, c0)) as [o|] eqn:T.
        { left. split; [reflexivity|]. cbn. unfold if_step. rewrite T. destruct (env s (sc s, c0)); reflexivity. }
        destruct (if_ok (sc s) e e' s v eq_refl I c0 a b E T) as [SI E'].
        assert (RB : run ((if truth v then a else b) ++ ns) e = Some e1) by (rewrite run_app; destruct (truth v); exact R).
        assert (SB : size ((if truth v then a else b) ++ ns) <= size a + size b + size ns) by (rewrite size_app; destruct (truth v); lia).
        destruct (IH ((if truth v then a else b) ++ ns) ltac:(lia)
                     ltac:(apply Forall_app; split; [destruct (truth v); assumption|exact P2]) D (sc s) e e' s e1 f F rest eq_refl I) as [[L1 L2]|(f' & s' & e1' & L1 & L2 & L3 & L4 & L5)].
        * cbn in ND. rewrite flat_map_app. destruct (truth v).
          -- rewrite <- !app_assoc in ND. rewrite app_assoc in ND. apply nodup_drop in ND. rewrite <- app_assoc in ND. exact ND.
          -- rewrite <- !app_assoc in ND. apply nodup_drop in ND. exact ND.
        * exact DM.
        * exact RB.
        * lia.
        * left. split; [reflexivity|]. cbn. rewrite SI. rewrite app_assoc, <- map_app. exact L2.
        * right. exists f', s', e1'. split; [exact L1|]. split; [cbn; rewrite SI; rewrite app_assoc, <- map_app; exact L2|].
          split; [|split; assumption]. cbn [InitOpsSpec.run]. rewrite run1_if, E'. rewrite run_app in L3. destruct (truth v); exact L3.
  Qed.

  (** prim::Param *)
  Fixpoint cm_ok (s : st V) (new : scope) (params : list nat) (nms : list nm) (vs vs' : list V) : Prop :=
    match params, nms, vs, vs' with
    | [], [], [], [] => True
    | p :: ps, n :: ns, v :: ws, v' :: ws' => cm s (new, p) = Some (n, v) /\ fst n <> new /\ same v v' /\ val_ok s n v v' /\ cm_ok s new ps ns ws ws'
    | _, _, _, _ => False
    end.
  Lemma cm_ok_frame : forall new params nms vs vs' s s', frame new s s' -> cm_ok s new params nms vs vs' -> cm_ok s' new params nms vs vs'.
  Proof.
    intros new. induction params as [|p ps IH]; intros [|n ns] [|v ws] [|v' ws'] s s' F H; try exact H; try destruct H.
    cbn in *. destruct H0 as (A & B & C & D). split; [destruct F as (_ & _ & F & _); congruence|]. split; [exact A|]. split; [exact B|].
    split; [exact (val_ok_frame new s s' _ _ _ F A C)|exact (IH _ _ _ _ _ F D)].
  Qed.
  Lemma reshape_frame : forall s n out c, fst out = c -> frame c s (reshape_step s n out).
  Proof.
    intros s n out c O. unfold reshape_step. destruct (tm s n) as [[w|]|]; [| |apply frame_refl];
      (split; [reflexivity|]; split; [reflexivity|]; split; [reflexivity|]; intros x X;
       assert (NE : x <> out) by (intros ->; contradiction); rewrite G_emit; cbn; rewrite upd_other, put_other by exact NE; repeat split).
  Qed.
  Lemma reshape_out : forall s n out v v', val_ok s n v v' -> tm s out = None -> val_ok (reshape_step s n out) out v v'.
  Proof.
    intros s n out v v' H T. unfold reshape_step. unfold val_ok in H. destruct (tm s n) as [[w|]|].
    - destruct H as [-> ->]. unfold val_ok. cbn. rewrite upd_same, G_emit. cbn. apply put_same.
    - unfold val_ok. cbn. rewrite upd_same, G_emit. cbn. rewrite put_same. exact H.
    - subst v'. unfold val_ok. rewrite T. reflexivity.
  Qed.
  Lemma reshape_other : forall s n out x v v', x <> out -> val_ok s x v v' -> val_ok (reshape_step s n out) x v v'.
  Proof.
    intros s n out x v v' NE H. unfold reshape_step. destruct (tm s n) as [[w|]|]; [| |exact H];
      unfold val_ok in *; cbn; rewrite upd_other by exact NE; rewrite G_emit; cbn; rewrite put_other by exact NE; exact H.
  Qed.
  Lemma reshape_tm : forall (s : st V) n out x, x <> out -> tm (reshape_step s n out) x = tm s x.
  Proof. intros s n out x NE. unfold reshape_step. destruct (tm s n) as [[w|]|]; cbn; try rewrite upd_other by exact NE; reflexivity. Qed.
  Lemma reshape_env : forall (s : st V) n out, env (reshape_step s n out) = env s.
  Proof. intros s n out. unfold reshape_step. destruct (tm s n) as [[w|]|]; reflexivity. Qed.

  Lemma params_ok : forall new params nms vs vs' e e' s, sc s = new -> Inv new e e' s -> cm_ok s new params nms vs vs' -> NoDup params ->
    (forall p, In p params -> e p = None) ->
    exists s', param_step s params = Some s' /\ Inv new (bind e params vs) (bind e' params vs') s' /\ frame new s s'.
  Proof.
    intros new. induction params as [|p ps IH]; intros nms vs vs' e e' s SC I C ND FR.
    - destruct nms, vs, vs'; try destruct C. exists s. split; [reflexivity|]. split; [exact I|apply frame_refl].
    - destruct nms as [|n ns], vs as [|v ws], vs' as [|v' ws']; try solve [destruct C]. cbn in C. destruct C as (C1 & C2 & C3 & C4 & C5).
      cbn [param_step]. rewrite SC, C1. cbv zeta. cbn [sc]. set (s1 := mkSt (upd (env s) (new, p) v) (tm s) (cm s) (cnt s) new (em s)).
      assert (F1 : frame new s s1).
      { split; [symmetry; exact SC|]. split; [reflexivity|]. split; [reflexivity|]. intros x X. split; [|split; reflexivity]. cbn. apply upd_other. intros ->. apply X. reflexivity. }
      pose proof (I p) as IP. rewrite (FR p (or_introl eq_refl)) in IP. destruct (e' p) eqn:EP; [destruct IP|].
      assert (F2 : frame new s (reshape_step s1 n (new, p))) by (eapply frame_trans; [exact F1|]; apply reshape_frame; reflexivity).
      inversion ND as [|? ? N1 N2]; subst.
      assert (I2 : Inv (sc s) (set e p v) (set e' p v') (reshape_step s1 n (sc s, p))).
      { intros m. destruct (Nat.eq_dec m p) as [->|M].
        - rewrite !set_same. rewrite reshape_env. cbn. rewrite upd_same. split; [reflexivity|]. split; [exact C3|].
          apply reshape_out; [exact C4|exact IP].
        - rewrite !set_other by exact M. specialize (I m). assert (NE : (sc s, m) <> (sc s, p)) by congruence.
          destruct (e m), (e' m); try exact I.
          + rewrite reshape_env. cbn. rewrite upd_other by exact NE. destruct I as (I1 & I2 & I3). split; [exact I1|]. split; [exact I2|].
            apply reshape_other; [exact NE|]. exact I3.
          + rewrite reshape_tm by exact NE. exact I. }
      destruct (IH ns ws ws' (set e p v) (set e' p v') (reshape_step s1 n (sc s, p)) (proj1 F2) I2 (cm_ok_frame _ _ _ _ _ _ _ F2 C5) N2) as (s' & Q1 & Q2 & Q3).
      { intros q Q. rewrite set_other; [apply FR; right; exact Q|]. intros ->. contradiction. }
      exists s'. split; [exact Q1|]. split; [exact Q2|]. exact (frame_trans _ _ _ _ F2 Q3).
  Qed.

  Lemma map_params_other : forall new params nms vs c x, (forall p, In p params -> x <> (new, p)) -> map_params (V:=V) c new params nms vs x = c x.
  Proof.
    intros new. induction params as [|p ps IH]; intros [|n ns] [|v ws] c x H; try reflexivity. cbn. rewrite IH by (intros q Q; apply H; right; exact Q).
    apply upd_other. apply H. left. reflexivity.
  Qed.
  Lemma cm_ok_ext : forall new params nms vs vs' s s', (forall x, tm s' x = tm s x) -> (forall x, G s' x = G s x) -> (forall p, In p params -> cm s' (new, p) = cm s (new, p)) ->
    cm_ok s new params nms vs vs' -> cm_ok s' new params nms vs vs'.
  Proof.
    intros new. induction params as [|p ps IH]; intros [|n ns] [|v ws] [|v' ws'] s s' T g C H; try exact H; try destruct H.
    cbn in *. destruct H0 as (A & B & D & E). split; [rewrite C by (left; reflexivity); exact H|]. split; [exact A|]. split; [exact B|].
    split; [unfold val_ok in *; rewrite T, g; exact D|]. apply (IH _ _ _ s); auto.
  Qed.
  Lemma map_params_ok : forall new params ins vs vs' e0 t0 n0 c0 m0 s1 (s : st V), NoDup params -> length ins = length params -> length vs = length params ->
    Forall2 same vs vs' -> (forall i n v v', nth_error ins i = Some n -> nth_error vs i = Some v -> nth_error vs' i = Some v' -> fst n <> new /\ val_ok (mkSt e0 t0 c0 n0 s1 m0) n v v') ->
    cm_ok (mkSt e0 t0 (map_params c0 new params ins vs) n0 s1 m0) new params ins vs vs'.
  Proof.
    intros new. induction params as [|p ps IH]; intros [|n ins] [|v vs] vs' e0 t0 n0 c0 m0 s1 s ND L1 L2 F2 H; try discriminate.
    - inversion F2; subst. exact I.
    - inversion F2 as [|? v' ? ws' Q1 Q2]; subst. inversion ND as [|? ? N1 N2]; subst. cbn. split.
      + rewrite map_params_other; [apply upd_same|]. intros q Q E. injection E as ->. contradiction.
      + destruct (H 0 n v v' eq_refl eq_refl eq_refl) as [A B]. split; [exact A|]. split; [exact Q1|]. split; [exact B|].
        apply IH; auto. intros i a b b' X Y Z. exact (H (S i) a b b' X Y Z).
  Qed.

  (** no tensor has a name in a scope that has not been opened yet *)
  Definition fresh (s : st V) : Prop := forall a b n, cnt s a < b -> tm s (Some (a, b), n) = None.

  Lemma py_ok : forall e e' s nme k ins out params body ret e1 f F rest,
    sc s = None -> Inv None e e' s -> fresh s -> well sem pyobj truth (NPy nme k ins out params body ret) -> e out = None ->
    run1 (NPy nme k ins out params body ret) e = Some e1 -> nsize (NPy nme k ins out params body ret) + f <= F ->
    (forallb no_if body = false /\ walk F (INode (NPy nme k ins out params body ret) :: rest) s = None) \/
    exists f' s' e1', f <= f' /\ walk F (INode (NPy nme k ins out params body ret) :: rest) s = walk f' rest s' /\
      run1 (NPy nme k ins out params body ret) e' = Some e1' /\ Inv None e1 e1' s' /\ sc s' = None /\ fresh s'.
  Proof.
    intros e e' s nme k ins out params body ret e1 f F rest SC I FR W O R FU.
    inversion W as [| |? ? ? ? ? ? ? PB ND NR LI PY]; subst. rewrite run1_py in R.
    destruct (get e ins) as [vs|] eqn:GE; [|discriminate]. destruct (run body (bind (fun _ => None) params vs)) as [l|] eqn:RB; [|discriminate].
    destruct (l ret) as [r|] eqn:LR; [|discriminate]. injection R as <-.
    destruct (get_rel None e e' s I ins vs GE) as (vs' & GE' & GA & F2 & _ & _ & DD).
    pose proof (I out) as IO. rewrite O in IO. destruct (e' out) eqn:O'; [destruct IO|].
    assert (LV : length vs = length params).
    { rewrite <- LI. clear -GE. revert vs GE. induction ins as [|n ins IH]; intros vs GE; cbn in GE; [injection GE as <-; reflexivity|].
      destruct (e n); [|discriminate]. destruct (get e ins); [|discriminate]. injection GE as <-. cbn. f_equal. apply IH. reflexivity. }
    assert (RV : r = pyobj k vs) by (pose proof (PY vs l LV RB) as Q; congruence).
    cbn [nsize] in FU. destruct F as [|F]; [lia|]. cbn [walk InitOpsModel.walk]. unfold py_step. rewrite SC, GA. cbv zeta.
    set (new := Some (nme, S (cnt s nme))).
    set (s1 := mkSt (upd (env s) (None, out) (pyobj k vs)) (tm s) (upd (map_params (cm s) new params (map (pair None) ins) vs) (new, ret) ((None, out), pyobj k vs))
                   (fun x => if x =? nme then S (cnt s x) else cnt s x) new (em s)).
    assert (C1 : cm_ok s1 new params (map (pair None) ins) vs vs').
    { eapply (cm_ok_ext new params (map (pair None) ins) vs vs' (mkSt (upd (env s) (None, out) (pyobj k vs)) (tm s) (map_params (cm s) new params (map (pair None) ins) vs) (cnt s) new (em s))).
      - reflexivity.
      - reflexivity.
      - intros p P. cbn. apply upd_other. intros Q. injection Q as ->. contradiction.
      - apply map_params_ok; auto.
        + rewrite <- (app_nil_r params). rewrite <- (app_nil_r (flat_map defs body)) in ND. apply nodup_drop in ND. exact ND.
        + rewrite map_length. exact LI.
        + intros i n v v' X Y Z. rewrite nth_error_map in X. destruct (nth_error ins i) as [m|] eqn:M; [|discriminate]. injection X as <-.
          split; [discriminate|]. assert (EM : e m = Some v /\ e' m = Some v').
          { clear -GE GE' M Y Z. revert vs vs' i GE GE' M Y Z. induction ins as [|q ins IH]; intros vs vs' i GE GE' M Y Z; [destruct i; discriminate|].
            cbn in GE, GE'. destruct (e q) eqn:E1; [|discriminate]. destruct (get e ins); [|discriminate]. injection GE as <-.
            destruct (e' q) eqn:E2; [|discriminate]. destruct (get e' ins); [|discriminate]. injection GE' as <-.
            destruct i; cbn in *; [injection M as ->; injection Y as ->; injection Z as ->; auto|eapply IH; eauto]. }
          destruct EM as [E1 E2]. specialize (I m). rewrite E1, E2 in I. destruct I as (_ & _ & I). exact I. }
    assert (FN : Inv new (fun _ => None) (fun _ => None) s1) by (intros n; cbn; apply FR; lia).
    assert (NDP : NoDup params) by (rewrite <- (app_nil_r params); rewrite <- (app_nil_r (flat_map defs body)) in ND; apply nodup_drop in ND; exact ND).
    destruct (params_ok new params _ vs vs' _ _ s1 eq_refl FN C1 NDP) as (s2 & PS & I2 & F12); [reflexivity|].
    destruct F as [|F]; [lia|]. cbn [app InitOpsModel.walk]. match goal with |- context [param_step ?x params] => change x with s1 end. rewrite PS. rewrite <- app_assoc.
    destruct (plain_walk (size body) body (le_n _) PB params new (bind (fun _ => None) params vs) (bind (fun _ => None) params vs') s2 l (S f) F ([IReturn ret] ++ rest)) as
      [[L1 L2]|(f' & s3 & l' & L1 & L2 & L3 & L4 & L5)].
    - destruct F12 as (X & _). rewrite X. reflexivity.
    - exact I2.
    - exact ND.
    - assert (BD : forall ps (ws : list V) ee, (forall n, bind ee ps ws n <> None -> In n ps \/ ee n <> None)).
      { induction ps as [|p ps IH]; intros [|w ws] ee n H; cbn in H; [right; exact H|right; exact H|right; exact H|].
        destruct (IH _ _ _ H) as [Q|Q]; [left; right; exact Q|]. unfold set in Q. destruct (n =? p) eqn:E; [left; left; apply Nat.eqb_eq in E; congruence|right; exact Q]. }
      intros n H. destruct (BD _ _ _ _ H) as [Q|Q]; [exact Q|congruence].
    - exact RB.
    - lia.
    - left. split; [exact L1|exact L2].
    - right. rewrite L2. destruct f' as [|f']; [lia|]. cbn [app InitOpsModel.walk]. unfold return_step.
      assert (F13 : frame new s1 s3) by exact (frame_trans _ _ _ _ F12 L5).
      destruct F13 as (S13 & N13 & M13 & X13). rewrite S13. cbn [sc s1].
      pose proof (L4 ret) as J. rewrite LR in J. destruct (l' ret) as [r'|] eqn:LR'; [|destruct J]. destruct J as (J1 & J2 & J3). rewrite J1, M13.
      unfold s1 at 1. cbn [cm]. rewrite upd_same. cbv zeta.
      exists f', (mkSt (env (reshape_step s3 (new, ret) (None, out))) (tm (reshape_step s3 (new, ret) (None, out))) (cm (reshape_step s3 (new, ret) (None, out)))
                       (cnt (reshape_step s3 (new, ret) (None, out))) None (em (reshape_step s3 (new, ret) (None, out)))), (set e' out r').
      assert (NN : forall n, fst (@None (nat * nat) : scope, n : nat) <> new) by (intros n; discriminate).
      destruct (X13 ((None : scope), out) (NN out)) as (XE & XT & XG).
      split; [lia|]. split; [reflexivity|]. split; [rewrite run1_py, GE', L3, LR'; reflexivity|]. split; [|split; [reflexivity|]].
      + intros n. destruct (Nat.eq_dec n out) as [->|N].
        * rewrite !set_same. cbn [env]. rewrite reshape_env, XE. unfold s1. cbn [env]. rewrite upd_same, <- RV. split; [reflexivity|]. split; [exact J2|].
          pose proof (reshape_out s3 (new, ret) (None, out) r r' J3 (eq_trans XT IO)) as K. exact K.
        * rewrite !set_other by exact N. specialize (I n). destruct (X13 ((None : scope), n) (NN n)) as (YE & YT & YG).
          assert (NE : ((None : scope), n) <> ((None : scope), out)) by congruence.
          destruct (e n), (e' n); try exact I.
          -- destruct I as (I1 & I3 & I4). cbn [env]. rewrite reshape_env, YE. unfold s1. cbn [env]. rewrite upd_other by exact NE. split; [exact I1|]. split; [exact I3|].
             apply (reshape_other s3 (new, ret) (None, out) ((None : scope), n) v v0 NE). unfold val_ok. rewrite YT, YG. exact I4.
          -- cbn [tm]. rewrite reshape_tm by exact NE. rewrite YT. exact I.
      + intros a b n H. cbn [tm cnt] in *. rewrite reshape_tm by discriminate.
        assert (CN : cnt (reshape_step s3 (new, ret) (None, out)) = cnt s1) by (rewrite <- N13; unfold reshape_step; destruct (tm s3 (new, ret)) as [[w|]|]; reflexivity).
        rewrite CN in H. unfold s1 in H. cbn in H.
        destruct (X13 (Some (a, b), n)) as (_ & YT & _); [|rewrite YT; unfold s1; cbn; apply FR; destruct (a =? nme); lia].
        cbn. unfold new. intros Q. injection Q as -> ->. rewrite Nat.eqb_refl in H. lia.
  Qed.

  Lemma well_walk : forall N ns, size ns <= N -> Forall (well sem pyobj truth) ns -> forall D e e' s e1 f F rest,
    sc s = None -> fresh s -> Inv None e e' s -> NoDup (D ++ flat_map defs ns) -> (forall n, e n <> None -> In n D) -> run ns e = Some e1 -> size ns + f <= F ->
    outcome ns None e e' e1 s f F rest (fun s' => sc s' = None).
  Proof.
    induction N as [|N IH]; intros ns SZ PL D e e' s e1 f F rest SC FR I ND DM R FU.
    - destruct ns as [|n ns]; [|exfalso; change (nsize n + size ns <= 0) in SZ; destruct n; cbn [nsize] in SZ; lia].
      injection R as <-. right. exists F, s, e'. split; [cbn in FU; lia|]. split; [reflexivity|]. split; [reflexivity|]. split; [exact I|exact SC].
    - destruct ns as [|n ns].
      { injection R as <-. right. exists F, s, e'. split; [cbn in FU; lia|]. split; [reflexivity|]. split; [reflexivity|]. split; [exact I|exact SC]. }
      inversion PL as [|? ? P1 P2]; subst. change (nsize n + size ns <= S N) in SZ; change (nsize n + size ns + f <= F) in FU. cbn [InitOpsSpec.run] in R. pose proof P1 as PW. destruct P1 as [k ins out K|c0 a b PA PB|nme k ins out params body ret PB NDB NR LI PY].
      + cbn [nsize] in SZ, FU. destruct (run1 (NOp k ins out) e) as [e2|] eqn:R1; [|discriminate].
        assert (O : e out = None).
        { destruct (e out) eqn:O; [|reflexivity]. assert (X : In out D) by (apply DM; congruence). cbn in ND. apply NoDup_remove_2 in ND. destruct ND. apply in_or_app. left. exact X. }
        destruct (op_ok None e e' s k ins out e2 SC I K O R1) as (s2 & e2' & S2 & R2 & I2 & F2).
        assert (FR2 : fresh s2) by (destruct F2 as (_ & CN & _ & X2); intros a b n H; rewrite CN in H; destruct (X2 (Some (a, b), n)) as (_ & T & _); [discriminate|]; rewrite T; exact (FR a b n H)).
        destruct F as [|F]; [lia|].
        destruct (IH ns ltac:(lia) P2 (D ++ [out]) e2 e2' s2 e1 f F rest (eq_trans (proj1 F2) SC) FR2 I2) as [[L1 L2]|(f' & s' & e1' & L1 & L2 & L3 & L4 & L5)].
        * rewrite <- app_assoc. exact ND.
        * intros m M. cbn in R1. destruct (get e ins); [|discriminate]. injection R1 as <-. unfold set in M. apply in_or_app.
          destruct (m =? out) eqn:Q; [right; left; apply Nat.eqb_eq in Q; congruence|left; exact (DM m M)].
        * exact R.
        * lia.
        * left. split; [exact L1|]. cbn. rewrite S2. exact L2.
        * right. exists f', s', e1'. split; [exact L1|]. split; [cbn; rewrite S2; exact L2|]. split; [cbn [InitOpsSpec.run]; rewrite R2; exact L3|].
          split; [exact L4|exact L5].
      + cbn [nsize] in SZ, FU. rewrite run1_if in R. destruct (e c0) as [v|] eqn:E; [|discriminate].
        destruct F as [|F]; [lia|]. destruct (tm s ((None : scope), c0)) as [o|] eqn:T.
        { left. split; [reflexivity|]. cbn. unfold if_step. rewrite SC, T. destruct (env s ((None : scope), c0)); reflexivity. }
        destruct (if_ok None e e' s v SC I c0 a b E T) as [SI E'].
        assert (RB : run ((if truth v then a else b) ++ ns) e = Some e1) by (rewrite run_app; destruct (truth v); exact R).
        assert (SB : size ((if truth v then a else b) ++ ns) <= size a + size b + size ns) by (rewrite size_app; destruct (truth v); lia).
        destruct (IH ((if truth v then a else b) ++ ns) ltac:(lia)
                     ltac:(apply Forall_app; split; [destruct (truth v); assumption|exact P2]) D e e' s e1 f F rest SC FR I) as [[L1 L2]|(f' & s' & e1' & L1 & L2 & L3 & L4 & L5)].
        * cbn in ND. rewrite flat_map_app. destruct (truth v).
          -- rewrite <- !app_assoc in ND. rewrite app_assoc in ND. apply nodup_drop in ND. rewrite <- app_assoc in ND. exact ND.
          -- rewrite <- !app_assoc in ND. apply nodup_drop in ND. exact ND.
        * exact DM.
        * exact RB.
        * lia.
        * left. split; [reflexivity|]. cbn. rewrite SI. rewrite app_assoc, <- map_app. exact L2.
        * right. exists f', s', e1'. split; [exact L1|]. split; [cbn; rewrite SI; rewrite app_assoc, <- map_app; exact L2|].
          split; [|split; assumption]. cbn [InitOpsSpec.run]. rewrite run1_if, E'. rewrite run_app in L3. destruct (truth v); exact L3.
      + destruct (run1 (NPy nme k ins out params body ret) e) as [e2|] eqn:R1; [|discriminate].
        assert (O : e out = None).
        { destruct (e out) eqn:O; [|reflexivity]. assert (X : In out D) by (apply DM; congruence). cbn in ND. apply NoDup_remove_2 in ND. destruct ND. apply in_or_app. left. exact X. }
        destruct (py_ok e e' s nme k ins out params body ret e2 (size ns + f) F (map INode ns ++ rest) SC I FR PW O R1 ltac:(cbn [nsize] in *; lia)) as
          [[L1 L2]|(f1 & s2 & e2' & L1 & L2 & R2 & I2 & SC2 & FR2)].
        { left. split; [cbn; rewrite L1; reflexivity|]. exact L2. }
        destruct (IH ns ltac:(cbn [nsize] in SZ; lia) P2 (D ++ [out]) e2 e2' s2 e1 f f1 rest SC2 FR2 I2) as [[Q1 Q2]|(f' & s' & e1' & Q1 & Q2 & Q3 & Q4 & Q5)].
        * rewrite <- app_assoc. exact ND.
        * intros m M. rewrite run1_py in R1. destruct (get e ins); [|discriminate]. destruct (run body _) as [l0|]; [|discriminate]. destruct (l0 ret); [|discriminate].
          injection R1 as <-. unfold set in M. apply in_or_app.
          destruct (m =? out) eqn:Q; [right; left; apply Nat.eqb_eq in Q; congruence|left; exact (DM m M)].
        * exact R.
        * lia.
        * left. split; [cbn [forallb]; rewrite Q1; apply andb_false_r|]. cbn [map app]. rewrite L2. exact Q2.
        * right. exists f', s', e1'. split; [exact Q1|]. split; [cbn [map app]; rewrite L2; exact Q2|]. split; [cbn [InitOpsSpec.run]; rewrite R2; exact Q3|].
          split; [exact Q4|exact Q5].
  Qed.
End P.

Lemma with_inputs_ok : forall {V} sem (same : V -> V -> Prop) pins x' (pre : nat -> option V) ins xs ws (s : st V) (e : nat -> option V),
  Forall2 same xs ws -> length ins = length xs -> NoDup ins -> (forall n, In n ins -> e n = None) -> em s = [] ->
  (forall n, bind pre ins ws n = bind (fun _ => None) pins x' n) -> (forall n v, pre n = Some v -> e n <> None) ->
  (forall n, match e n with Some v => exists v', pre n = Some v' /\ env s ((None : scope), n) = Some v /\ same v v' /\ tm s ((None : scope), n) = Some None | None => pre n = None /\ tm s ((None : scope), n) = None end) ->
  Inv sem same pins x' None (bind e ins xs) (bind pre ins ws) (with_inputs s ins xs).
Proof.
  intros V sem same pins x' pre ins. revert pre. induction ins as [|i ins IH]; intros pre xs ws s e F L ND FR EM TOT PE H.
  - destruct xs; [|discriminate]. inversion F; subst. cbn in *. intros n. specialize (H n). destruct (e n) as [v|].
    + destruct H as (v' & H1 & H2 & H3 & H4). rewrite H1. split; [exact H2|]. split; [exact H3|]. unfold val_ok. rewrite H4. unfold G, run_graph. rewrite EM. cbn.
      rewrite <- TOT. exact H1.
    + destruct H as [-> H]. exact H.
  - destruct xs as [|x xs]; [discriminate|]. inversion F as [|? w ? ws0 F1 F2]; subst. inversion ND as [|? ? N1 N2]; subst. cbn [with_inputs bind].
    apply IH; auto.
    + intros n Hn. rewrite set_other by (intros ->; contradiction). apply FR. right. exact Hn.
    + intros n v Hn. unfold set in *. destruct (n =? i); [discriminate|]. exact (PE n v Hn).
    + intros n. destruct (Nat.eq_dec n i) as [->|N].
      * rewrite !set_same. exists w. split; [reflexivity|]. cbn. unfold upd. rewrite nm_eqb_refl. auto.
      * rewrite !set_other by exact N. specialize (H n). assert (Q : nm_eqb (None, n) (None, i) = false) by (apply nm_eqb_ne; congruence). unfold nm_eqb in Q. cbn in Q. unfold upd, nm_eqb. cbn. rewrite Q. exact H.
Qed.
Lemma with_inputs_keep : forall {V} ins (xs : list V) s, sc (with_inputs s ins xs) = sc s /\ cnt (with_inputs s ins xs) = cnt s /\ em (with_inputs s ins xs) = em s /\
  forall x, fst x <> None -> tm (with_inputs s ins xs) x = tm s x.
Proof.
  intros V. induction ins as [|i ins IH]; intros [|x xs] s; cbn; try (repeat split; reflexivity).
  destruct (IH xs (mkSt (upd (env s) (None, i) x) (upd (tm s) (None, i) None) (cm s) (cnt s) (sc s) (em s))) as (A & B & C & D). cbn in *.
  split; [exact A|]. split; [exact B|]. split; [exact C|]. intros y Y. rewrite D by exact Y. apply upd_other. intros ->. apply Y. reflexivity.
Qed.
Lemma bind_dom : forall {V} ps (ws : list V) ee n, bind ee ps ws n <> None -> In n ps \/ ee n <> None.
Proof.
  intros V. induction ps as [|p ps IH]; intros [|w ws] ee n H; cbn in H; [right; exact H|right; exact H|right; exact H|].
  destruct (IH _ _ _ H) as [Q|Q]; [left; right; exact Q|]. unfold set in Q. destruct (n =? p) eqn:E; [left; left; apply Nat.eqb_eq in E; congruence|right; exact Q].
Qed.
Lemma start_inv : forall {V} (sem : string -> list V -> V) same ins xs xs', Forall2 same xs xs' -> length ins = length xs -> NoDup ins ->
  Inv sem same ins xs' None (bind (fun _ => None) ins xs) (bind (fun _ => None) ins xs')
    (with_inputs (mkSt (fun _ => None) (fun _ => None) (fun _ => None) (fun _ => 0) None []) ins xs).
Proof. intros. apply with_inputs_ok; auto. intros n v Q. discriminate. Qed.
Lemma init_operations_ok : forall {V} (sem : string -> list V -> V) pyobj truth same ins p xs e, shapes_fixed sem same -> Forall (well sem pyobj truth) p ->
  NoDup (ins ++ flat_map defs p) -> length ins = length xs -> run_program sem truth ins p xs = Some e -> forall xs', Forall2 same xs xs' ->
  (forallb no_if p = false /\ init_operations sem pyobj truth ins p xs = None) \/
  exists s e', init_operations sem pyobj truth ins p xs = Some s /\ run_program sem truth ins p xs' = Some e' /\
    forall n, (e' n = None <-> e n = None) /\ forall v, e' n = Some v -> converted sem s ins xs' n = Some v.
Proof.
  intros V sem pyobj truth same ins p xs e FX W ND L R xs' F.
  assert (NI : NoDup ins) by (rewrite <- (app_nil_r ins); rewrite <- (app_nil_r (flat_map defs p)) in ND; apply nodup_drop in ND; exact ND).
  pose proof (start_inv sem same ins xs xs' F L NI) as I. unfold init_operations.
  set (s0 := with_inputs (mkSt (fun _ => None) (fun _ => None) (fun _ => None) (fun _ => 0) None []) ins xs) in *.
  destruct (with_inputs_keep ins xs (mkSt (fun _ => None) (fun _ => None) (fun _ => None) (fun _ => 0) None [])) as (A & B & C & D).
  destruct (well_walk sem pyobj truth same ins xs' FX (list_sum (map nsize p)) p (le_n _) W ins (bind (fun _ => None) ins xs) (bind (fun _ => None) ins xs') s0 e 0 (list_sum (map nsize p)) [] A) as
    [[L1 L2]|(f' & s' & e1' & L1 & L2 & L3 & L4 & L5)].
  - intros a b n _. apply D. discriminate.
  - exact I.
  - exact ND.
  - intros n Q. destruct (bind_dom _ _ _ _ Q) as [K|K]; [exact K|congruence].
  - exact R.
  - lia.
  - left. split; [exact L1|]. rewrite app_nil_r in L2. exact L2.
  - right. rewrite app_nil_r in L2. exists s', e1'. split; [rewrite L2; destruct f'; reflexivity|]. split; [exact L3|]. intros n. specialize (L4 n). split.
    + destruct (e n), (e1' n); try destruct L4; split; congruence.
    + intros v E. rewrite E in L4. destruct (e n) as [w|]; [|destruct L4]. destruct L4 as (K1 & K2 & K3). change (match tm s' ((None : scope), n) with Some None => G sem ins xs' s' ((None : scope), n) | _ => env s' ((None : scope), n) end = Some v). unfold val_ok in K3.
      destruct (tm s' ((None : scope), n)) as [[u|]|]; [destruct K3; congruence|exact K3|congruence].
Qed.

(** addition plus one; constants are 1, what is not tracked is 3 *)
Definition ex_sem (k : string) (vs : list nat) : nat :=
  if String.eqb k "aten::detach" then hd 0 vs else if no_track k then 3 else if String.eqb k "prim::Constant" then 1 else S (list_sum vs).
Lemma ex_shapes : shapes_fixed ex_sem (fun _ _ => True).
Proof.
  split; [auto|]. intros k vs ws N D _. unfold ex_sem. destruct (String.eqb k "aten::detach") eqn:E; [apply String.eqb_eq in E; contradiction|]. rewrite (proj2 (no_track_in k) N). reflexivity.
Qed.
Lemma detach_lemma :
  exists (sem : string -> list nat -> nat) pyobj truth p s e', shapes_fixed sem (fun _ _ => True) /\ NoDup ([0] ++ flat_map defs p) /\
    init_operations sem pyobj truth [0] p [5] = Some s /\ run_program sem truth [0] p [50] = Some e' /\ e' 2 = Some 51 /\ converted sem s [0] [50] 2 = Some 6.
Proof.
  exists ex_sem, (fun _ _ => 0), (Nat.eqb 1), [NOp "aten::detach" [0] 1; NOp "aten::add" [1] 2]. do 2 eexists.
  split; [exact ex_shapes|]. split; [cbn; repeat constructor; cbn; intuition discriminate|]. repeat (split; [reflexivity|]). reflexivity.
Qed.
Lemma identity_lemma :
  exists (sem : string -> list nat -> nat) pyobj truth p s e', shapes_fixed sem (fun _ _ => True) /\ NoDup ([0] ++ flat_map defs p) /\
    p = [NPy 7 1 [0] 1 [0] [] 0; NOp "aten::add" [1] 2] /\ (forall v, pyobj 1 [v] = v) /\
    init_operations sem pyobj truth [0] p [5] = Some s /\ run_program sem truth [0] p [50] = Some e' /\ e' 2 = Some 51 /\ converted sem s [0] [50] 2 = Some 6.
Proof.
  exists ex_sem, (fun _ vs => hd 0 vs), (Nat.eqb 1), [NPy 7 1 [0] 1 [0] [] 0; NOp "aten::add" [1] 2]. do 2 eexists.
  split; [exact ex_shapes|]. split; [cbn; repeat constructor; cbn; intuition discriminate|]. split; [reflexivity|]. split; [reflexivity|]. repeat (split; [reflexivity|]). reflexivity.
Qed.
Lemma nested_lemma :
  exists (sem : string -> list nat -> nat) pyobj truth p e, shapes_fixed sem (fun _ _ => True) /\ NoDup ([0] ++ flat_map defs p) /\
    p = [NPy 7 1 [0] 1 [0] [NPy 8 2 [0] 1 [0] [NOp "aten::add" [0] 1] 1; NOp "aten::add" [1] 2] 2] /\
    run_program sem truth [0] p [5] = Some e /\ e 1 = Some 7 /\ init_operations sem pyobj truth [0] p [5] = None.
Proof.
  exists ex_sem, (fun k vs => k + hd 0 vs), (Nat.eqb 1), [NPy 7 1 [0] 1 [0] [NPy 8 2 [0] 1 [0] [NOp "aten::add" [0] 1] 1; NOp "aten::add" [1] 2] 2]. eexists.
  split; [exact ex_shapes|]. split; [cbn; repeat constructor; cbn; intuition discriminate|]. split; [reflexivity|]. repeat (split; [reflexivity|]). reflexivity.
Qed.

(** * What is put into the graph *)
Section Emitted.
  Context {V : Type}.
  Variables (sem : string -> list V -> V) (pyobj : nat -> list V -> V) (truth : V -> bool).
  Definition emitted_ok (l : list (temit V)) : Prop := forall k args out, In (EOp k args out) l -> ~ In k untracked /\ exists n, In (AVar n) args.
  Lemma emitted_app l t : emitted_ok l -> (forall k args out, t = EOp k args out -> ~ In k untracked /\ exists n, In (AVar n) args) -> emitted_ok (l ++ [t]).
  Proof. intros H K k args out I. apply in_app_iff in I. destruct I as [I|[I|[]]]; eauto. Qed.
  Lemma combine_in (s : @st V) : forall l vs x, get_all (env s) l = Some vs -> In x l -> exists v, In (x, v) (combine l vs).
  Proof.
    induction l as [|n l IH]; intros vs x H I; [destruct I|]. cbn in H. destruct (env s n) as [v|]; [|discriminate]. destruct (get_all (env s) l) as [ws|]; [|discriminate]. injection H as <-.
    destruct I as [->|I]; [exists v; now left|]. destruct (IH ws x eq_refl I) as (w & W). exists w. now right.
  Qed.
  Lemma op_emitted s k ins out s' : emitted_ok (em s) -> op_step sem s k ins out = Some s' -> emitted_ok (em s').
  Proof.
    intros H E. unfold op_step in E. destruct (get_all (env s) (map (pair (sc s)) ins)) as [vs|] eqn:GA; [|discriminate]. cbv zeta in E.
    destruct (no_track k || negb (existsb (tracked s) (map (pair (sc s)) ins))) eqn:NT; injection E as <-; cbn [em]; [exact H|].
    apply emitted_app; [exact H|]. intros k' args' out' Q. injection Q as <- <- <-. apply orb_false_iff in NT. destruct NT as (N1 & N2). split.
    - intros I. rewrite (proj2 (no_track_in k) I) in N1. discriminate.
    - apply negb_false_iff, existsb_exists in N2. destruct N2 as (x & X & T). unfold tracked in T. destruct (combine_in s _ vs x GA X) as (v & I). exists x.
      apply in_map_iff. exists (x, v). split; [|exact I]. unfold to_arg. cbn [fst snd]. destruct (tm s x) as [[w|]|]; [discriminate|reflexivity|discriminate].
  Qed.
  Lemma reshape_emitted s a b : emitted_ok (em s) -> emitted_ok (em (reshape_step s a b)).
  Proof. intros H. unfold reshape_step. destruct (tm s a) as [[w|]|]; [apply emitted_app; [exact H|discriminate]|apply emitted_app; [exact H|discriminate]|exact H]. Qed.
  Lemma param_emitted : forall ps s s', emitted_ok (em s) -> param_step s ps = Some s' -> emitted_ok (em s').
  Proof.
    induction ps as [|p ps IH]; intros s s' H E; cbn [param_step] in E; [now injection E as <-|]. destruct (cm s (sc s, p)) as [[n v]|]; [|discriminate].
    eapply IH; [|exact E]. apply reshape_emitted. exact H.
  Qed.
  Lemma return_emitted s r s' : emitted_ok (em s) -> return_step s r = Some s' -> emitted_ok (em s').
  Proof. intros H E. unfold return_step in E. destruct (env s (sc s, r)); [|discriminate]. destruct (cm s (sc s, r)) as [[o v']|]; [|discriminate]. injection E as <-. cbn [em]. now apply reshape_emitted. Qed.
  Lemma walk_emitted : forall f q s s', emitted_ok (em s) -> walk sem pyobj truth f q s = Some s' -> emitted_ok (em s').
  Proof.
    induction f as [|f IH]; intros q s s' H E; destruct q as [|i q]; cbn [walk] in E; try discriminate; try (now injection E as <-).
    destruct i as [[k ins out|c a b|n k ins out ps body ret]|ps|r].
    - destruct (op_step sem s k ins out) eqn:Q; [|discriminate]. eapply IH; [|exact E]. eapply op_emitted; eauto.
    - destruct (if_step truth s c a b); [|discriminate]. eapply IH; eauto.
    - destruct (py_step pyobj s n k ins out ps body ret) as [[l s1]|] eqn:Q; [|discriminate]. eapply IH; [|exact E]. unfold py_step in Q. destruct (get_all _ _); [|discriminate]. injection Q as <- <-. exact H.
    - destruct (param_step s ps) eqn:Q; [|discriminate]. eapply IH; [|exact E]. eapply param_emitted; eauto.
    - destruct (return_step s r) eqn:Q; [|discriminate]. eapply IH; [|exact E]. eapply return_emitted; eauto.
  Qed.
  Lemma inputs_em : forall ins xs (s : @st V), em (with_inputs s ins xs) = em s.
  Proof. induction ins as [|n ins IH]; intros xs s; [reflexivity|]. destruct xs as [|x xs]; [reflexivity|]. cbn [with_inputs]. now rewrite IH. Qed.
  Lemma emitted_lemma ins p xs s : init_operations sem pyobj truth ins p xs = Some s -> forall k args out, In (EOp k args out) (em s) -> ~ In k untracked /\ exists n, In (AVar n) args.
  Proof. intros E. eapply walk_emitted; [|exact E]. rewrite inputs_em. intros k args out []. Qed.
End Emitted.
