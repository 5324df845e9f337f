From Coq Require Import ZArith List Arith Bool Lia.
From Verif Require Import OutTransModel OutTransSpec OutTransProofs BranchModel BranchSpec BranchProofs HalfModel HalfProofs InTransModel InTransSpec InTransProofs QuantIOModel QuantIOSpec.
Import ListNotations.

Lemma qty_eqb_eq a b : qty_eqb a b = true <-> a = b.
Proof. destruct a, b; cbn; split; congruence. Qed.
Lemma qty_eqb_neq a b : a <> b -> qty_eqb a b = false.
Proof. intros H. destruct (qty_eqb a b) eqn:E; [|reflexivity]. apply qty_eqb_eq in E. contradiction. Qed.
Lemma qsup_ok a b : a <> TOther -> b <> TOther -> a <> b -> qsup a b = true.
Proof. destruct a, b; cbn; congruence. Qed.
Definition bounded (g : bg) (rem : list nat) : Prop := forall i, In i rem -> i < length (bed g).
Lemma eff_node g rem k ins : bounded g rem -> eff (h_node g k ins) rem = h_node (eff g rem) k ins.
Proof. intros B. unfold eff, h_node. cbn [bn bids bed bprod bnext]. rewrite live_app by exact B. reflexivity. Qed.
Lemma bounded_node g rem k ins : bounded g rem -> bounded (h_node g k ins) rem.
Proof. intros B i I. cbn [h_node bed]. rewrite app_length. specialize (B i I). lia. Qed.
Lemma untouched_node g rem n k ins : bounded g rem -> untouched g rem n -> untouched (h_node g k ins) rem n.
Proof. intros B U. eapply untouched_app; [exact B|reflexivity|exact U]. Qed.

Section Pass.
Context {V : Type} (den : nat -> list V -> list V) (q : qty -> qty -> nat) (conv : qty -> qty -> V -> V) (tgt : qty).
Hypothesis DEN : forall a b y, den (q a b) [y] = [conv a b y].
Hypothesis INV : forall a b y, qsup a b = true -> conv b a (conv a b y) = y.

(** * One input *)
Lemma qi_ok g rem ty v t : b_wf (eff g rem) -> b_consistent (eff g rem) -> b_computes den (eff g rem) v -> bounded g rem -> untouched g rem (bprod g t) ->
  t < bnext g -> In (bprod g t) (bids g) -> bn g (bprod g t) = mkBN BIn [] [t] -> (forall r, In r (bids g) -> bk (bn g r) = BOut -> ~ In t (bin (bn g r))) ->
  ty t <> tgt -> qsup (ty t) tgt = true -> let m := bnext g in let v' := fun x => if x =? m then v t else if x =? t then conv (ty t) tgt (v t) else v x in
  exists g' rem', qi_step q tgt (g, rem, ty) t = Some (g', rem', o_upd (o_upd ty t tgt) m (ty t)) /\
    b_wf (eff g' rem') /\ b_consistent (eff g' rem') /\ b_computes den (eff g' rem') v' /\ bounded g' rem' /\
    (forall n, n <> bprod g t -> untouched g rem n -> untouched g' rem' n) /\ bids g' = bids g ++ [m] /\ bnext g' = S m /\ (forall x, x <> m -> bprod g' x = bprod g x) /\
    (forall r, In r (bids g) -> bn g' r = mkBN (bk (bn g r)) (map (it_ren t m) (bin (bn g r))) (bout (bn g r))) /\ bn g' m = mkBN (BOp (q tgt (ty t))) [t] [m].
Proof.
  intros W C CO B U L I K NO NT SU m v'. set (n := bprod g t) in *. set (g1 := h_node g (BOp (q tgt (ty t))) [t]). set (e1 := h_node (eff g rem) (BOp (q tgt (ty t))) [t]).
  assert (EE : eff g1 rem = e1) by (apply eff_node, B).
  assert (LT : forall r, In r (bids g) -> r < m) by (intros r R; exact (proj1 (proj2 W r R))).
  assert (B1 : bounded g1 rem) by (apply bounded_node, B).
  assert (U1 : untouched g1 rem n) by (apply untouched_node; assumption).
  assert (MT : made (eff g rem) t) by (split; [exact L|]; split; [exact I|]; cbn [eff bprod bn]; fold n; rewrite K; now left).
  destruct (node_struct (eff g rem) (BOp (q tgt (ty t))) [t] W C) as (W1 & C1 & _); [discriminate|intros u [<-|[]]; exact MT|]. fold e1 in W1, C1.
  assert (BNM : bn e1 m = mkBN (BOp (q tgt (ty t))) [t] [m]) by (apply node_new).
  assert (BNO : forall r, In r (bids g) -> bn e1 r = bn g r) by (intros r R; apply (node_old (eff g rem)); apply LT, R).
  assert (NM : n <> m) by (specialize (LT n I); lia).
  assert (ES : map snd (it_out g1 n) = filter (fun e => e_src e =? n) (bed e1)) by (rewrite <- EE; apply out_eff, U1).
  assert (IDS : forall r, In r (bids e1) <-> In r (bids g) \/ r = m) by (intros r; exact (ids_node (eff g rem) _ _ r)).
  assert (PT : bprod e1 t = n) by (apply (prod_old (eff g rem)); cbn [eff bnext]; lia).
  assert (LAB : forall d y, In (n, d, y) (bed e1) -> y = t /\ In d (bids e1) /\ In t (bin (bn e1 d))).
  { intros d y H. apply (edge_iff e1 n d y C1) in H. destruct H as (H1 & H2 & H3). destruct (proj2 W1 d H2) as (_ & Y & _). destruct (Y y H3) as (_ & _ & Y3). rewrite <- H1, BNO, K in Y3 by exact I. destruct Y3 as [<-|[]]. auto. }
  destruct (connect_ok t m ltac:(unfold m; lia) (map snd (it_out g1 n)) g1) as (g2 & X1 & X2 & X3 & X4 & X5 & X6).
  { rewrite ES. intros [[s d] y] H D. apply filter_In in H. destruct H as [H S]. unfold e_src, e_tgt in *. cbn [fst snd] in *. apply Nat.eqb_eq in S. subst s. destruct (LAB d y H) as (-> & H2 & H3). split; [|reflexivity].
    apply IDS in H2. destruct H2 as [H2|H2]; [|contradiction]. change (bn g1) with (bn e1). intros Z. rewrite BNO in Z, H3 by exact H2. exact (NO d H2 Z H3). }
  assert (DS : map e_tgt (filter (fun e => negb (e_tgt e =? m)) (map snd (it_out g1 n))) = map e_tgt (filter (leaves n m) (bed e1))) by (rewrite ES, filter_filter; reflexivity).
  rewrite DS in X5, X6. set (ds := map e_tgt (filter (leaves n m) (bed e1))) in *.
  assert (U2 : untouched g2 rem n) by (exact (untouched_app g1 rem n _ g2 B1 X5 U1)).
  set (rem2 := rem ++ map fst (filter (fun ie => negb (e_tgt (snd ie) =? m)) (it_out g2 n))).
  assert (DSI : forall r, In r ds <-> r <> m /\ In r (bids e1) /\ In t (bin (bn e1 r))).
  { intros r. unfold ds. rewrite in_map_iff. split.
    - intros ([[s d] y] & <- & H). apply filter_In in H. destruct H as [H S]. unfold leaves, e_src, e_tgt in *. cbn [fst snd] in *. apply andb_prop in S. destruct S as [S1 S2]. apply Nat.eqb_eq in S1. subst s.
      apply negb_true_iff, Nat.eqb_neq in S2. split; [exact S2|]. exact (proj2 (LAB d y H)).
    - intros (H1 & H2 & H3). exists (n, r, t). split; [reflexivity|]. apply filter_In. split; [apply (edge_iff e1 n r t C1); auto|]. unfold leaves, e_src, e_tgt. cbn [fst snd]. rewrite Nat.eqb_refl. apply Nat.eqb_neq in H1. now rewrite H1. }
  assert (BN2 : forall r, In r (bids e1) -> bn g2 r = if r =? m then bn e1 r else mkBN (bk (bn e1 r)) (map (it_ren t m) (bin (bn e1 r))) (bout (bn e1 r))).
  { intros r R. rewrite X6. change (bn g1) with (bn e1). destruct (r =? m) eqn:RM.
    - apply Nat.eqb_eq in RM. subst r. destruct (o_mem m ds) eqn:O; [|reflexivity]. apply o_mem_In, DSI in O. tauto.
    - apply Nat.eqb_neq in RM. destruct (o_mem r ds) eqn:O; [reflexivity|]. rewrite ren_none; [destruct (bn e1 r); reflexivity|]. intros T. apply o_mem_not in O. apply O, DSI. auto. }
  assert (ED : bed (eff g2 rem2) = filter (fun e => negb (leaves n m e)) (bed e1) ++ map (fun d => (m, d, m)) ds).
  { unfold rem2. cbn [eff bed]. rewrite (out_ilive g2 rem n U2). unfold remove_pos at 1.
    rewrite (filter_filter (fun ie : nat * oedge => negb (e_tgt (snd ie) =? m))). change (fun x0 : nat * oedge => (e_src (snd x0) =? n) && negb (e_tgt (snd x0) =? m)) with (fun ie : nat * oedge => leaves n m (snd ie)).
    rewrite ilive_more, (map_snd_filter (fun e => negb (leaves n m e))). fold (remove_pos rem (bed g2)). rewrite X5, live_app by exact B1. rewrite filter_app.
    change (remove_pos rem (bed g1)) with (bed (eff g1 rem)). rewrite EE. f_equal. apply filter_all. intros e H. apply in_map_iff in H. destruct H as (d & <- & _). unfold leaves, e_src. cbn [fst].
    destruct (m =? n) eqn:Q; [apply Nat.eqb_eq in Q; congruence|reflexivity]. }
  assert (ME : In m (bids e1)) by (apply IDS; now right).
  assert (NR : forall r, In r (bids e1) -> ~ In m (bin (bn e1 r))).
  { intros r R H. apply IDS in R. destruct R as [R| ->]; [|rewrite BNM in H; destruct H as [H|[]]; unfold m in H; lia]. rewrite BNO in H by exact R. destruct (proj2 W r R) as (_ & Y & _). destruct (Y m H) as (Y1 & _). cbn [eff bnext] in Y1. unfold m in Y1. lia. }
  destruct (red_ok e1 (eff g2 rem2) n t m (q tgt (ty t)) [t] W1 C1) as (W2 & C2).
  { apply IDS. now left. } { rewrite BNO by exact I. now rewrite K. } { exact ME. } { exact BNM. } { unfold m; lia. } { auto. } { exact NR. }
  { cbn [eff bids]. rewrite X2, <- EE. reflexivity. } { cbn [eff bprod]. rewrite X3, <- EE. reflexivity. } { cbn [eff bnext]. rewrite X4, <- EE. reflexivity. } { exact BN2. } { exact ED. }
  exists g2, rem2. split; [|split; [exact W2|split; [exact C2|]]].
  { unfold qi_step. fold n. rewrite K. cbn [bk bout nth]. rewrite (qty_eqb_neq _ _ NT), SU. fold m g1. rewrite X1. reflexivity. }
  assert (OUTS : forall r y, In r (bids g) -> In y (bout (bn g r)) -> y < m /\ bprod g y = r) by (intros r y R Y; destruct (proj2 W r R) as (_ & _ & Z & _); exact (Z y Y)).
  split; [|split; [|split; [|split; [|split; [|split; [|split]]]]]].
  - intros r R. cbn [eff bids bn] in *. rewrite X2 in R. change (bids g1) with (bids e1) in R. rewrite (BN2 r R). apply IDS in R. destruct R as [R| ->].
    + assert (RM : r <> m) by (specialize (LT r R); lia). apply Nat.eqb_neq in RM. rewrite RM, (BNO r R). cbn [bk bin bout]. specialize (CO r R). cbn [eff bn] in CO.
      assert (E1 : map v' (map (it_ren t m) (bin (bn g r))) = map v (bin (bn g r))).
      { rewrite map_map. apply map_ext_in. intros y Y. destruct (proj2 W r R) as (_ & Z & _). destruct (Z y Y) as (Z1 & _). cbn [eff bnext] in Z1. unfold v'. destruct (Nat.eq_dec y t) as [->|YT].
        - rewrite ren_same, Nat.eqb_refl. reflexivity.
        - rewrite ren_other by exact YT. destruct (y =? m) eqn:Q; [apply Nat.eqb_eq in Q; unfold m in Q; lia|]. apply Nat.eqb_neq in YT. now rewrite YT. }
      assert (E2 : bk (bn g r) <> BIn -> map v' (bout (bn g r)) = map v (bout (bn g r))).
      { intros KN. apply map_ext_in. intros y Y. destruct (OUTS r y R Y) as (Y1 & Y2). unfold v'. destruct (y =? m) eqn:Q; [apply Nat.eqb_eq in Q; lia|]. destruct (y =? t) eqn:Q2; [|reflexivity]. apply Nat.eqb_eq in Q2. subst y. fold n in Y2. rewrite <- Y2, K in KN. elim KN. reflexivity. }
      destruct (bk (bn g r)); auto; rewrite E1, E2 by discriminate; exact CO.
    + rewrite Nat.eqb_refl, BNM. cbn [bk bin bout map]. rewrite DEN. unfold v'. rewrite Nat.eqb_refl. assert (TM : t <> m) by (unfold m; lia). apply Nat.eqb_neq in TM. rewrite TM, Nat.eqb_refl, INV by exact SU. reflexivity.
  - intros i H. unfold rem2 in H. apply in_app_or in H. destruct H as [H|H]; [rewrite X5, app_length; apply B1 in H; lia|]. apply in_map_iff in H. destruct H as ([j e] & <- & H). apply filter_In in H. destruct H as [H _].
    unfold it_out in H. apply filter_In in H. destruct H as [H _]. apply in_combine_l, in_seq in H. cbn. lia.
  - intros n' NL UN i e H R. unfold rem2 in R. apply in_app_or in R. destruct R as [R|R].
    + assert (Q : untouched g2 rem n') by (apply (untouched_app g1 rem n' _ g2 B1 X5), untouched_node; assumption). exact (Q i e H R).
    + apply in_map_iff in R. destruct R as ([j e'] & E & R). cbn in E. subst j. apply filter_In in R. destruct R as [R _]. unfold it_out in R. apply filter_In in R. destruct R as [R S]. apply Nat.eqb_eq in S. cbn [snd] in S.
      assert (Q := nodup_fst_inj _ (i, e) (i, e') ltac:(rewrite map_fst_combine by apply seq_length; apply seq_NoDup) H R eq_refl). injection Q as ->. congruence.
  - rewrite X2. reflexivity.
  - rewrite X4. reflexivity.
  - intros x XM. rewrite X3. apply (prod_old g). exact XM.
  - intros r R. rewrite BN2 by (apply IDS; now left). assert (RM : r <> m) by (specialize (LT r R); lia). apply Nat.eqb_neq in RM. now rewrite RM, BNO.
  - rewrite BN2 by exact ME. now rewrite Nat.eqb_refl.
Qed.

(** * All the inputs *)
Variables (g0 : bg) (ty0 : nat -> qty) (v0 : nat -> V).
Record qinv (D : list nat) (g : bg) (rem : list nat) (ty : nat -> qty) (v : nat -> V) : Prop := mkQI {
  k_wf : b_wf (eff g rem); k_con : b_consistent (eff g rem); k_comp : b_computes den (eff g rem) v; k_bnd : bounded g rem;
  k_unt : forall n, ~ In n (map (bprod g0) D) -> untouched g rem n;
  k_old : forall r, In r (bids g0) -> In r (bids g) /\ bk (bn g r) = bk (bn g0 r) /\ bout (bn g r) = bout (bn g0 r) /\ map v (bin (bn g r)) = map v0 (bin (bn g0 r)) /\ (bk (bn g0 r) = BOut -> bin (bn g r) = bin (bn g0 r));
  k_new : forall r, In r (bids g) -> In r (bids g0) \/ (bnext g0 <= r /\ exists a t, In t D /\ t < bnext g0 /\ bn g r = mkBN (BOp (q tgt a)) [t] [r]);
  k_val : forall x, x < bnext g0 -> (In x D -> v x = conv (ty0 x) tgt (v0 x) /\ ty x = tgt) /\ (~ In x D -> v x = v0 x /\ ty x = ty0 x);
  k_next : bnext g0 <= bnext g; k_prod : forall x, x < bnext g0 -> bprod g x = bprod g0 x }.
Lemma qi_all (W0 : b_wf g0) (TG : tgt <> TOther) : forall ns D g rem ty v, qinv D g rem ty v -> NoDup (map fst ns) -> (forall t, In (t, true) ns -> ~ In t D) ->
  (forall t, In (t, true) ns -> t < bnext g0 /\ In (bprod g0 t) (bids g0) /\ bn g0 (bprod g0 t) = mkBN BIn [] [t]) -> (forall t, In (t, true) ns -> ty0 t <> TOther) ->
  (forall t, In t D -> bn g0 (bprod g0 t) = mkBN BIn [] [t]) ->
  (forall t r, In (t, true) ns -> ty0 t <> tgt -> In r (bids g0) -> bk (bn g0 r) = BOut -> ~ In t (bin (bn g0 r))) ->
  exists D' g' rem' ty' v', qi_steps q tgt ns (g, rem, ty) = Some (g', rem', ty') /\ qinv D' g' rem' ty' v' /\ (forall t, In t D' <-> In t D \/ (In (t, true) ns /\ ty0 t <> tgt)).
Proof.
  induction ns as [|[t b] ns IH]; intros D g rem ty v I ND NI FO TO DB NO.
  - exists D, g, rem, ty, v. split; [reflexivity|]. split; [exact I|]. intros t. cbn. tauto.
  - cbn [map fst] in ND. inversion ND as [|? ? ND1 ND2]; subst. assert (NT : forall t', In (t', true) ns -> t' <> t) by (intros t' T ->; apply ND1; apply in_map_iff; exists (t, true); auto).
    destruct b; cbn [qi_steps].
    2: { destruct (IH D g rem ty v I ND2) as (D' & g' & rem' & ty' & v' & E & I' & DD); eauto using in_cons. exists D', g', rem', ty', v'. split; [exact E|]. split; [exact I'|]. intros x. rewrite DD. cbn. intuition congruence. }
    destruct (FO t (or_introl eq_refl)) as (F1 & F2 & F3). pose proof (NI t (or_introl eq_refl)) as TD. destruct (k_val _ _ _ _ _ I t F1) as (_ & VT). destruct (VT TD) as (VT1 & VT2).
    pose proof (k_prod _ _ _ _ _ I t F1) as PE. destruct (k_old _ _ _ _ _ I _ F2) as (O1 & O2 & O3 & O4 & _). rewrite F3 in O2, O3, O4. cbn [bk bin bout map] in O2, O3, O4. apply map_eq_nil in O4.
    assert (KB : bn g (bprod g t) = mkBN BIn [] [t]) by (rewrite PE; destruct (bn g (bprod g0 t)) as [a b c]; cbn in *; congruence).
    destruct (qty_eqb (ty t) tgt) eqn:TE.
    + unfold qi_step. rewrite KB. cbn [bk bout nth]. rewrite TE. apply qty_eqb_eq in TE. destruct (IH D g rem ty v I ND2) as (D' & g' & rem' & ty' & v' & E & I' & DD); eauto using in_cons.
      exists D', g', rem', ty', v'. split; [exact E|]. split; [exact I'|]. intros x. rewrite DD. cbn. split; [tauto|]. intros [H|([H|H] & H2)]; [tauto| |tauto]. injection H as <-. congruence.
    + assert (NTG : ty t <> tgt) by (intros Z; apply qty_eqb_eq in Z; congruence). assert (TO' : ty0 t <> TOther) by (apply TO; now left).
      assert (UN : untouched g rem (bprod g t)).
      { apply (k_unt _ _ _ _ _ I). rewrite PE. intros H. apply in_map_iff in H. destruct H as (d & E & H). pose proof (DB d H) as Q. rewrite E, F3 in Q. injection Q as ->. contradiction. }
      assert (NOT : forall r, In r (bids g) -> bk (bn g r) = BOut -> ~ In t (bin (bn g r))).
      { intros r R KR. destruct (k_new _ _ _ _ _ I r R) as [R0|(_ & a & t' & _ & _ & E)]; [|rewrite E in KR; discriminate]. destruct (k_old _ _ _ _ _ I r R0) as (_ & Q2 & _ & _ & Q5). rewrite KR in Q2. rewrite Q5 by congruence. apply NO; [now left|congruence|exact R0|congruence]. }
      destruct (qi_ok g rem ty v t (k_wf _ _ _ _ _ I) (k_con _ _ _ _ _ I) (k_comp _ _ _ _ _ I) (k_bnd _ _ _ _ _ I) UN) as (g1 & rem1 & S1 & S2 & S3 & S4 & S5 & S6 & S7 & S8 & S9 & S10 & S11); auto.
      { pose proof (k_next _ _ _ _ _ I). lia. } { rewrite PE. exact O1. } { apply qsup_ok; congruence. }
      rewrite S1. pose proof (k_next _ _ _ _ _ I) as NX.
      destruct (IH (t :: D) g1 rem1 (o_upd (o_upd ty t tgt) (bnext g) (ty t)) (fun x => if x =? bnext g then v t else if x =? t then conv (ty t) tgt (v t) else v x)) as (D' & g' & rem' & ty' & v' & E & I' & DD).
      * constructor; auto.
        -- intros n H. cbn [map] in H. apply S6; [rewrite PE; intros ->; apply H; now left|]. apply (k_unt _ _ _ _ _ I). intros Z. apply H. now right.
        -- intros r R. destruct (k_old _ _ _ _ _ I r R) as (Q1 & Q2 & Q3 & Q4 & Q5). split; [rewrite S7; apply in_or_app; now left|]. rewrite (S10 r Q1). cbn [bk bin bout]. split; [exact Q2|]. split; [exact Q3|]. split.
           ++ rewrite <- Q4, map_map. apply map_ext_in. intros y Y. destruct (proj2 (k_wf _ _ _ _ _ I) r Q1) as (_ & Z & _). destruct (Z y Y) as (Z1 & _). cbn [eff bnext] in Z1. destruct (Nat.eq_dec y t) as [->|YT].
              ** rewrite ren_same, Nat.eqb_refl. reflexivity.
              ** rewrite ren_other by exact YT. destruct (y =? bnext g) eqn:Q; [apply Nat.eqb_eq in Q; lia|]. apply Nat.eqb_neq in YT. now rewrite YT.
           ++ intros KR. rewrite ren_none; [auto|]. apply NOT; [exact Q1|congruence].
        -- intros r R. rewrite S7 in R. apply in_app_or in R. destruct R as [R|[<-|[]]].
           ++ destruct (k_new _ _ _ _ _ I r R) as [R0|(R0 & a & t' & TD' & L' & E)]; [now left|]. right. split; [exact R0|]. rewrite (S10 r R), E. cbn [bk bin bout map]. assert (t' <> t) by congruence.
              exists a, t'. split; [now right|]. split; [exact L'|]. rewrite ren_other by assumption. reflexivity.
           ++ right. split; [exact NX|]. exists (ty t), t. split; [now left|]. auto.
        -- intros x L. assert (XM : (x =? bnext g) = false) by (apply Nat.eqb_neq; lia). rewrite XM. unfold o_upd. rewrite XM. destruct (x =? t) eqn:XT.
           ++ apply Nat.eqb_eq in XT. subst x. split; [|intros H; elim H; now left]. intros _. now rewrite VT1, VT2.
           ++ apply Nat.eqb_neq in XT. destruct (k_val _ _ _ _ _ I x L) as (Q1 & Q2). split; [intros [H|H]; [congruence|auto]|]. intros H. apply Q2. intros Z. apply H. now right.
        -- lia.
        -- intros x L. rewrite S9 by lia. now apply (k_prod _ _ _ _ _ I).
      * exact ND2.
      * intros t' T [Z|Z]; [apply (NT t' T); congruence|]. apply (NI t'); [now right|exact Z].
      * intros t' T. apply FO. now right.
      * intros t' T. apply TO. now right.
      * intros t' [<-|T]; auto.
      * intros t' r T. apply NO. now right.
      * exists D', g', rem', ty', v'. split; [exact E|]. split; [exact I'|]. intros x. rewrite DD. cbn [In]. split.
        -- intros [[<-|H]|H]; [right; split; [now left|congruence]|now left|right; split; [right; tauto|tauto]].
        -- intros [H|([H|H] & H2)]; [tauto| |tauto]. injection H as <-. left. now left.
Qed.

(** * The outputs *)
Variables (g1 : bg) (rem : list nat) (ty1 : nat -> qty) (v1 : nat -> V).
Hypothesis WG1 : b_wf (eff g1 rem).
Lemma OUTL r : In r (bids g1) -> forall y, In y (bout (bn g1 r)) -> y < bnext g1.
Proof. intros R y Y. destruct (proj2 WG1 r R) as (_ & _ & Z & _). exact (proj1 (Z y Y)). Qed.
Lemma INL r y : In r (bids g1) -> In y (bin (bn g1 r)) -> y < bnext g1.
Proof. intros R Y. destruct (proj2 WG1 r R) as (_ & Z & _). exact (proj1 (Z y Y)). Qed.
Record oinv (mp : list (nat * nat)) (g : bg) (rv : list nat) (ty : nat -> qty) (w : nat -> V) : Prop := mkOI {
  j_wf : b_wf (eff g rem); j_con : b_consistent (eff g rem); j_comp : b_computes den (eff g rem) w; j_bnd : bounded g rem;
  j_unt : forall n, untouched g1 rem n -> untouched g rem n;
  j_old : forall r, In r (bids g1) -> In r (bids g) /\ bn g r = bn g1 r;
  j_new : forall r, In r (bids g) -> In r (bids g1) \/ exists t, In (t, r) mp;
  j_mp : forall t m, In (t, m) mp -> bnext g1 <= m < bnext g /\ In m (bids g) /\ bn g m = mkBN (BOp (q (ty1 t) tgt)) [t] [m] /\ w m = conv (ty1 t) tgt (v1 t) /\ ty m = tgt /\ made (eff g1 rem) t /\ bprod g m = m;
  j_nd : NoDup (map fst mp) /\ NoDup (map snd mp);
  j_val : forall x, x < bnext g1 -> w x = v1 x /\ ty x = ty1 x /\ bprod g x = bprod g1 x;
  j_next : bnext g1 <= bnext g;
  j_rv : forall r, In r rv <-> exists t y, In t (map fst mp) /\ In r (bids g1) /\ bk (bn g1 r) = BOut /\ In y (bin (bn g1 r)) /\ bprod g1 y = bprod g1 t }.
Lemma qo_all (TG : tgt <> TOther) : forall os mp g rv ty w, oinv mp g rv ty w -> NoDup (map fst os) -> (forall t, In (t, true) os -> ~ In t (map fst mp)) ->
  (forall t, In (t, true) os -> made (eff g1 rem) t /\ ty1 t <> TOther /\ (ty1 t <> tgt -> untouched g1 rem (bprod g1 t))) ->
  exists mp' g' rv' ty' w', qo_steps q tgt os (g, rv, mp, ty) = Some (g', rv', mp', ty') /\ oinv mp' g' rv' ty' w' /\ (forall t, In t (map fst mp') <-> In t (map fst mp) \/ (In (t, true) os /\ ty1 t <> tgt)).
Proof.
  induction os as [|[t b] os IH]; intros mp g rv ty w I ND NI FO.
  - exists mp, g, rv, ty, w. split; [reflexivity|]. split; [exact I|]. intros t. cbn. tauto.
  - cbn [map fst] in ND. inversion ND as [|? ? ND1 ND2]; subst. assert (NT : forall t', In (t', true) os -> t' <> t) by (intros t' T ->; apply ND1; apply in_map_iff; exists (t, true); auto).
    destruct b; cbn [qo_steps].
    2: { destruct (IH mp g rv ty w I ND2) as (mp' & g' & rv' & ty' & w' & E & I' & DD); eauto using in_cons. exists mp', g', rv', ty', w'. split; [exact E|]. split; [exact I'|]. intros x. rewrite DD. cbn. intuition congruence. }
    destruct (FO t (or_introl eq_refl)) as (F1 & F2 & F3). pose proof (NI t (or_introl eq_refl)) as TD. pose proof F1 as (L & P1 & P2). cbn [eff bnext bprod bids bn] in L, P1, P2.
    destruct (j_val _ _ _ _ _ I t L) as (VT1 & VT2 & VT3). unfold qo_step. rewrite VT2. destruct (qty_eqb (ty1 t) tgt) eqn:TE.
    + apply qty_eqb_eq in TE. destruct (IH mp g rv ty w I ND2) as (mp' & g' & rv' & ty' & w' & E & I' & DD); eauto using in_cons.
      exists mp', g', rv', ty', w'. split; [exact E|]. split; [exact I'|]. intros x. rewrite DD. cbn. split; [tauto|]. intros [H|([H|H] & H2)]; [tauto| |tauto]. injection H as <-. congruence.
    + assert (NTG : ty1 t <> tgt) by (intros Z; apply qty_eqb_eq in Z; congruence). rewrite (qsup_ok (ty1 t) tgt F2 TG NTG). specialize (F3 NTG).
      set (m := bnext g). set (rv1 := rv ++ _). pose proof (j_next _ _ _ _ _ I) as NX.
      assert (MG : made (eff g rem) t).
      { split; [cbn [eff bnext]; lia|]. cbn [eff bprod bids bn]. rewrite VT3. destruct (j_old _ _ _ _ _ I _ P1) as (Q1 & Q2). split; [exact Q1|]. now rewrite Q2. }
      destruct (node_ok den (eff g rem) w (BOp (q (ty1 t) tgt)) [t] (conv (ty1 t) tgt (w t)) (j_wf _ _ _ _ _ I) (j_con _ _ _ _ _ I) (j_comp _ _ _ _ _ I)) as (N1 & N2 & N3 & N4 & N5);
        [discriminate|intros u [<-|[]]; exact MG|intros f F; injection F as <-; cbn [map]; now rewrite DEN|]. rewrite <- eff_node in N1, N2, N3, N5 by apply (j_bnd _ _ _ _ _ I). cbn [eff bnext] in N3, N5. fold (eff g rem) m in N3, N5.
      assert (LT : forall r, In r (bids g) -> r < m) by (intros r R; exact (proj1 (proj2 (j_wf _ _ _ _ _ I) r R))).
      assert (RV : forall r, In r (filter (fun d => is_bout (bk (bn g d))) (map (fun ie => e_tgt (snd ie)) (it_out g (bprod g t)))) <-> exists y, In r (bids g1) /\ bk (bn g1 r) = BOut /\ In y (bin (bn g1 r)) /\ bprod g1 y = bprod g1 t).
      { intros r. rewrite filter_In. rewrite <- (map_map snd e_tgt), (out_eff g rem (bprod g t)) by (rewrite VT3; apply (j_unt _ _ _ _ _ I), F3). rewrite in_map_iff. split.
        - intros (([[s d] y] & <- & H) & KO). apply filter_In in H. destruct H as (H & S). unfold e_src, e_tgt in *. cbn [fst snd] in *. apply Nat.eqb_eq in S. subst s.
          apply (edge_iff (eff g rem) _ d y (j_con _ _ _ _ _ I)) in H. destruct H as (H1 & H2 & H3). cbn [eff bprod bids bn] in H1, H2, H3.
          destruct (j_new _ _ _ _ _ I d H2) as [R1|(t' & T')]; [|destruct (j_mp _ _ _ _ _ I t' d T') as (_ & _ & E & _); rewrite E in KO; discriminate].
          destruct (j_old _ _ _ _ _ I d R1) as (_ & E). rewrite E in KO, H3. exists y. split; [exact R1|]. split; [destruct (bk (bn g1 d)); try discriminate; reflexivity|]. split; [exact H3|].
          assert (YL : y < bnext g1).
          { assert (Z : bk (bn g1 d) = BOut) by (destruct (bk (bn g1 d)); try discriminate; reflexivity).
            destruct (Nat.lt_ge_cases y (bnext g1)) as [Q|Q]; [exact Q|]. destruct (proj2 (j_wf _ _ _ _ _ I) d H2) as (_ & Y & _). cbn [eff bn] in Y. rewrite E in Y. destruct (Y y H3) as (_ & Y2 & Y3). cbn [eff bprod bids bn] in Y2, Y3.
            exfalso. rewrite <- H1, VT3 in Y3. destruct (j_old _ _ _ _ _ I _ P1) as (_ & Q2). rewrite Q2 in Y3. destruct (proj2 (j_wf _ _ _ _ _ I) _ (proj1 (j_old _ _ _ _ _ I _ P1))) as (_ & _ & Y4 & _). cbn [eff bn] in Y4. rewrite Q2 in Y4.
            assert (G1L : forall y, In y (bout (bn g1 (bprod g1 t))) -> y < bnext g1) by (apply OUTL; exact P1). specialize (G1L y Y3). lia. }
          destruct (j_val _ _ _ _ _ I y YL) as (_ & _ & Q). rewrite Q in H1. congruence.
        - intros (y & R1 & KO & Y & PY). destruct (j_old _ _ _ _ _ I r R1) as (R2 & E). split; [|rewrite E, KO; reflexivity]. exists (bprod g t, r, y). split; [reflexivity|]. apply filter_In. split; [|unfold e_src; cbn; apply Nat.eqb_refl].
          apply (edge_iff (eff g rem) _ r y (j_con _ _ _ _ _ I)). cbn [eff bprod bids bn]. rewrite E. split; [|auto]. assert (YL : y < bnext g1) by (apply (INL r y R1 Y)). destruct (j_val _ _ _ _ _ I y YL) as (_ & _ & Q). congruence. }
      destruct (IH ((t, m) :: mp) (h_node g (BOp (q (ty1 t) tgt)) [t]) rv1 (o_upd ty m tgt) (fun x => if x =? m then conv (ty1 t) tgt (w t) else w x)) as (mp' & g' & rv' & ty' & w' & E & I' & DD).
      * constructor; auto.
        -- apply bounded_node, (j_bnd _ _ _ _ _ I).
        -- intros n U. apply untouched_node; [apply (j_bnd _ _ _ _ _ I)|apply (j_unt _ _ _ _ _ I), U].
        -- intros r R. destruct (j_old _ _ _ _ _ I r R) as (R1 & R2). split; [apply ids_node; now left|]. rewrite node_old by (apply LT, R1). exact R2.
        -- intros r R. apply ids_node in R. destruct R as [R| ->]; [|right; exists t; now left]. destruct (j_new _ _ _ _ _ I r R) as [R1|(t' & R1)]; [now left|right; exists t'; now right].
        -- intros t' m' [H|H].
           ++ injection H as <- <-. split; [cbn; unfold m; lia|]. split; [apply ids_node; now right|]. split; [apply node_new|]. rewrite Nat.eqb_refl, VT1. split; [reflexivity|]. unfold o_upd. rewrite Nat.eqb_refl. split; [reflexivity|]. split; [exact F1|]. apply prod_new.
           ++ destruct (j_mp _ _ _ _ _ I t' m' H) as (A1 & A2 & A3 & A4 & A5 & A6 & A7). assert (MM : m' <> m) by (unfold m; lia). split; [cbn; lia|]. split; [apply ids_node; now left|]. split; [rewrite node_old by (apply LT, A2); exact A3|].
              apply Nat.eqb_neq in MM. rewrite MM. split; [exact A4|]. unfold o_upd. rewrite MM. split; [exact A5|]. split; [exact A6|]. rewrite prod_old by (fold m; apply Nat.eqb_neq; exact MM). exact A7.
        -- destruct (j_nd _ _ _ _ _ I) as (A & B). split; cbn [map fst snd]; constructor; auto. intros H. apply in_map_iff in H. destruct H as ([t' m'] & E & H). cbn in E. subst m'. destruct (j_mp _ _ _ _ _ I t' m H) as (A1 & _). unfold m in A1. lia.
        -- intros x XL. assert (XM : x <> m) by (unfold m; lia). destruct (j_val _ _ _ _ _ I x XL) as (A1 & A2 & A3). rewrite prod_old by exact XM. apply Nat.eqb_neq in XM. unfold o_upd. rewrite XM. auto.
        -- cbn. lia.
        -- intros r. unfold rv1. rewrite in_app_iff, (j_rv _ _ _ _ _ I r), RV. cbn [map fst In]. split.
           ++ intros [(t' & y & H1 & H2)|(y & H)]; [exists t', y; split; [now right|exact H2]|exists t, y; split; [now left|exact H]].
           ++ intros (t' & y & [<-|H1] & H2); [right; now exists y|left; exists t', y; auto].
      * exact ND2.
      * intros t' T [Z|Z]; [apply (NT t' T); cbn in Z; congruence|]. apply (NI t'); [now right|exact Z].
      * intros t' T. apply FO. now right.
      * exists mp', g', rv', ty', w'. split; [exact E|]. split; [exact I'|]. intros x. rewrite DD. cbn [map fst In]. split.
        -- intros [[<-|H]|H]; [right; split; [now left|exact NTG]|now left|right; split; [right; tauto|tauto]].
        -- intros [H|([H|H] & H2)]; [tauto| |tauto]. injection H as <-. left. now left.
Qed.
End Pass.

(** * OUTPUT nodes *)
Lemma add_outs_ok {V} (den : nat -> list V -> list V) rem : forall names g w, b_wf (eff g rem) -> b_consistent (eff g rem) -> b_computes den (eff g rem) w -> bounded g rem -> (forall t, In t names -> made (eff g rem) t) -> NoDup names ->
  exists w', let g' := q_add_outputs g names in
  b_wf (eff g' rem) /\ b_consistent (eff g' rem) /\ b_computes den (eff g' rem) w' /\ bounded g' rem /\ bnext g <= bnext g' /\
  (forall x, x < bnext g -> w' x = w x /\ bprod g' x = bprod g x) /\ (forall r, In r (bids g) -> In r (bids g') /\ bn g' r = bn g r) /\
  (forall r, In r (bids g') -> In r (bids g) \/ (bnext g <= r /\ exists t, In t names /\ bn g' r = mkBN BOut [t] [r])) /\
  (forall t, In t names -> exists r, forall r', (In r' (bids g') /\ bnext g <= r' /\ bin (bn g' r') = [t]) <-> r' = r).
Proof.
  induction names as [|t names IH]; intros g w W C CO B M ND.
  - exists w. cbn [q_add_outputs fold_left]. split; [exact W|]. split; [exact C|]. split; [exact CO|]. split; [exact B|]. split; [lia|]. split; [auto|]. split; [auto|]. split; [auto|]. intros t [].
  - inversion ND as [|? ? ND1 ND2]; subst. set (g1 := h_node g BOut [t]). set (m := bnext g).
    destruct (node_ok den (eff g rem) w BOut [t] (w t) W C CO) as (N1 & N2 & N3 & N4 & N5); [discriminate|intros u [<-|[]]; apply M; now left|discriminate|].
    rewrite <- eff_node in N1, N2, N3, N4, N5 by exact B. fold g1 in N1, N2, N3, N4, N5. cbn [eff bnext] in N3. fold (eff g1 rem) m in N3.
    assert (LT : forall r, In r (bids g) -> r < m) by (intros r R; exact (proj1 (proj2 W r R))).
    destruct (IH g1 _ N1 N2 N3 (bounded_node _ _ _ _ B)) as (w' & A1 & A2 & A3 & A4 & A5 & A6 & A7 & A8 & A9); [intros u U; apply N4, M; now right|exact ND2|].
    change (q_add_outputs g (t :: names)) with (q_add_outputs g1 names). set (g' := q_add_outputs g1 names) in *. change (bnext g1) with (S m) in *.
    assert (MI : In m (bids g1)) by (apply ids_node; now right). assert (MB : bn g1 m = mkBN BOut [t] [m]) by apply node_new.
    exists w'. split; [exact A1|]. split; [exact A2|]. split; [exact A3|]. split; [exact A4|]. split; [unfold m in A5; lia|]. split; [|split; [|split]].
    + intros x X. destruct (A6 x) as (Q1 & Q2); [unfold m; lia|]. assert (XM : x <> m) by (unfold m; lia). unfold g1 in Q2. rewrite prod_old in Q2 by exact XM. split; [|exact Q2]. rewrite Q1. apply Nat.eqb_neq in XM. now rewrite XM.
    + intros r R. destruct (A7 r) as (Q1 & Q2); [apply ids_node; now left|]. split; [exact Q1|]. rewrite Q2. apply node_old, LT, R.
    + intros r R. destruct (A8 r R) as [Q|(Q & u & U & E)].
      * apply ids_node in Q. destruct Q as [Q| ->]; [now left|]. right. split; [reflexivity|]. exists t. split; [now left|]. fold m. rewrite (proj2 (A7 m MI)). exact MB.
      * right. split; [unfold m in Q; lia|]. exists u. split; [now right|exact E].
    + intros u [<-|U].
      * exists m. intros r'. split.
        -- intros (R & L & E). destruct (A8 r' R) as [Q|(Q & u & U & E2)].
           ++ apply ids_node in Q. destruct Q as [Q|Q]; [specialize (LT r' Q); unfold m in LT; lia|exact Q].
           ++ rewrite E2 in E. cbn in E. injection E as ->. contradiction.
        -- intros ->. split; [apply A7, MI|]. split; [unfold m; lia|]. rewrite (proj2 (A7 m MI)), MB. reflexivity.
      * destruct (A9 u U) as (r & R). exists r. intros r'. rewrite <- R. split.
        -- intros (Q1 & Q2 & Q3). split; [exact Q1|]. split; [|exact Q3]. destruct (Nat.eq_dec r' m) as [->|]; [|fold m in Q2; lia]. rewrite (proj2 (A7 m MI)), MB in Q3. cbn in Q3. injection Q3 as ->. contradiction.
        -- intros (Q1 & Q2 & Q3). split; [exact Q1|]. split; [unfold m in Q2; lia|exact Q3].
Qed.
Lemma ecount_keep rv s d t : forall l, ecount s d t (filter (fun e => negb (o_mem (e_src e) rv) && negb (o_mem (e_tgt e) rv)) l) = if negb (o_mem s rv) && negb (o_mem d rv) then ecount s d t l else 0.
Proof.
  induction l as [|e l IH]; [cbn; destruct (_ && _); reflexivity|]. cbn [filter]. rewrite (ecount_cons' s d t e l).
  destruct ((e_src e =? s) && (e_tgt e =? d) && (snd e =? t)) eqn:Q.
  - rewrite !andb_true_iff, !Nat.eqb_eq in Q. destruct Q as ((Q1 & Q2) & Q3). rewrite Q1, Q2. destruct (negb (o_mem s rv) && negb (o_mem d rv)); [|exact IH]. rewrite ecount_cons', Q1, Q2, Q3, !Nat.eqb_refl, IH. reflexivity.
  - cbn [plus]. destruct (negb (o_mem (e_src e) rv) && negb (o_mem (e_tgt e) rv)); [|exact IH]. rewrite ecount_cons', Q. exact IH.
Qed.
Lemma del_ok {V} (den : nat -> list V -> list V) g rv w : b_wf g -> b_consistent g -> b_computes den g w -> (forall r, In r rv -> bout (bn g r) = []) -> let g' := q_del rv g in b_wf g' /\ b_consistent g' /\ b_computes den g' w.
Proof.
  intros [ND W] C CO H g'. assert (IN : forall r, In r (bids g') <-> In r (bids g) /\ ~ In r rv) by (intros r; cbn; rewrite filter_In, negb_true_iff, o_mem_not; reflexivity).
  assert (SRC : forall d t, In d (bids g) -> In t (bin (bn g d)) -> ~ In (bprod g t) rv).
  { intros d t D T Z. destruct (W d D) as (_ & Y & _). destruct (Y t T) as (_ & _ & Y3). rewrite (H _ Z) in Y3. destruct Y3. }
  split; [split|split].
  - cbn. now apply NoDup_filter.
  - intros n N. apply IN in N. destruct N as (N & NR). destruct (W n N) as (A1 & A2 & A3 & A4). split; [exact A1|]. split; [|split; [exact A3|exact A4]]. intros t T. destruct (A2 t T) as (B1 & B2 & B3). split; [exact B1|]. split; [|exact B3]. apply IN. split; [exact B2|]. exact (SRC n t N T).
  - intros s d t. cbn [g' q_del bed bprod bn]. rewrite ecount_keep, (C s d t). change (filter (fun r => negb (o_mem r rv)) (bids g)) with (bids g').
    destruct (o_mem d (bids g')) eqn:D.
    + apply o_mem_In, IN in D. destruct D as (D1 & D2). assert (M1 : o_mem d (bids g) = true) by now apply o_mem_In. assert (M2 : o_mem d rv = false) by now apply o_mem_not. rewrite M1, M2. cbn [negb]. rewrite !andb_true_r.
      destruct (s =? bprod g t) eqn:S; [|destruct (negb _); reflexivity]. apply Nat.eqb_eq in S. subst s. destruct (o_mem (bprod g t) rv) eqn:R; [|reflexivity]. cbn [negb]. symmetry. apply count_occ_not_In. intros T. apply (SRC d t D1 T). now apply o_mem_In.
    + rewrite andb_false_r. destruct (o_mem d rv) eqn:R; cbn [negb]; [now rewrite andb_false_r|]. assert (M1 : o_mem d (bids g) = false) by (apply o_mem_not; intros X; apply o_mem_not in D, R; apply D, IN; auto). rewrite M1, andb_false_r. now destruct (_ && _).
  - intros n N. apply IN in N. exact (CO n (proj1 N)).
Qed.
Lemma q_find_in mp t m : NoDup (map fst mp) -> (q_find mp t = Some m <-> In (t, m) mp).
Proof.
  induction mp as [|[a b] mp IH]; intros ND; [cbn; split; [discriminate|tauto]|]. cbn [map fst] in ND. inversion ND as [|? ? N1 N2]; subst. cbn [q_find In]. destruct (Nat.eqb_spec t a) as [->|NE].
  - split; [intros E; injection E as ->; now left|]. intros [E|E]; [congruence|]. elim N1. apply in_map_iff. exists (a, m). auto.
  - rewrite (IH N2). split; [auto|]. intros [E|E]; [congruence|exact E].
Qed.
Lemma q_find_none mp t : q_find mp t = None <-> ~ In t (map fst mp).
Proof.
  induction mp as [|[a b] mp IH]; [cbn; tauto|]. cbn [q_find map fst In]. destruct (Nat.eqb_spec t a) as [->|NE]; [split; [discriminate|tauto]|]. rewrite IH. intuition congruence.
Qed.
Lemma names_in mp l m : In m (out_names mp l) <-> exists t, In t l /\ q_find mp t = Some m.
Proof. unfold out_names. rewrite in_flat_map. split; intros (t & T & H); exists t; (split; [exact T|]); [destruct (q_find mp t); [destruct H as [->|[]]; reflexivity|destruct H]|rewrite H; now left]. Qed.
Lemma names_nodup mp : NoDup (map fst mp) -> NoDup (map snd mp) -> forall l, NoDup l -> NoDup (out_names mp l).
Proof.
  intros N1 N2. induction l as [|t l IH]; intros ND; [constructor|]. inversion ND as [|? ? A B]; subst. unfold out_names. cbn [flat_map]. fold (out_names mp l). destruct (q_find mp t) as [m|] eqn:E; [|exact (IH B)]. cbn [app]. constructor; [|exact (IH B)].
  intros H. apply names_in in H. destruct H as (t' & T' & E'). apply (q_find_in _ _ _ N1) in E, E'. assert (t = t'); [|congruence].
  clear - N2 E E'. induction mp as [|[a b] mp IH]; [destruct E|]. cbn [map snd] in N2. inversion N2 as [|? ? X Y]; subst. destruct E as [E|E], E' as [E'|E'].
  - congruence.
  - injection E as -> ->. elim X. apply in_map_iff. exists (t', m). auto.
  - injection E' as -> ->. elim X. apply in_map_iff. exists (t, m). auto.
  - auto.
Qed.
Lemma eff_nil g : eff g [] = g.
Proof.
  destruct g as [b i e p n]. unfold eff. cbn [bn bids bed bprod bnext]. f_equal. unfold remove_pos, ilive. rewrite filter_all by reflexivity. apply map_snd_combine, seq_length.
Qed.
Lemma forall2_map {A B} (R : A -> B -> Prop) (f : A -> B) : forall l, (forall a, In a l -> R a (f a)) -> Forall2 R l (map f l).
Proof. induction l as [|a l IH]; intros H; constructor; [apply H; now left|]. apply IH. intros b B'. apply H. now right. Qed.
Lemma quantize_io_ok {V} (den : nat -> list V -> list V) q conv tgt ns os g ty v :
  (forall a b y, den (q a b) [y] = [conv a b y]) -> (forall a b y, qsup a b = true -> conv b a (conv a b y) = y) -> tgt <> TOther ->
  b_wf g -> b_consistent g -> b_computes den g v -> flagged_ok g ns -> outputs_ok g os -> types_ok ty ns -> types_ok ty os -> not_through tgt ty ns os -> together tgt ty g os ->
  exists g' outs ty' v', quantize_io q tgt ns os g ty = Some (g', outs, ty') /\ b_wf g' /\ b_consistent g' /\ b_computes den g' v' /\
    io_values conv tgt ns g ty v ty' v' /\ io_outputs conv tgt os g ty v ty' v' outs /\ NoDup outs /\
    (forall t, In t outs -> exists r, forall r', out_node g' r' t <-> r' = r) /\
    (forall r, In r (bids g') -> bk (bn g' r) = BOut -> exists t, In t outs /\ bin (bn g' r) = [t]) /\ io_nodes q g v g' v'.
Proof.
  intros DEN INV TG W C CO (FN & FO) (ON & OM & OB) TN TO NT TOG.
  assert (I0 : qinv den q conv tgt g ty v [] g [] ty v).
  { constructor; rewrite ?eff_nil; auto.
    - intros i [].
    - intros n _ i e _ [].
    - intros x L. split; [intros []|auto]. }
  destruct (qi_all den q conv tgt DEN INV g ty v W TG ns [] g [] ty v I0 FN) as (D & g1 & rem & ty1 & v1 & E1 & I1 & DD); auto.
  { intros t []. }
  { intros t r T TT R K Z. destruct (OB r R K) as (t' & b & E & T'). rewrite E in Z. destruct Z as [->|[]]. exact (NT t b (conj T TT) T'). }
  assert (DC : forall t, In t D <-> changed tgt ty ns t) by (intros t; rewrite DD; cbn; unfold changed; tauto).
  pose proof (k_next _ _ _ _ _ _ _ _ _ _ _ _ I1) as NX1. pose proof (k_wf _ _ _ _ _ _ _ _ _ _ _ _ I1) as W1.
  assert (OT : forall t b, In (t, b) os -> made (eff g1 rem) t /\ t < bnext g /\ ty1 t = ty t /\ v1 t = v t /\ bprod g1 t = bprod g t).
  { intros t b T. destruct (OM t b T) as (L & P1 & P2 & _). pose proof (k_prod _ _ _ _ _ _ _ _ _ _ _ _ I1 t L) as PE. destruct (k_old _ _ _ _ _ _ _ _ _ _ _ _ I1 _ P1) as (Q1 & _ & Q3 & _).
    assert (ND : ~ In t D) by (intros Z; apply DC in Z; exact (NT t b Z T)). destruct (k_val _ _ _ _ _ _ _ _ _ _ _ _ I1 t L) as (_ & Y). destruct (Y ND) as (Y1 & Y2).
    split; [|auto]. split; [cbn; lia|]. cbn [eff bprod bids bn]. rewrite PE. split; [exact Q1|]. now rewrite Q3. }
  assert (J0 : oinv den q conv tgt g1 rem ty1 v1 [] g1 [] ty1 v1).
  { constructor; auto; try apply I1; try (intros t m []); [split; constructor|]. intros r. split; [intros []|intros (t & y & [] & _)]. }
  destruct (qo_all den q conv tgt DEN ty v g1 rem ty1 v1 W1 TG os [] g1 [] ty1 v1 J0 ON) as (mp & g2 & rv & ty2 & w2 & E2 & I2 & MM); auto.
  { intros t T. destruct (OT t true T) as (M & L & Y & _ & PE). split; [exact M|]. split; [rewrite Y; exact (TO t T)|]. intros _. apply (k_unt _ _ _ _ _ _ _ _ _ _ _ _ I1). rewrite PE. intros Z. apply in_map_iff in Z. destruct Z as (d & E & Z).
    apply DC in Z. destruct (FO d (proj1 Z)) as (_ & _ & F3). destruct (OM t true T) as (_ & _ & P2 & _). rewrite <- E, F3 in P2. destruct P2 as [<-|[]]. exact (NT d true Z T). }
  assert (MC : forall t, In t (map fst mp) <-> changed tgt ty os t).
  { intros t. rewrite MM. cbn. unfold changed. split; [intros [[]|(T & X)]; rewrite (proj1 (proj2 (proj2 (OT t true T)))) in X; auto|]. intros (T & X). right. rewrite (proj1 (proj2 (proj2 (OT t true T)))). auto. }
  destruct (j_nd _ _ _ _ _ _ _ _ _ _ _ _ _ I2) as (N1 & N2). pose proof (j_next _ _ _ _ _ _ _ _ _ _ _ _ _ I2) as NX2. pose proof (j_mp _ _ _ _ _ _ _ _ _ _ _ _ _ I2) as MP.
  set (names := out_names mp (map fst os)).
  assert (NI : forall m, In m names -> exists t, In (t, m) mp) by (intros m H; apply names_in in H; destruct H as (t & _ & H); exists t; now apply q_find_in).
  destruct (add_outs_ok den rem names g2 w2 (j_wf _ _ _ _ _ _ _ _ _ _ _ _ _ I2) (j_con _ _ _ _ _ _ _ _ _ _ _ _ _ I2) (j_comp _ _ _ _ _ _ _ _ _ _ _ _ _ I2) (j_bnd _ _ _ _ _ _ _ _ _ _ _ _ _ I2)) as (w3 & W3 & C3 & CO3 & B3 & NX3 & V3 & O3 & A3 & U3).
  { intros m H. destruct (NI m H) as (t & T). destruct (MP t m T) as (X1 & X2 & X3 & _ & _ & _ & X7). split; [cbn; lia|]. cbn [eff bprod bids bn]. rewrite X7, X3. split; [exact X2|now left]. }
  { apply names_nodup; assumption. }
  set (g3 := q_add_outputs g2 names) in *.
  assert (LT2 : forall r, In r (bids g2) -> r < bnext g2) by (intros r R; exact (proj1 (proj2 (j_wf _ _ _ _ _ _ _ _ _ _ _ _ _ I2) r R))).
  assert (RV : forall r, In r rv -> In r (bids g) /\ bk (bn g r) = BOut /\ bn g3 r = bn g1 r /\ In r (bids g2) /\ exists t, bn g r = mkBN BOut [t] [] /\ bin (bn g1 r) = [t] /\ changed tgt ty os t).
  { intros r R. apply (j_rv _ _ _ _ _ _ _ _ _ _ _ _ _ I2) in R. destruct R as (t & y & T & R1 & K & Y & P). destruct (k_new _ _ _ _ _ _ _ _ _ _ _ _ I1 r R1) as [R0|(_ & a & t' & _ & _ & E)]; [|rewrite E in K; discriminate].
    destruct (k_old _ _ _ _ _ _ _ _ _ _ _ _ I1 r R0) as (_ & Q2 & _ & _ & Q5). rewrite K in Q2. symmetry in Q2. specialize (Q5 Q2). split; [exact R0|]. split; [exact Q2|]. destruct (j_old _ _ _ _ _ _ _ _ _ _ _ _ _ I2 r R1) as (X1 & X2).
    split; [rewrite (proj2 (O3 r X1)); exact X2|]. split; [exact X1|]. destruct (OB r R0 Q2) as (t' & b & E & T'). exists t'. split; [exact E|]. rewrite Q5, E. split; [reflexivity|]. rewrite Q5, E in Y. destruct Y as [<-|[]].
    apply MC in T. apply (TOG t t' b T T'). destruct (OT t' b T') as (_ & _ & _ & _ & <-). destruct (OT t true (proj1 T)) as (_ & _ & _ & _ & <-). exact P. }
  destruct (del_ok den (eff g3 rem) rv w3 W3 C3 CO3) as (W4 & C4 & CO4).
  { intros r R. destruct (RV r R) as (R0 & K & E & R2 & t & E0 & _). cbn [eff bn]. rewrite E. destruct (k_old _ _ _ _ _ _ _ _ _ _ _ _ I1 r R0) as (_ & _ & Q3 & _). rewrite Q3, E0. reflexivity. }
  assert (IDS : forall r, In r (bids (q_del rv (eff g3 rem))) <-> In r (bids g3) /\ ~ In r rv) by (intros r; cbn; rewrite filter_In, negb_true_iff, o_mem_not; reflexivity).
  assert (OLD : forall r, In r (bids g3) -> bk (bn g3 r) = BOut -> (In r (bids g) /\ bk (bn g r) = BOut /\ bin (bn g3 r) = bin (bn g r)) \/ (bnext g2 <= r /\ exists m, In m names /\ bin (bn g3 r) = [m])).
  { intros r R K. destruct (A3 r R) as [R2|(L & m & M & E)]; [|right; split; [exact L|]; exists m; rewrite E; auto]. left. destruct (O3 r R2) as (_ & Q). rewrite Q in K |- *.
    destruct (j_new _ _ _ _ _ _ _ _ _ _ _ _ _ I2 r R2) as [R1|(t & T)]; [|destruct (MP t r T) as (_ & _ & E & _); rewrite E in K; discriminate]. destruct (j_old _ _ _ _ _ _ _ _ _ _ _ _ _ I2 r R1) as (_ & Q'). rewrite Q' in K |- *.
    destruct (k_new _ _ _ _ _ _ _ _ _ _ _ _ I1 r R1) as [R0|(_ & a & t' & _ & _ & E)]; [|rewrite E in K; discriminate]. destruct (k_old _ _ _ _ _ _ _ _ _ _ _ _ I1 r R0) as (_ & Q2 & _ & _ & Q5). rewrite K in Q2. auto. }
  assert (KEEP : forall r, In r (bids g) -> In r (bids g3) /\ bn g3 r = bn g1 r /\ In r (bids g1)).
  { intros r R. destruct (k_old _ _ _ _ _ _ _ _ _ _ _ _ I1 r R) as (Q1 & _). destruct (j_old _ _ _ _ _ _ _ _ _ _ _ _ _ I2 r Q1) as (Q2 & Q3). destruct (O3 r Q2) as (Q4 & Q5). split; [exact Q4|]. split; [congruence|exact Q1]. }
  assert (NEWO : forall t, changed tgt ty os t -> exists m, q_find mp t = Some m /\ In (t, m) mp /\ In m names).
  { intros t T. destruct (q_find mp t) as [m|] eqn:E; [|apply q_find_none in E; elim E; apply MC, T]. exists m. split; [reflexivity|]. split; [now apply q_find_in|]. apply names_in. exists t. split; [|exact E]. apply in_map_iff. exists (t, true). split; [reflexivity|apply T]. }
  assert (SAME : forall t, ~ changed tgt ty os t -> new_out mp t = t) by (intros t T; unfold new_out; destruct (q_find mp t) as [m|] eqn:E; [|reflexivity]; elim T; apply MC; apply q_find_in in E; [|exact N1]; apply in_map_iff; exists (t, m); auto).
  assert (DEC : forall t, changed tgt ty os t \/ ~ changed tgt ty os t) by (intros t; rewrite <- MC; destruct (in_dec Nat.eq_dec t (map fst mp)); auto).
  exists (q_del rv (eff g3 rem)), (map (new_out mp) (map fst os)), ty2, w3. split; [unfold quantize_io; rewrite E1, E2; reflexivity|]. split; [exact W4|]. split; [exact C4|]. split; [exact CO4|].
  assert (VAL : forall x, x < bnext g -> w3 x = v1 x /\ ty2 x = ty1 x).
  { intros x L. destruct (V3 x) as (Q1 & _); [lia|]. destruct (j_val _ _ _ _ _ _ _ _ _ _ _ _ _ I2 x) as (Q2 & Q3 & _); [lia|]. split; congruence. }
  split; [|split; [|split; [|split; [|split]]]].
  - intros x L. destruct (VAL x L) as (-> & ->). destruct (k_val _ _ _ _ _ _ _ _ _ _ _ _ I1 x L) as (Q1 & Q2). rewrite <- DC. auto.
  - unfold io_outputs. rewrite map_map. apply (forall2_map _ (fun o => new_out mp (fst o))). intros [t b] T. cbn [fst]. split; [|apply SAME]. intros CH. destruct (NEWO t CH) as (m & E & M & _). unfold new_out. rewrite E.
    destruct (MP t m M) as (X1 & _ & _ & X4 & X5 & _). destruct (OT t b T) as (_ & _ & Y1 & Y2 & _). split; [lia|]. split; [|exact X5]. rewrite (proj1 (V3 m (proj2 X1))), X4, Y1, Y2. reflexivity.
  - assert (G : forall l, NoDup l -> (forall t, In t l -> exists b, In (t, b) os) -> NoDup (map (new_out mp) l)).
    { induction l as [|t l IH]; intros ND HL; [constructor|]. inversion ND as [|? ? A B]; subst. cbn [map]. constructor; [|apply IH; [exact B|intros u U; apply HL; now right]]. intros Z. apply in_map_iff in Z. destruct Z as (u & EU & U). apply A.
      assert (t = u); [|congruence]. destruct (HL t (or_introl eq_refl)) as (b & TB), (HL u (or_intror U)) as (b' & UB). destruct (OT t b TB) as (_ & LT & _), (OT u b' UB) as (_ & LU & _).
      destruct (DEC t) as [X|X], (DEC u) as [Y|Y].
      - destruct (NEWO t X) as (m & E & M & _), (NEWO u Y) as (m' & E' & M' & _). unfold new_out in EU. rewrite E, E' in EU. subst m'. destruct (MP t m M) as (_ & _ & X3 & _), (MP u m M') as (_ & _ & Y3 & _). rewrite X3 in Y3. congruence.
      - destruct (NEWO t X) as (m & E & M & _). rewrite (SAME u Y) in EU. unfold new_out in EU. rewrite E in EU. destruct (MP t m M) as (X1 & _). lia.
      - destruct (NEWO u Y) as (m & E & M & _). rewrite (SAME t X) in EU. unfold new_out in EU. rewrite E in EU. destruct (MP u m M) as (X1 & _). lia.
      - rewrite (SAME t X), (SAME u Y) in EU. congruence. }
    apply G; [exact ON|]. intros t T. apply in_map_iff in T. destruct T as ([u b] & <- & T). eauto.
  - intros t' T'. apply in_map_iff in T'. destruct T' as (t & <- & T). apply in_map_iff in T. destruct T as ([u b] & <- & T). cbn [fst]. destruct (OT u b T) as (_ & L & _). destruct (DEC u) as [X|X].
    + destruct (NEWO u X) as (m & E & M & MN). unfold new_out. rewrite E. destruct (MP u m M) as (X1 & _). destruct (U3 m MN) as (r & R). exists r. intros r'. rewrite <- R. unfold out_node. rewrite IDS. cbn [q_del eff bn]. split.
      * intros ((Q1 & Q2) & Q3 & Q4). split; [exact Q1|]. split; [|exact Q4]. destruct (OLD r' Q1 Q3) as [(R0 & K & EB)|(LB & _)]; [|exact LB]. exfalso. destruct (OB r' R0 K) as (t0 & b0 & E0 & T0). rewrite EB, E0 in Q4. injection Q4 as ->. destruct (OT m b0 T0) as (_ & L0 & _). lia.
      * intros (Q1 & Q2 & Q3). split; [split; [exact Q1|]|].
        -- intros Z. destruct (RV r' Z) as (_ & _ & _ & R2 & _). specialize (LT2 r' R2). lia.
        -- split; [|exact Q3]. destruct (A3 r' Q1) as [R2|(_ & t0 & _ & E0)]; [specialize (LT2 r' R2); lia|]. rewrite E0. reflexivity.
    + rewrite (SAME u X). destruct (OM u b T) as (_ & _ & _ & r & R). exists r. intros r'. unfold out_node. rewrite IDS. cbn [q_del eff bn]. split.
      * intros ((Q1 & Q2) & Q3 & Q4). destruct (OLD r' Q1 Q3) as [(R0 & K & EB)|(LB & m & M & EM)]; [apply R; split; [exact R0|]; split; [exact K|congruence]|]. exfalso. rewrite Q4 in EM. injection EM as <-. destruct (NI u M) as (t0 & T0). destruct (MP t0 u T0) as (X1 & _). lia.
      * intros ->. destruct (proj2 (R r) eq_refl) as (R0 & K & EB). destruct (KEEP r R0) as (K1 & K2 & _). destruct (k_old _ _ _ _ _ _ _ _ _ _ _ _ I1 r R0) as (_ & Q2 & _ & _ & Q5). rewrite K2. split; [split; [exact K1|]|split; [congruence|rewrite Q5; assumption]].
        intros Z. destruct (RV r Z) as (_ & _ & _ & _ & t0 & E0 & _ & CH). rewrite E0 in EB. injection EB as ->. contradiction.
  - intros r R K. apply IDS in R. destruct R as (R & NR). cbn [q_del eff bn] in *. destruct (OLD r R K) as [(R0 & K0 & EB)|(LB & m & M & EM)].
    + destruct (OB r R0 K0) as (t & b & E & T). exists t. split; [|rewrite EB, E; reflexivity]. apply in_map_iff. exists t. split; [|apply in_map_iff; exists (t, b); auto]. apply SAME. intros CH. apply NR. apply (j_rv _ _ _ _ _ _ _ _ _ _ _ _ _ I2).
      destruct (KEEP r R0) as (_ & K2 & K3). exists t, t. split; [apply MC, CH|]. split; [exact K3|]. rewrite K2 in K, EB. split; [exact K|]. split; [|reflexivity]. rewrite EB, E. now left.
    + exists m. split; [|exact EM]. apply names_in in M. destruct M as (t & T & E). apply in_map_iff. exists t. split; [unfold new_out; now rewrite E|exact T].
  - split.
    + intros r R K. destruct (KEEP r R) as (K1 & K2 & K3). destruct (k_old _ _ _ _ _ _ _ _ _ _ _ _ I1 r R) as (_ & Q2 & Q3 & Q4 & _). rewrite IDS. cbn [q_del eff bn]. rewrite K2. split; [split; [exact K1|]|].
      * intros Z. destruct (RV r Z) as (_ & Z2 & _). contradiction.
      * split; [exact Q2|]. split; [exact Q3|]. rewrite <- Q4. apply map_ext_in. intros y Y. assert (YL : y < bnext g1) by (destruct (proj2 W1 r K3) as (_ & Z & _); exact (proj1 (Z y Y))).
        destruct (V3 y) as (X1 & _); [lia|]. destruct (j_val _ _ _ _ _ _ _ _ _ _ _ _ _ I2 y YL) as (X2 & _). congruence.
    + intros r R. apply IDS in R. destruct R as (R & _). cbn [q_del eff bn]. destruct (A3 r R) as [R2|(_ & m & _ & E)]; [|right; left; rewrite E; reflexivity]. destruct (O3 r R2) as (_ & Q). rewrite Q.
      destruct (j_new _ _ _ _ _ _ _ _ _ _ _ _ _ I2 r R2) as [R1|(t & T)].
      * destruct (j_old _ _ _ _ _ _ _ _ _ _ _ _ _ I2 r R1) as (_ & Q'). rewrite Q'. destruct (k_new _ _ _ _ _ _ _ _ _ _ _ _ I1 r R1) as [R0|(_ & a & t' & _ & L & E)]; [now left|]. right. right. exists tgt, a, t'. auto.
      * right. right. destruct (MP t r T) as (_ & _ & E & _). exists (ty1 t), tgt, t. split; [|exact E]. assert (CH : changed tgt ty os t) by (apply MC, in_map_iff; exists (t, r); auto). apply (OT t true (proj1 CH)).
Qed.
Lemma shift_lemma a b c z : a <> b -> code_of a c -> code_of a z -> code_of b 0%Z ->
  code_of b (c + shift a b)%Z /\ code_of b (z + shift a b)%Z /\ ((c + shift a b) - (z + shift a b) = c - z)%Z /\ (c + shift a b + shift b a = c)%Z.
Proof. destruct a, b; cbn; intros; try contradiction; try congruence; lia. Qed.
(** outputs of a node with two outputs, of which one is selected *)
Definition sp_bn (n : nat) : bnode := match n with 0 => mkBN BIn [] [0] | 1 => mkBN (BOp 1) [0] [1; 2] | 3 => mkBN BOut [1] [] | 4 => mkBN BOut [2] [] | _ => mkBN BIn [] [] end.
Definition sp_bg : bg := mkBG sp_bn [0; 1; 3; 4] [(0,1,0);(1,3,1);(1,4,2)] (fun t => match t with 2 => 1 | _ => t end) 5.
Ltac outs_tac :=
  split; [once solve [repeat (constructor; [cbn; intuition discriminate|]); constructor]|]; split;
  [intros t b T; cbn in T; repeat (destruct T as [T|T]; [injection T as <- <-; split; [cbn; lia|]; split; [cbn; tauto|]; split; [cbn; tauto|]|]); try destruct T
  |intros r R K; cbn in R; repeat (destruct R as [<-|R]; [first [discriminate K|do 2 eexists; split; [reflexivity|cbn; first [left; reflexivity|right; left; reflexivity]]]|]); destruct R].
Ltac one_out k := exists k; intros r'; split; [intros (R & K & E); cbn in R; repeat (destruct R as [<-|R]; [first [reflexivity|discriminate K|discriminate E]|]); destruct R|intros ->; split; [cbn; tauto|split; reflexivity]].
Lemma split_lemma (q : qty -> qty -> nat) : exists g ns os ty tgt, b_wf g /\ b_consistent g /\ flagged_ok g ns /\ outputs_ok g os /\ types_ok ty ns /\ types_ok ty os /\ not_through tgt ty ns os /\
  exists g' outs ty' t, quantize_io q tgt ns os g ty = Some (g', outs, ty') /\ In t outs /\ forall r, ~ out_node g' r t.
Proof.
  exists sp_bg, [(0, false)], [(1, true); (2, false)], (fun _ => TI8), TU8. split; [b_wf_tac|]. split; [apply (b_consistent_check 5); reflexivity|].
  split; [split; [repeat constructor; intros []|]; intros t [E|[]]; discriminate|]. split; [outs_tac; [one_out 3|one_out 4]|]. split; [intros t _; discriminate|]. split; [intros t _; discriminate|].
  split; [intros t b ([E|[]] & _); discriminate|]. do 3 eexists. exists 2. split; [reflexivity|]. split; [cbn; auto|].
  intros r (R & K & E). cbn in R. repeat (destruct R as [<-|R]; [first [discriminate K|discriminate E]|]). destruct R.
Qed.
Lemma through_lemma (q : qty -> qty -> nat) : exists g ns os ty tgt, b_wf g /\ b_consistent g /\ flagged_ok g ns /\ outputs_ok g os /\ types_ok ty ns /\ types_ok ty os /\ together tgt ty g os /\
  quantize_io q tgt ns os g ty = None.
Proof.
  exists io_bg, [(0, true)], [(1, true); (0, true)], (fun _ => TI8), TU8. split; [b_wf_tac|]. split; [apply (b_consistent_check 4); reflexivity|].
  split; [split; [repeat constructor; intros []|]; intros t [E|[]]; injection E as <-; cbn; auto with arith|]. split; [outs_tac; [one_out 2|one_out 3]|]. split; [intros t _; discriminate|]. split; [intros t _; discriminate|].
  split; [|reflexivity]. intros t t' b H T _. split; [|discriminate]. cbn in T. destruct T as [T|[T|[]]]; injection T as <- _; cbn; auto.
Qed.
(** an output of which a change is wanted but not to or from an 8-bit type *)
Lemma other_lemma (q : qty -> qty -> nat) tgt ns os g ty t : (forall s, In (s, true) ns -> False) -> os = [(t, true)] -> ty t = TOther -> tgt <> TOther -> quantize_io q tgt ns os g ty = None.
Proof.
  intros N -> T TG. assert (E : qi_steps q tgt ns (g, [], ty) = Some (g, [], ty)) by (induction ns as [|[s [|]] ns IH]; [reflexivity|elim (N s); now left|]; apply IH; intros u U; apply (N u); now right).
  unfold quantize_io. rewrite E. cbn [qo_steps]. unfold qo_step. rewrite T. destruct tgt; congruence || reflexivity.
Qed.
