(** Proofs about moving transposes across a RESHAPE. *)
From Coq Require Import List Arith Lia Permutation Bool Sorted ZArith.
From Verif Require Import Tensor ChainModel ChainProofs ReshapeProofs LowerProofs PassModel PassProofs FuseModel LayoutSpec PassReshapeModel.
Import ListNotations.
Local Open Scope nat_scope.

(** ** Permuting matching groups of axes *)
Definition gpairs (l r : list nat) (gs : list (list nat * list nat)) : Prop :=
  concat (map fst gs) = seq 0 (length l) /\ concat (map snd gs) = seq 0 (length r) /\
  Forall (fun p => fst p <> [] /\ snd p <> [] /\ prod (sel l (fst p)) = prod (sel r (snd p))) gs.

Lemma prod_perm l m : Permutation l m -> prod l = prod m.
Proof. intros H. induction H; simpl; auto; lia. Qed.

Lemma map_ext_pairs {X} (f g : X -> nat) l : map f l = map g l -> forall x, In x l -> f x = g x.
Proof. induction l as [|a l IH]; intros E x Hx; [destruct Hx|]. cbn in E. inversion E. destruct Hx as [<-|Hx]; auto. Qed.

Lemma groups_move {A} (t : tensor A) r gs gs' : gpairs (tshape t) r gs -> Permutation gs' gs ->
  Forall (fun d => 0 < d) (tshape t) ->
  let p := concat (map fst gs') in let q := concat (map snd gs') in
  teq (transpose (argsort q) (reshape (sel r q) (transpose p t))) (reshape r t).
Proof.
  intros (G1 & G2 & G3) HP Hpos p q. set (l := tshape t) in *.
  assert (is_perm (length l) p) as Pp.
  { unfold is_perm, p. rewrite <- G1. apply Permutation_concat, Permutation_map. exact HP. }
  assert (is_perm (length r) q) as Pq.
  { unfold is_perm, q. rewrite <- G2. apply Permutation_concat, Permutation_map. exact HP. }
  assert (map (fun x => prod (sel l (fst x))) gs = map (fun x => prod (sel r (snd x))) gs) as Eb.
  { apply map_ext_in. intros x Hx. rewrite Forall_forall in G3. apply G3; exact Hx. }
  assert (prod l = prod r) as Elr.
  { rewrite <- (sel_seq l), <- (sel_seq r), <- G1, <- G2, !sel_concat, !prod_concat, !map_map. f_equal. exact Eb. }
  rewrite (argsort_inv_perm _ _ Pq).
  assert (sel (sel r q) (inv_perm q) = r) as Es by (apply sel_inv_r; exact Pq).
  split; [cbn; exact Es|]. cbn [tshape transpose reshape]. rewrite Es. intros idx V.
  cbn [tget transpose reshape tshape]. fold l.
  pose proof (inv_perm_is_perm _ _ Pq) as Pqi.
  assert (inv_perm (inv_perm q) = q) as Eii.
  { rewrite <- (argsort_inv_perm _ _ Pqi). rewrite <- (argsort_inv_perm _ _ Pq).
    clear - Pq. rewrite (argsort_inv_perm _ _ Pq).
    apply list_eq_nth; [rewrite (argsort_inv_perm _ _ (inv_perm_is_perm _ _ Pq)), !inv_perm_length; reflexivity|].
    intros k Hk. rewrite (argsort_inv_perm _ _ (inv_perm_is_perm _ _ Pq)) in *. rewrite !inv_perm_length in Hk.
    rewrite inv_perm_nth by (rewrite inv_perm_length; exact Hk).
    pose proof (is_perm_length _ _ Pq) as Lq.
    assert (nth k q 0 < length q) as B by (rewrite Lq; pose proof (is_perm_Forall _ _ Pq) as F; rewrite Forall_forall in F; apply F, nth_In; exact Hk).
    assert (nth (nth k q 0) (inv_perm q) 0 = k) as E1 by (rewrite inv_perm_nth by exact B; apply find_pos_nth; [exact (is_perm_NoDup _ _ Pq)|exact Hk]).
    rewrite <- E1 at 1. apply find_pos_nth; [exact (is_perm_NoDup _ _ (inv_perm_is_perm _ _ Pq))|rewrite inv_perm_length; exact B]. }
  rewrite Eii. pose proof (ravel_lt _ _ V) as RL. rewrite <- Elr in RL.
  set (u := unravel l (ravel r idx)). assert (valid l u) as Vu by (apply unravel_valid; exact RL).
  assert (ravel l u = ravel r idx) as Ru by (apply ravel_unravel; exact RL).
  assert (Forall (fun k => k < length l) (concat (map fst gs))) as F1 by (rewrite G1; apply Forall_forall; intros k Hk; apply in_seq in Hk; lia).
  assert (Forall (fun k => k < length r) (concat (map snd gs))) as F2 by (rewrite G2; apply Forall_forall; intros k Hk; apply in_seq in Hk; lia).
  destruct (blocks_ravel (map fst gs) l u Vu F1) as (A1 & A2 & A3).
  destruct (blocks_ravel (map snd gs) r idx V F2) as (B1 & B2 & B3).
  assert (LowerProofs.bidx (map fst gs) l u = LowerProofs.bidx (map snd gs) r idx) as Eg.
  { assert (LowerProofs.bshape (map fst gs) l = LowerProofs.bshape (map snd gs) r) as Esh.
    { unfold LowerProofs.bshape. rewrite !map_map. exact Eb. }
    rewrite <- (unravel_ravel _ _ A2), <- (unravel_ravel _ _ B2), Esh, <- B1. rewrite <- Esh, <- A1.
    rewrite G1, G2. rewrite !sel_seq. rewrite <- (valid_length _ _ Vu) at 1. rewrite <- (valid_length _ _ V). rewrite !sel_seq.
    rewrite Ru. reflexivity. }
  unfold LowerProofs.bidx in Eg. rewrite !map_map in Eg.
  assert (forall x, In x gs -> ravel (sel l (fst x)) (sel u (fst x)) = ravel (sel r (snd x)) (sel idx (snd x))) as Each.
  { exact (map_ext_pairs _ _ gs Eg). }
  assert (Forall (fun k => k < length l) p) as Fp by (apply (is_perm_Forall _ _ Pp)).
  assert (Forall (fun k => k < length r) q) as Fq by (apply (is_perm_Forall _ _ Pq)).
  destruct (blocks_ravel (map fst gs') l u Vu Fp) as (C1 & C2 & C3).
  destruct (blocks_ravel (map snd gs') r idx V Fq) as (D1 & D2 & D3).
  fold p in C1, C3. fold q in D1, D3.
  assert (ravel (sel l p) (sel u p) = ravel (sel r q) (sel idx q)) as Efin.
  { rewrite C1, D1. unfold LowerProofs.bshape, LowerProofs.bidx. rewrite !map_map. f_equal; apply map_ext_in; intros x Hx.
    - rewrite Forall_forall in G3. apply G3. apply (Permutation_in _ HP); exact Hx.
    - apply Each. apply (Permutation_in _ HP); exact Hx. }
  rewrite <- Efin. rewrite unravel_ravel by (apply valid_sel; auto).
  f_equal. change (unravel l (ravel r idx)) with u.
  apply sel_inv_r. rewrite (valid_length _ _ Vu). exact Pp.
Qed.

(** ** Groups of consecutive values, sorted by value, enumerate the inverse permutation *)
Lemma sorted_groups n q (B : list (list nat)) : is_perm n q -> Forall (consec q) B -> concat B = seq 0 n ->
  exists o, is_perm (length B) o /\ concat (map (fun i => nth i B []) o) = inv_perm q.
Proof.
  intros HQ B1 B2. pose proof (is_perm_length _ _ HQ) as HL. subst n.
  set (keys := map (key q) B). set (o := argsort keys). exists o.
  assert (ND : NoDup (concat (map (sel q) B))).
  { rewrite <- sel_concat, B2. rewrite sel_seq. apply (is_perm_NoDup _ _ HQ). }
  assert (KIN : forall b, consec q b -> In (key q b) (sel q b)).
  { intros b Hb. pose proof (consec_range q b Hb) as [R1 R2]. rewrite R1. apply in_seq.
    destruct b; simpl in *; [tauto|lia]. }
  assert (NDK : NoDup keys).
  { unfold keys. clear - B1 ND KIN. induction B as [|b B IH]; simpl in *; [constructor|].
    inversion B1; subst. constructor.
    - intros Hin. apply in_map_iff in Hin. destruct Hin as [c [E Hc]].
      apply (NoDup_app_disjoint _ _ (key q b) ND (KIN b H1)).
      apply in_concat. exists (sel q c). split; [apply in_map; auto|]. rewrite <- E.
      apply KIN. rewrite Forall_forall in H2; auto.
    - apply IH; auto. apply NoDup_app_r in ND; auto. }
  assert (LK : length keys = length B) by (unfold keys; apply map_length).
  assert (HO : is_perm (length B) o).
  { rewrite <- LK. apply argsort_perm; exact NDK. }
  split; [exact HO|].
  set (Bs := map (fun i => nth i B []) o).
  assert (PB : Permutation Bs B) by (apply selb_perm; exact HO).
  assert (CB : Forall (consec q) Bs).
  { apply Forall_forall. intros b Hb. apply (Permutation_in _ PB) in Hb.
    rewrite Forall_forall in B1; auto. }
  assert (KS : map (key q) Bs = np_sort keys).
  { unfold Bs. rewrite <- map_sel_nth by (apply is_perm_Forall; exact HO).
    fold keys. apply sel_argsort. }
  assert (PC : Permutation (concat (map (sel q) Bs)) (seq 0 (length q))).
  { rewrite (Permutation_concat _ _ (Permutation_map (sel q) PB)).
    rewrite <- sel_concat, B2, sel_seq. exact HQ. }
  assert (SRT : concat (map (sel q) Bs) = seq 0 (length q)).
  { apply sorted_perm_eq; auto.
    - apply ordered_blocks_sorted; auto.
      + apply (Permutation_NoDup (Permutation_sym PC)). apply seq_NoDup.
      + rewrite KS. apply np_sort_sorted.
    - apply seq_sorted. }
  assert (CIN : Forall (fun k => k < length q) (concat Bs)).
  { apply Forall_forall. intros k Hk.
    apply (Permutation_in _ (Permutation_concat _ _ PB)) in Hk. rewrite B2 in Hk.
    apply in_seq in Hk. lia. }
  assert (CL : length (concat Bs) = length q).
  { rewrite (Permutation_length (Permutation_concat _ _ PB)), B2, seq_length. reflexivity. }
  apply list_eq_nth; [rewrite inv_perm_length; lia|]. intros k Hk.
  rewrite inv_perm_nth by lia.
  assert (E : nth (nth k (concat Bs) 0) q 0 = k).
  { rewrite <- sel_nth by exact Hk. rewrite sel_concat, SRT, seq_nth; lia. }
  rewrite <- E at 2. symmetry. apply find_pos_nth.
  - apply (is_perm_NoDup _ _ HQ).
  - rewrite Forall_forall in CIN. apply CIN. apply nth_In; exact Hk.
Qed.

(** ** The plan of the pass *)
Definition expand1 (p : list nat * list nat) : list (list nat * list nat) :=
  if both_many p then combine (map (fun k => [k]) (fst p)) (map (fun k => [k]) (snd p)) else [p].
Definition keyed (p : list nat * list nat) : Prop :=
  length (fst p) = 1 \/ (both_many p = true /\ fst p = snd p).

Lemma group_of_unique gs k v : NoDup (map (fun p => hd 0 (fst p)) gs) -> In (k, v) gs -> group_of gs (hd 0 k) = Some v.
Proof.
  induction gs as [|[k1 v1] gs IH]; intros ND Hin; [destruct Hin|]. cbn [map fst] in ND. inversion ND as [|? ? N1 N2]; subst.
  cbn [group_of]. destruct Hin as [E|Hin].
  - inversion E; subst. rewrite Nat.eqb_refl.
    destruct (group_of gs (hd 0 k)) as [w|] eqn:G; [|reflexivity]. exfalso. apply N1. clear - G.
    induction gs as [|[k1 v1] gs IH]; cbn in *; [discriminate|]. destruct (group_of gs (hd 0 k)) eqn:G'; [right; auto|].
    destruct (Nat.eqb_spec (hd 0 k1) (hd 0 k)); [left; auto|discriminate].
  - rewrite IH by auto. reflexivity.
Qed.

Lemma chain_groups_app gs a b u w : chain_groups gs a = Some u -> chain_groups gs b = Some w -> chain_groups gs (a ++ b) = Some (u ++ w).
Proof.
  revert u. induction a as [|x a IH]; intros u Ha Hb; cbn in *.
  - inversion Ha; subst. exact Hb.
  - unfold obind in *. destruct (group_of gs x) as [v|]; [|discriminate]. destruct (chain_groups gs a) as [u'|] eqn:E; [|discriminate].
    inversion Ha; subst. rewrite (IH u') by auto. rewrite app_assoc. reflexivity.
Qed.
Lemma chain_groups_concat D gs : Forall (fun p => chain_groups D (fst p) = Some (snd p)) gs ->
  chain_groups D (concat (map fst gs)) = Some (concat (map snd gs)).
Proof. intros H. induction H; cbn; [reflexivity|]. apply chain_groups_app; auto. Qed.

Lemma combine_single l : combine (map (fun k : nat => [k]) l) (map (fun k => [k]) l) = map (fun k => ([k], [k])) l.
Proof. induction l; cbn; [reflexivity|]. rewrite IHl. reflexivity. Qed.

Lemma expand_keys gs : Forall keyed gs -> map (fun p => hd 0 (fst p)) (flat_map expand1 gs) = concat (map fst gs).
Proof.
  intros H. induction H as [|p gs Hp _ IH]; [reflexivity|]. cbn [flat_map map concat]. rewrite map_app, IH. f_equal.
  unfold expand1. destruct Hp as [L|[M E]].
  - destruct p as [g h]; cbn in *. unfold both_many; cbn. rewrite L. cbn. destruct g as [|a [|? ?]]; try discriminate. reflexivity.
  - rewrite M, <- E, combine_single, map_map. cbn. apply map_id.
Qed.

Lemma expand_lookup gs p : Forall keyed gs -> NoDup (concat (map fst gs)) -> In p gs ->
  chain_groups (flat_map expand1 gs) (fst p) = Some (snd p).
Proof.
  intros HK ND Hin. assert (keyed p) as Kp by (rewrite Forall_forall in HK; auto).
  assert (forall k v, In (k, v) (expand1 p) -> group_of (flat_map expand1 gs) (hd 0 k) = Some v) as G.
  { intros k v H. apply group_of_unique; [rewrite expand_keys; auto|]. apply in_flat_map. exists p. auto. }
  clear ND HK. generalize dependent (flat_map expand1 gs). intros D G. unfold expand1 in G. destruct Kp as [L|[M E]].
  - destruct p as [g h]. cbn [fst snd] in *. destruct g as [|a [|? ?]]; try discriminate.
    cbn [chain_groups]. change a with (hd 0 [a]) at 1. rewrite (G [a] h (or_introl eq_refl)). cbn. rewrite app_nil_r. reflexivity.
  - rewrite M, <- E, combine_single in G. rewrite <- E. clear - G.
    assert (forall k, In k (fst p) -> group_of D k = Some [k]) as G'.
    { intros k Hk. apply (G [k] [k]). apply in_map_iff. eauto. }
    clear G. induction (fst p) as [|a l IH]; [reflexivity|]. cbn. rewrite (G' a (or_introl eq_refl)). cbn.
    rewrite IH by (intros; apply G'; right; auto). reflexivity.
Qed.

Lemma concat_seq_groups B : forall a n, concat B = seq a n -> Forall (fun b => b = seq (hd 0 b) (length b)) B.
Proof.
  induction B as [|b B IH]; intros a n E; [constructor|]. cbn in E.
  assert (b = seq a (length b)) as Eb.
  { assert (length b <= n) as L by (apply (f_equal (@length nat)) in E; rewrite app_length, seq_length in E; lia).
    replace n with (length b + (n - length b)) in E by lia. rewrite seq_app in E.
    apply (f_equal (firstn (length b))) in E. rewrite firstn_app, Nat.sub_diag, firstn_O, app_nil_r, firstn_all in E.
    rewrite firstn_app, seq_length, Nat.sub_diag, firstn_O, app_nil_r, firstn_all2 in E by (rewrite seq_length; lia). exact E. }
  constructor.
  - destruct b; [reflexivity|]. cbn [hd]. rewrite Eb at 1. cbn [length seq] in *. inversion Eb; subst. cbn. congruence.
  - apply (IH (a + length b) (n - length b)).
    assert (length b <= n) as L by (apply (f_equal (@length nat)) in E; rewrite app_length, seq_length in E; lia).
    replace n with (length b + (n - length b)) in E by lia. rewrite seq_app in E. rewrite Eb in E at 1. apply app_inv_head in E. exact E.
Qed.

Lemma zlist_eqb_spec a b : zlist_eqb a b = true -> a = b.
Proof.
  unfold zlist_eqb. revert b. induction a as [|x a IH]; intros [|y b] H; cbn in *; try discriminate; auto.
  apply andb_prop in H as [H1 H2]. apply andb_prop in H2 as [H2 H3]. apply Z.eqb_eq in H2. subst. f_equal. apply IH.
  rewrite H1, H3. reflexivity.
Qed.

Lemma consec_of_check q b : b <> [] -> b = seq (hd 0 b) (length b) ->
  zlist_eqb (normalized b) (normalized (sel q b)) = true -> consec q b.
Proof.
  intros NE Eb H. apply zlist_eqb_spec in H. unfold normalized in H.
  destruct b as [|s b]; [congruence|]. cbn [hd sel map length] in *. fold (sel q b) in *.
  set (q0 := nth s q 0) in *.
  assert (forall m x l, (Z.of_nat x - Z.of_nat s = Z.of_nat (nth x q 0%nat) - Z.of_nat q0)%Z -> l = seq (S x) m ->
     map (fun y => (Z.of_nat y - Z.of_nat s)%Z) l = map (fun y => (Z.of_nat y - Z.of_nat q0)%Z) (sel q l) -> consec q (x :: l)) as Gen.
  { induction m as [|m IH]; intros x l Hx -> HE; [exact I|]. cbn [seq consec]. cbn [seq sel map] in HE. 
    pose proof (f_equal (hd 0%Z) HE) as E1. pose proof (f_equal (@tl Z) HE) as E2. cbv beta in E1, E2. cbn [hd tl] in E1, E2.
    split; [lia|]. apply IH; auto. }
  apply (Gen (length b) s b).
  - unfold q0. lia.
  - inversion Eb as [E0]. rewrite seq_length. reflexivity.
  - exact (f_equal (@tl Z) H).
Qed.

Lemma map_fst_nth (gs : list (list nat * list nat)) o : Forall (fun i => i < length gs) o ->
  map fst (map (fun i => nth i gs ([], [])) o) = map (fun i => nth i (map fst gs) []) o.
Proof.
  intros F. rewrite map_map. apply map_ext_in. intros i Hi. rewrite Forall_forall in F. specialize (F i Hi).
  rewrite nth_indep with (d' := fst (@nil nat, @nil nat)) by (rewrite map_length; exact F). symmetry. apply map_nth.
Qed.

Lemma plan_side n gs q : concat (map fst gs) = seq 0 n -> Forall (fun p => fst p <> []) gs -> Forall keyed gs -> is_perm n q ->
  Forall (fun p => both_many p = true -> zlist_eqb (normalized (fst p)) (normalized (sel q (fst p))) = true) gs ->
  exists gs', Permutation gs' gs /\ concat (map fst gs') = inv_perm q /\
    chain_groups (flat_map expand1 gs) (inv_perm q) = Some (concat (map snd gs')).
Proof.
  intros C NE HK HQ HC.
  assert (Forall (consec q) (map fst gs)) as FC.
  { pose proof (concat_seq_groups _ _ _ C) as FS. apply Forall_forall. intros b Hb.
    rewrite Forall_forall in FS. specialize (FS b Hb). apply in_map_iff in Hb as (p & <- & Hp).
    rewrite Forall_forall in NE, HK, HC. specialize (NE p Hp). destruct (HK p Hp) as [L|[M E]].
    - destruct (fst p) as [|a [|? ?]]; try discriminate. exact I.
    - apply consec_of_check; auto. }
  destruct (sorted_groups n q (map fst gs) HQ FC C) as (o & Ho & Eo). rewrite map_length in Ho.
  exists (map (fun i => nth i gs ([], [])) o).
  assert (Permutation (map (fun i => nth i gs ([], [])) o) gs) as PG by (apply selb_perm; exact Ho).
  assert (concat (map fst (map (fun i => nth i gs ([], [])) o)) = inv_perm q) as E1.
  { rewrite map_fst_nth by (apply (is_perm_Forall _ _ Ho)). exact Eo. }
  split; [exact PG|]. split; [exact E1|]. rewrite <- E1. apply chain_groups_concat. apply Forall_forall. intros p Hp.
  apply expand_lookup; auto; [rewrite C; apply seq_NoDup|]. apply (Permutation_in _ PG). exact Hp.
Qed.

(** the scan over the groups *)
Definition flip2 (p : list nat * list nat) : list nat * list nat := (snd p, fst p).
Lemma rt_scan_spec gs : forall mode chain m c, rt_scan gs mode chain = (m, c) -> m <> MBad -> mode <> MBad ->
  Forall (fun p => fst p <> [] /\ snd p <> []) gs ->
  (mode = MUp -> m = MUp) /\ (mode = MDown -> m = MDown) /\ (chain = true -> c = true) /\
  (c = false -> Forall (fun p => both_many p = false) gs) /\
  (m <> MUp -> Forall keyed gs) /\ (m <> MDown -> Forall (fun p => keyed (flip2 p)) gs).
Proof.
  induction gs as [|[g h] gs IH]; intros mode chain m c E Hm Hmode HN.
  - cbn in E. inversion E; subst. repeat split; auto.
  - inversion HN as [|? ? [N1 N2] HN']; subst. cbn [fst snd] in *. cbn [rt_scan] in E.
    assert (1 <= length g) by (destruct g; [congruence|cbn; lia]). assert (1 <= length h) by (destruct h; [congruence|cbn; lia]).
    assert (forall M C, rt_scan gs M C = (m, c) -> M <> MBad ->
      (keyed (g, h) /\ keyed (h, g)) \/ (keyed (g, h) /\ M = MDown) \/ (keyed (h, g) /\ M = MUp) ->
      (both_many (g, h) = true -> C = true) ->
      (chain = true -> C = true) -> (mode = MUp -> M = MUp) -> (mode = MDown -> M = MDown) ->
      (mode = MUp -> m = MUp) /\ (mode = MDown -> m = MDown) /\ (chain = true -> c = true) /\
      (c = false -> Forall (fun p => both_many p = false) ((g, h) :: gs)) /\
      (m <> MUp -> Forall keyed ((g, h) :: gs)) /\ (m <> MDown -> Forall (fun p => keyed (flip2 p)) ((g, h) :: gs))) as Step.
    { intros M C E' HM Hk Hb Hc HU HD. destruct (IH M C m c E' Hm HM HN') as (I1 & I2 & I3 & I4 & I5 & I6).
      split; [intro; apply I1, HU; auto|]. split; [intro; apply I2, HD; auto|]. split; [intro; apply I3, Hc; auto|].
      split; [intro Ec; constructor; [destruct (both_many (g, h)); auto; rewrite (I3 (Hb eq_refl)) in Ec; discriminate|auto]|].
      split; intro Nm; constructor; auto.
      - destruct Hk as [[K1 K2]|[[K1 K2]|[K1 K2]]]; auto. exfalso. apply Nm, I1, K2.
      - unfold flip2. cbn. destruct Hk as [[K1 K2]|[[K1 K2]|[K1 K2]]]; auto. exfalso. apply Nm, I2, K2. }
    destruct (Nat.ltb_spec 1 (length g)) as [G1|G1]; destruct (Nat.eqb_spec (length h) 1) as [L1|L1]; cbn [andb] in E.
    + assert (keyed (h, g)) as K by (left; exact L1).
      assert (both_many (g, h) = true -> False) as B by (unfold both_many; cbn [fst snd]; rewrite L1; rewrite andb_false_r; discriminate).
      destruct mode; try (inversion E; subst; congruence).
      * apply (Step MUp chain); auto; try congruence; try (intro HB; destruct (B HB); fail).
      * apply (Step MUp chain); auto; try congruence; try (intro HB; destruct (B HB); fail).
    + assert (1 < length h) as H1 by lia. destruct (Nat.ltb_spec 1 (length h)) as [_|]; [|lia].
      destruct (Nat.eqb_spec (length g) 1) as [|_]; [lia|]. cbn [andb] in E.
      destruct (negb (length h =? length g) || negb (list_eqb h g)) eqn:EE; [inversion E; subst; congruence|].
      apply orb_false_elim in EE as [_ EE]. apply negb_false_iff in EE. apply list_eqb_spec in EE. subst h.
      assert (keyed (g, g)) as K.
      { right. unfold both_many. cbn [fst snd]. destruct (Nat.ltb_spec 1 (length g)); [auto|lia]. }
      apply (Step mode true); auto.
    + assert (length g = 1) as G1' by lia. destruct (Nat.ltb_spec 1 (length h)); [lia|]. cbn [andb] in E.
      assert (keyed (g, h) /\ keyed (h, g)) as K by (split; left; cbn; lia).
      apply (Step mode chain); auto. unfold both_many; cbn [fst snd]. destruct (Nat.ltb_spec 1 (length g)); [lia|discriminate].
    + assert (length g = 1) as G1' by lia. destruct (Nat.ltb_spec 1 (length h)) as [H1|]; [|lia].
      rewrite G1' in E. cbn [Nat.eqb andb] in E.
      assert (keyed (g, h)) as K by (left; exact G1').
      assert (both_many (g, h) = true -> False) as B by (unfold both_many; cbn [fst snd]; rewrite G1'; discriminate).
      destruct mode; try (inversion E; subst; congruence).
      * apply (Step MDown chain); auto; try congruence; try (intro HB; destruct (B HB); fail).
      * apply (Step MDown chain); auto; try congruence; try (intro HB; destruct (B HB); fail).
Qed.

Lemma expand_flat chain gs : (chain = false -> Forall (fun p => both_many p = false) gs) -> rt_expand chain gs = flat_map expand1 gs.
Proof.
  unfold rt_expand. destruct chain; [reflexivity|]. intros H. specialize (H eq_refl). induction H as [|p gs Hp _ IH]; [reflexivity|].
  cbn. rewrite <- IH. unfold expand1. rewrite Hp. reflexivity.
Qed.
Lemma flip_expand gs : map flip2 (flat_map expand1 gs) = flat_map expand1 (map flip2 gs).
Proof.
  induction gs as [|[g h] gs IH]; [reflexivity|]. cbn [flat_map map]. rewrite map_app, IH. f_equal.
  unfold expand1, flip2, both_many. cbn [fst snd]. rewrite (andb_comm (1 <? length h)).
  destruct ((1 <? length g) && (1 <? length h)); [|reflexivity].
  generalize (map (fun k : nat => [k]) g), (map (fun k : nat => [k]) h). clear. intros a. induction a as [|x a IH]; intros [|y b]; cbn; auto.
  rewrite IH. reflexivity.
Qed.
Lemma checks_all chain mode gs f : (chain = false -> Forall (fun p => both_many p = false) gs) ->
  forallb f (rt_checks chain mode gs) = true ->
  Forall (fun p => both_many p = true -> f (match mode with MDown => fst p | _ => snd p end) = true) gs.
Proof.
  intros Hc H. unfold rt_checks in H. destruct chain.
  - apply Forall_forall. intros p Hp M. rewrite forallb_forall in H. destruct mode; apply H; apply in_map, filter_In; auto.
  - specialize (Hc eq_refl). apply Forall_forall. intros p Hp M. rewrite Forall_forall in Hc. rewrite Hc in M by exact Hp. discriminate.
Qed.

Definition good_shapes (l r : list nat) : Prop :=
  Forall (fun d => 0 < d) l /\ Forall (fun d => 0 < d) r /\ prod l = prod r.

Lemma rt_groups_spec l r gs : good_shapes l r -> rt_groups l r = Some gs -> gpairs l r gs.
Proof.
  intros (P1 & P2 & PE) H. unfold rt_groups in H. destruct l as [|d l]; [discriminate|]. destruct r as [|e r]; [discriminate|].
  destruct (reshape_mapping_correct (d :: l) (e :: r)) as (ml & mr & nl & nr & E & C1 & C2 & F & _); auto; [split; discriminate|].
  rewrite E in H. inversion H; subst. 
  assert (map fst (combine ml mr) = ml /\ map snd (combine ml mr) = mr) as [M1 M2].
  { clear - F. induction F; cbn; [auto|]. destruct IHF as [-> ->]. auto. }
  unfold gpairs. rewrite M1, M2. split; [exact C1|]. split; [exact C2|].
  clear - F. induction F; cbn; constructor; auto.
Qed.

Lemma inv_inv n q : is_perm n q -> inv_perm (inv_perm q) = q.
Proof.
  intro Pq. pose proof (inv_perm_is_perm _ _ Pq) as Pi. pose proof (is_perm_length _ _ Pq) as Lq.
  apply list_eq_nth; [rewrite !inv_perm_length; reflexivity|]. intros k Hk. rewrite !inv_perm_length in Hk.
  rewrite inv_perm_nth by (rewrite inv_perm_length; exact Hk).
  assert (nth k q 0 < length q) as B by (rewrite Lq; pose proof (is_perm_Forall _ _ Pq) as F; rewrite Forall_forall in F; apply F, nth_In; exact Hk).
  assert (nth (nth k q 0) (inv_perm q) 0 = k) as E1 by (rewrite inv_perm_nth by exact B; apply find_pos_nth; [exact (is_perm_NoDup _ _ Pq)|exact Hk]).
  rewrite <- E1 at 1. apply find_pos_nth; [exact (is_perm_NoDup _ _ Pi)|rewrite inv_perm_length; exact B].
Qed.

Lemma transpose_inv_l {A} n p (x : tensor A) : is_perm n p -> length (tshape x) = n -> teq (transpose (inv_perm p) (transpose p x)) x.
Proof.
  intros Hp L. pose proof (pt_back n (inv_perm p) x (transpose p x) (inv_perm_is_perm _ _ Hp) L) as PB.
  apply PB.
  - cbn. rewrite (pt_inv_inv n) by (apply inv_perm_is_perm; exact Hp). rewrite (inv_inv n) by exact Hp. reflexivity.
  - intros i Li _. rewrite (pt_inv_inv n) by (apply inv_perm_is_perm; exact Hp). rewrite (inv_inv n) by exact Hp.
    apply (transpose_get p x i n); auto.
Qed.

Lemma rt_scan_of l r gs m : rt_groups l r = Some gs -> rt_mode l r = Some m ->
  exists m0 c, rt_scan gs MNone false = (m0, c) /\ m0 <> MBad /\ (m = MDown -> m0 <> MUp) /\ (m = MUp -> m0 <> MDown) /\ (m = MDown \/ m = MUp).
Proof.
  intros G H. unfold rt_mode in H. rewrite G in H. cbn [obind] in H. destruct (rt_scan gs MNone false) as [m0 c]. exists m0, c.
  cbn [fst] in H. split; [reflexivity|]. destruct m0; inversion H; subst; repeat split; try congruence; auto.
Qed.

Lemma gpairs_ne l r gs : gpairs l r gs -> Forall (fun p => fst p <> [] /\ snd p <> []) gs.
Proof. intros (_ & _ & H). eapply Forall_impl; [|exact H]. intros p (? & ? & ?). auto. Qed.

Lemma rt_down {A} (t : tensor A) r perm pre sh post : good_shapes (tshape t) r -> rt_mode (tshape t) r = Some MDown ->
  is_perm (length (tshape t)) perm -> rt_plan (tshape t) r perm = Some (pre, sh, post) ->
  (forall x : tensor A, length (tshape x) = length (tshape t) -> teq (transpose pre (transpose perm x)) x) /\
  teq (transpose post (reshape sh (transpose pre t))) (reshape r t).
Proof.
  intros GS HM HP H. unfold rt_plan in H. destruct (rt_groups (tshape t) r) as [gs|] eqn:EG; [|discriminate]. cbn [obind] in H.
  rewrite HM in H. cbn [obind] in H. pose proof (rt_groups_spec _ _ _ GS EG) as GP. pose proof (gpairs_ne _ _ _ GP) as NE.
  destruct (rt_scan_of _ _ _ _ EG HM) as (m0 & c & ES & NB & ND & _ & _). rewrite ES in H. cbn [snd] in H.
  destruct (rt_scan_spec gs MNone false m0 c ES NB ltac:(discriminate) NE) as (_ & _ & _ & CF & KD & _).
  destruct (forallb (rt_consecutive MDown perm) (rt_checks c MDown gs)) eqn:EC; [|discriminate].
  pose proof (checks_all _ _ _ _ CF EC) as HC. rewrite (expand_flat _ _ CF) in H.
  destruct GP as (G1 & G2 & G3). rewrite (argsort_inv_perm _ _ HP) in H.
  destruct (plan_side (length (tshape t)) gs perm) as (gs' & PG & EI & ECG); auto.
  { eapply Forall_impl; [|exact NE]. cbn. tauto. }
  rewrite ECG in H. cbn [obind] in H. inversion H; subst pre sh post. split.
  - intros x Lx. apply (transpose_inv_l (length (tshape t))); auto.
  - rewrite <- EI. apply (groups_move t r gs gs'); [split; [exact G1|split; auto]|exact PG|]. apply GS.
Qed.

Lemma rt_up {A} (t : tensor A) r perm pre sh post : good_shapes (tshape t) r -> rt_mode (tshape t) r = Some MUp ->
  is_perm (length r) perm -> rt_plan (tshape t) r perm = Some (pre, sh, post) ->
  (forall y : tensor A, length (tshape y) = length r -> teq (transpose perm (transpose post y)) y) /\
  teq (transpose post (reshape sh (transpose pre t))) (reshape r t).
Proof.
  intros GS HM HP H. unfold rt_plan in H. destruct (rt_groups (tshape t) r) as [gs|] eqn:EG; [|discriminate]. cbn [obind] in H.
  rewrite HM in H. cbn [obind] in H. pose proof (rt_groups_spec _ _ _ GS EG) as GP. pose proof (gpairs_ne _ _ _ GP) as NE.
  destruct (rt_scan_of _ _ _ _ EG HM) as (m0 & c & ES & NB & _ & NU & _). rewrite ES in H. cbn [snd] in H.
  destruct (rt_scan_spec gs MNone false m0 c ES NB ltac:(discriminate) NE) as (_ & _ & _ & CF & _ & KD).
  destruct (forallb (rt_consecutive MUp perm) (rt_checks c MUp gs)) eqn:EC; [|discriminate].
  pose proof (checks_all _ _ _ _ CF EC) as HC. rewrite (expand_flat _ _ CF) in H.
  change (fun p : list nat * list nat => (snd p, fst p)) with flip2 in H. rewrite flip_expand in H.
  destruct GP as (G1 & G2 & G3). pose proof (inv_perm_is_perm _ _ HP) as HPi. rewrite (argsort_inv_perm _ _ HP) in H.
  destruct (plan_side (length r) (map flip2 gs) (inv_perm perm)) as (gs2 & PG & EI & ECG); auto.
  { rewrite map_map. cbn. exact G2. }
  { apply Forall_map. eapply Forall_impl; [|exact NE]. cbn. tauto. }
  { apply Forall_map. apply KD, NU. reflexivity. }
  { apply Forall_map. eapply Forall_impl; [|exact HC]. cbn beta. intros p Hp M. unfold rt_consecutive in Hp. rewrite (argsort_inv_perm _ _ HP) in Hp.
    apply Hp. unfold both_many, flip2 in *. cbn [fst snd] in *. rewrite andb_comm. exact M. }
  rewrite (inv_inv _ _ HP) in ECG, EI. rewrite ECG in H. cbn [obind] in H. inversion H; subst pre sh post. split.
  - intros y Ly. rewrite <- (inv_inv _ _ HP) at 1. apply (transpose_inv_l (length r)); auto.
  - rewrite (argsort_inv_perm _ _ HPi), (inv_inv _ _ HP).
    assert (exists gs', Permutation gs' gs /\ gs2 = map flip2 gs') as (gs' & PG' & ->).
    { exists (map flip2 gs2). assert (forall l, map flip2 (map flip2 l) = l) as FF.
      { intros l. rewrite map_map. rewrite <- map_id. apply map_ext. intros [a b]. reflexivity. }
      split; [|rewrite FF; reflexivity]. rewrite <- (FF gs). apply Permutation_map. exact PG. }
    rewrite map_map in EI. rewrite map_map. cbn [flip2 snd fst] in *.
    change (map (fun x => fst x) gs') with (map fst gs'). change (map (fun x => snd x) gs') with (map snd gs') in EI.
    rewrite <- (argsort_inv_perm _ _ HP). rewrite <- EI.
    apply (groups_move t r gs gs'); [split; [exact G1|split; auto]|exact PG'|]. apply GS.
Qed.

(** groups with several axes on both sides are the only reason to refuse *)
Lemma rt_defined l r perm gs m : good_shapes l r -> rt_groups l r = Some gs -> rt_mode l r = Some m ->
  is_perm (match m with MDown => length l | _ => length r end) perm -> Forall (fun p => both_many p = false) gs ->
  rt_plan l r perm <> None.
Proof.
  intros GS EG HM HP HB. unfold rt_plan. rewrite EG, HM. cbn [obind].
  pose proof (rt_groups_spec _ _ _ GS EG) as GP. pose proof (gpairs_ne _ _ _ GP) as NE.
  destruct (rt_scan_of _ _ _ _ EG HM) as (m0 & c & ES & NB & ND & NU & MM). rewrite ES. cbn [snd].
  destruct (rt_scan_spec gs MNone false m0 c ES NB ltac:(discriminate) NE) as (_ & _ & _ & CF & KD & KU).
  assert (rt_checks c m gs = []) as ->.
  { unfold rt_checks. destruct c; [|reflexivity]. assert (filter both_many gs = []) as ->; [|reflexivity].
    clear - HB. induction HB as [|p gs Hp _ IH]; [reflexivity|]. cbn. rewrite Hp. exact IH. }
  cbn [forallb]. rewrite (expand_flat _ _ CF). destruct GP as (G1 & G2 & G3).
  assert (forall q (l : list (list nat * list nat)), Forall (fun p => both_many p = false) l ->
    Forall (fun p => both_many p = true -> zlist_eqb (normalized (fst p)) (normalized (sel q (fst p))) = true) l) as Triv.
  { intros q k Hk. eapply Forall_impl; [|exact Hk]. cbn. intros p E1 E2. congruence. }
  destruct MM as [-> | ->].
  - rewrite (argsort_inv_perm _ _ HP).
    destruct (plan_side (length l) gs perm) as (gs' & PG & EI & ECG); auto.
    { eapply Forall_impl; [|exact NE]. cbn. tauto. }
    rewrite ECG. discriminate.
  - change (fun p : list nat * list nat => (snd p, fst p)) with flip2. rewrite flip_expand.
    pose proof (inv_perm_is_perm _ _ HP) as HPi.
    destruct (plan_side (length r) (map flip2 gs) (inv_perm perm)) as (gs2 & PG & EI & ECG); auto.
    { rewrite map_map. cbn. exact G2. }
    { apply Forall_map. eapply Forall_impl; [|exact NE]. cbn. tauto. }
    { apply Forall_map. apply KU, NU. reflexivity. }
    { apply Triv. apply Forall_map. eapply Forall_impl; [|exact HB]. intros p Hp. unfold both_many, flip2 in *. cbn [fst snd] in *. rewrite andb_comm. exact Hp. }
    rewrite (inv_inv _ _ HP) in ECG. rewrite ECG. discriminate.
Qed.
