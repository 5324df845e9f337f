From Coq Require Import List Arith Bool Lia.
From Verif Require Import OutTransModel OutTransSpec OutTransProofs BranchModel BranchSpec BranchProofs HalfModel HalfProofs InTransModel InTransSpec.
Import ListNotations.

Lemma ren_same t m : it_ren t m t = m.
Proof. unfold it_ren. now rewrite Nat.eqb_refl. Qed.
Lemma ren_other t m x : x <> t -> it_ren t m x = x.
Proof. intros H. unfold it_ren. apply Nat.eqb_neq in H. now rewrite H. Qed.
Lemma ren_none t m l : ~ In t l -> map (it_ren t m) l = l.
Proof. intros H. rewrite <- (map_id l) at 2. apply map_ext_in. intros x X. apply ren_other. intros ->. contradiction. Qed.
Lemma ren_twice t m l : t <> m -> map (it_ren t m) (map (it_ren t m) l) = map (it_ren t m) l.
Proof. intros H. apply ren_none. intros X. apply in_map_iff in X. destruct X as (x & E & _). unfold it_ren in E. destruct (x =? t) eqn:Q; [congruence|]. apply Nat.eqb_neq in Q. congruence. Qed.
Lemma count_ren_old t m l : t <> m -> count_occ Nat.eq_dec (map (it_ren t m) l) t = 0.
Proof. intros H. apply count_occ_not_In. intros X. apply in_map_iff in X. destruct X as (x & E & _). unfold it_ren in E. destruct (x =? t) eqn:Q; [congruence|]. apply Nat.eqb_neq in Q. congruence. Qed.
Lemma count_ren_new t m : forall l, ~ In m l -> count_occ Nat.eq_dec (map (it_ren t m) l) m = count_occ Nat.eq_dec l t.
Proof.
  induction l as [|a l IH]; intros N; [reflexivity|]. cbn [map count_occ]. rewrite IH by (intros X; apply N; now right). unfold it_ren. destruct (a =? t) eqn:E.
  - apply Nat.eqb_eq in E. subst a. destruct (Nat.eq_dec m m), (Nat.eq_dec t t); congruence.
  - apply Nat.eqb_neq in E. destruct (Nat.eq_dec a m) as [->|]; [elim N; now left|]. destruct (Nat.eq_dec a t); congruence.
Qed.
Lemma count_ren_rest t m x : x <> t -> x <> m -> forall l, count_occ Nat.eq_dec (map (it_ren t m) l) x = count_occ Nat.eq_dec l x.
Proof.
  intros A B. induction l as [|a l IH]; [reflexivity|]. cbn [map count_occ]. rewrite IH. unfold it_ren. destruct (a =? t) eqn:E; [|reflexivity].
  apply Nat.eqb_eq in E. subst a. destruct (Nat.eq_dec m x), (Nat.eq_dec t x); congruence.
Qed.
Definition leaves (last m : nat) (e : oedge) : bool := (e_src e =? last) && negb (e_tgt e =? m).
Lemma ecount_cons' s d x e l : ecount s d x (e :: l) = (if (e_src e =? s) && (e_tgt e =? d) && (snd e =? x) then 1 else 0) + ecount s d x l.
Proof. unfold ecount, e_src, e_tgt. cbn [filter]. destruct (_ && _ && _); reflexivity. Qed.
Lemma ecount_stay last m s d x : forall l, ecount s d x (filter (fun e => negb (leaves last m e)) l) = if (s =? last) && negb (d =? m) then 0 else ecount s d x l.
Proof.
  induction l as [|e l IH]; [cbn; destruct (_ && _); reflexivity|]. cbn [filter]. rewrite ecount_cons'. unfold leaves at 1.
  destruct (Nat.eq_dec (e_src e) s) as [ES|ES]; [destruct (Nat.eq_dec (e_tgt e) d) as [ED|ED]|].
  - rewrite ES, ED, !Nat.eqb_refl. destruct ((s =? last) && negb (d =? m)) eqn:Q; cbn [negb]; [exact IH|]. rewrite ecount_cons', ES, ED, !Nat.eqb_refl, IH. reflexivity.
  - apply Nat.eqb_neq in ED. assert (Z : (e_src e =? s) && (e_tgt e =? d) && (snd e =? x) = false) by (rewrite ED; now rewrite andb_false_r). rewrite Z. cbn [plus].
    destruct (negb ((e_src e =? last) && negb (e_tgt e =? m))); [rewrite ecount_cons', Z|]; exact IH.
  - apply Nat.eqb_neq in ES. assert (Z : (e_src e =? s) && (e_tgt e =? d) && (snd e =? x) = false) by (now rewrite ES). rewrite Z. cbn [plus].
    destruct (negb ((e_src e =? last) && negb (e_tgt e =? m))); [rewrite ecount_cons', Z|]; exact IH.
Qed.
Lemma count_leave last m t d : forall l, (forall e, In e l -> e_src e = last -> snd e = t) ->
  count_occ Nat.eq_dec (map e_tgt (filter (leaves last m) l)) d = if d =? m then 0 else ecount last d t l.
Proof.
  induction l as [|e l IH]; intros H; [cbn; destruct (d =? m); reflexivity|]. specialize (IH (fun a A => H a (or_intror A))). cbn [filter]. rewrite ecount_cons'. unfold leaves at 1.
  destruct (e_src e =? last) eqn:ES; cbn [andb]; [|exact IH]. apply Nat.eqb_eq in ES. assert (X := H e (or_introl eq_refl) ES). rewrite X, Nat.eqb_refl, andb_true_r.
  destruct (e_tgt e =? m) eqn:EM; cbn [negb].
  - apply Nat.eqb_eq in EM. rewrite IH. destruct (d =? m) eqn:DM; [reflexivity|]. apply Nat.eqb_neq in DM. destruct (e_tgt e =? d) eqn:Q; [apply Nat.eqb_eq in Q; congruence|reflexivity].
  - cbn [map count_occ]. rewrite IH. apply Nat.eqb_neq in EM. destruct (Nat.eq_dec (e_tgt e) d) as [<-|D].
    + rewrite Nat.eqb_refl. apply Nat.eqb_neq in EM. rewrite EM. reflexivity.
    + apply Nat.eqb_neq in D. rewrite D. reflexivity.
Qed.

(** all the readers of [x] but [m] read [m] instead *)
Lemma red_ok g g' last x m trp ins : b_wf g -> b_consistent g -> In last (bids g) -> bout (bn g last) = [x] -> In m (bids g) -> bn g m = mkBN (BOp trp) ins [m] -> m <> x -> m <> last ->
  (forall r, In r (bids g) -> ~ In m (bin (bn g r))) ->
  bids g' = bids g -> bprod g' = bprod g -> bnext g' = bnext g ->
  (forall r, In r (bids g) -> bn g' r = if r =? m then bn g r else mkBN (bk (bn g r)) (map (it_ren x m) (bin (bn g r))) (bout (bn g r))) ->
  bed g' = filter (fun e => negb (leaves last m e)) (bed g) ++ map (fun d => (m, d, m)) (map e_tgt (filter (leaves last m) (bed g))) ->
  b_wf g' /\ b_consistent g'.
Proof.
  intros [ND W] C L LX M MB MX ML NR E1 E2 E3 BN ED.
  destruct (W last L) as (_ & _ & WL & _). destruct (WL x) as [XL XP]; [rewrite LX; now left|].
  destruct (W m M) as (_ & _ & WM & _). destruct (WM m) as [MLT MP]; [rewrite MB; now left|].
  assert (BO : forall r, In r (bids g) -> bout (bn g' r) = bout (bn g r) /\ bk (bn g' r) = bk (bn g r)) by (intros r R; rewrite BN by exact R; destruct (r =? m); split; reflexivity).
  split.
  - split; [now rewrite E1|]. intros r R. rewrite E1 in R. destruct (BO r R) as [B1 B2]. rewrite B1, B2, E1, E2, E3. destruct (W r R) as (A1 & A2 & A3 & A4). split; [exact A1|]. split; [|split; [exact A3|]].
    + intros t T. assert (Q : t = m \/ In t (bin (bn g r))).
      { rewrite BN in T by exact R. destruct (r =? m); [now right|]. cbn [bin] in T. apply in_map_iff in T. destruct T as (y & E & Y). unfold it_ren in E. destruct (y =? x); [now left|right; congruence]. }
      destruct Q as [->|Q].
      * rewrite MP. split; [exact MLT|]. split; [exact M|]. rewrite (proj1 (BO m M)), MB. now left.
      * destruct (A2 t Q) as (X1 & X2 & X3). split; [exact X1|]. split; [exact X2|]. rewrite (proj1 (BO _ X2)). exact X3.
    + intros f F. destruct (A4 f F) as (u & t & X1 & X2). rewrite BN by exact R. destruct (r =? m) eqn:RM; [apply Nat.eqb_eq in RM; subst r; rewrite MB in F; discriminate|].
      cbn [bin]. rewrite X1. exists (it_ren x m u), t. split; [reflexivity|exact X2].
  - assert (LAB : forall e, In e (bed g) -> e_src e = last -> snd e = x).
    { intros [[s d] t] I S. unfold e_src in S. cbn [fst snd] in *. subst s. apply (edge_iff g last d t C) in I. destruct I as (I1 & I2 & I3). destruct (W d I2) as (_ & Y & _).
      destruct (Y t I3) as (_ & _ & Y3). rewrite <- I1, LX in Y3. destruct Y3 as [Y3|[]]. now symmetry. }
    intros s d t. rewrite ED, ecount_app, ecount_stay, ecount_map, (count_leave last m x d _ LAB), (C s d t), (C last d x), E1, E2, XP, Nat.eqb_refl. cbn [andb].
    destruct (o_mem d (bids g)) eqn:D; [|rewrite !andb_false_r; destruct (_ && _), (_ && _), (d =? m); reflexivity]. rewrite !andb_true_r. apply o_mem_In in D. rewrite (BN d D).
    destruct (d =? m) eqn:DM.
    + rewrite andb_false_r. destruct ((s =? m) && (t =? m)); lia.
    + cbn [negb bin]. rewrite andb_true_r.
      destruct (Nat.eq_dec t m) as [->|TM]; [|destruct (Nat.eq_dec t x) as [->|TX]].
      * rewrite MP, Nat.eqb_refl, andb_true_r, count_ren_new by (apply NR, D). rewrite (proj1 (count_occ_not_In Nat.eq_dec _ m) (NR d D)).
        destruct (s =? m), (s =? last); reflexivity.
      * rewrite XP, count_ren_old by auto. destruct (s =? last); destruct (_ && _) eqn:Q; try reflexivity; rewrite andb_true_iff, !Nat.eqb_eq in Q; lia.
      * rewrite count_ren_rest by auto. apply Nat.eqb_neq in TM. rewrite TM, andb_false_r, Nat.add_0_r. destruct (s =? last) eqn:SL; [|reflexivity]. apply Nat.eqb_eq in SL. subst s.
        destruct (last =? bprod g t) eqn:Q; [|reflexivity]. apply Nat.eqb_eq in Q. symmetry. apply count_occ_not_In. intros I. apply TX.
        destruct (W d D) as (_ & Y & _). destruct (Y t I) as (_ & _ & Y3). rewrite <- Q, LX in Y3. destruct Y3 as [Y3|[]]. now symmetry.
Qed.

(** the loop over the edges *)
Lemma connect_ok x m : x <> m -> forall es g, (forall e, In e es -> e_tgt e <> m -> bk (bn g (e_tgt e)) <> BOut /\ snd e = x) ->
  let ds := map e_tgt (filter (fun e => negb (e_tgt e =? m)) es) in
  exists g', it_connect x m es g = Some g' /\ bids g' = bids g /\ bprod g' = bprod g /\ bnext g' = bnext g /\ bed g' = bed g ++ map (fun d => (m, d, m)) ds /\
    forall r, bn g' r = if o_mem r ds then mkBN (bk (bn g r)) (map (it_ren x m) (bin (bn g r))) (bout (bn g r)) else bn g r.
Proof.
  intros XM. induction es as [|e es IH]; intros g H ds.
  - exists g. cbn. rewrite app_nil_r. do 5 (split; [reflexivity|]). reflexivity.
  - cbn [it_connect]. destruct (e_tgt e =? m) eqn:EM.
    + destruct (IH g (fun a A => H a (or_intror A))) as (g' & X). exists g'. unfold ds. cbn [filter]. rewrite EM. exact X.
    + apply Nat.eqb_neq in EM. destruct (H e (or_introl eq_refl) EM) as [K S].
      assert (KB : is_bout (bk (bn g (e_tgt e))) = false) by (destruct (bk (bn g (e_tgt e))); try reflexivity; congruence). rewrite KB, S, Nat.eqb_refl. cbn [negb].
      set (d := e_tgt e) in *. set (g1 := mkBG _ _ _ _ _).
      destruct (IH g1) as (g' & X1 & X2 & X3 & X4 & X5 & X6).
      { intros a A AM. destruct (H a (or_intror A) AM) as [K2 S2]. split; [|exact S2]. unfold g1. cbn [bn]. unfold o_upd. destruct (e_tgt a =? d) eqn:Q; [|exact K2]. cbn [bk]. exact K. }
      exists g'. split; [exact X1|]. split; [exact X2|]. split; [exact X3|]. split; [exact X4|].
      assert (DS : ds = d :: map e_tgt (filter (fun e => negb (e_tgt e =? m)) es)).
      { unfold ds. cbn [filter]. fold d. apply Nat.eqb_neq in EM. rewrite EM. reflexivity. }
      rewrite DS. split; [rewrite X5; cbn [g1 bed map]; now rewrite <- app_assoc|]. intros r. rewrite X6. unfold o_mem at 2. cbn [existsb]. fold (o_mem r (map e_tgt (filter (fun e => negb (e_tgt e =? m)) es))).
      unfold g1. cbn [bn]. unfold o_upd. destruct (r =? d) eqn:RD; cbn [orb].
      * apply Nat.eqb_eq in RD. subst r. cbn [bk bin bout]. rewrite ren_twice by exact XM. destruct (o_mem _ _); reflexivity.
      * reflexivity.
Qed.

(** the graph without the collected edges *)
Definition eff (g : bg) (rem : list nat) : bg := mkBG (bn g) (bids g) (remove_pos rem (bed g)) (bprod g) (bnext g).
Definition untouched (g : bg) (rem : list nat) (n : nat) : Prop := forall i e, In (i, e) (combine (seq 0 (length (bed g))) (bed g)) -> In i rem -> e_src e <> n.
Lemma out_ilive g rem n : untouched g rem n -> it_out g n = filter (fun ie => e_src (snd ie) =? n) (ilive rem (bed g)).
Proof.
  unfold untouched, it_out, ilive. generalize (combine (seq 0 (length (bed g))) (bed g)). induction l as [|[i e] l IH]; intros H; [reflexivity|]. cbn [filter fst snd].
  rewrite IH by (intros; eapply H; [right; eassumption|assumption]). destruct (o_mem i rem) eqn:Q; cbn [negb].
  - destruct (e_src e =? n) eqn:E; [|reflexivity]. apply Nat.eqb_eq in E. apply o_mem_In in Q. elim (H i e (or_introl eq_refl) Q E).
  - cbn [filter snd]. reflexivity.
Qed.
Lemma map_snd_filter {A B} (p : B -> bool) : forall l : list (A * B), map snd (filter (fun ie => p (snd ie)) l) = filter p (map snd l).
Proof. induction l as [|a l IH]; [reflexivity|]. cbn. destruct (p (snd a)); cbn; now rewrite IH. Qed.
Lemma out_snd g n : map snd (it_out g n) = filter (fun e => e_src e =? n) (bed g).
Proof. unfold it_out. rewrite (map_snd_filter (fun e => e_src e =? n)), map_snd_combine by apply seq_length. reflexivity. Qed.
Lemma out_eff g rem n : untouched g rem n -> map snd (it_out g n) = filter (fun e => e_src e =? n) (bed (eff g rem)).
Proof. intros U. rewrite (out_ilive g rem n U), (map_snd_filter (fun e => e_src e =? n)). reflexivity. Qed.
Lemma next_snd isq g n : it_next isq g n = match map snd (it_out g n) with [e] => if is_quantize isq (bk (bn g (e_tgt e))) then Some (e_tgt e) else None | _ => None end.
Proof. unfold it_next. destruct (it_out g n) as [|a [|b l]]; reflexivity. Qed.
Lemma next_eff isq g rem n : untouched g rem n -> it_next isq g n = it_next isq (eff g rem) n.
Proof. intros U. rewrite !next_snd, (out_eff g rem n U), out_snd. reflexivity. Qed.
Lemma filter_filter {A} (p q : A -> bool) : forall l, filter p (filter q l) = filter (fun x => q x && p x) l.
Proof. induction l as [|a l IH]; [reflexivity|]. cbn. destruct (q a); cbn; [destruct (p a)|]; now rewrite IH. Qed.
Lemma untouched_app g rem n new g' : (forall i, In i rem -> i < length (bed g)) -> bed g' = bed g ++ new -> untouched g rem n -> untouched g' rem n.
Proof.
  intros B E U i e I R. unfold untouched in U. rewrite E, app_length, seq_app, combine_app in I by apply seq_length. apply in_app_or in I. destruct I as [I|I]; [exact (U i e I R)|].
  apply in_combine_l, in_seq in I. apply B in R. lia.
Qed.
(** what one step does, seen on the graph without the collected edges *)
Lemma step_eff isq trp g rem t : let n := bprod g t in bk (bn g n) = BIn -> (forall i, In i rem -> i < length (bed g)) -> untouched g rem n ->
  let last := match it_next isq (eff g rem) n with Some r => r | None => n end in untouched g rem last -> last < bnext g ->
  let x := nth 0 (bout (bn g last)) 0 in let c := bnext g in let m := S c in x < c ->
  let e1 := h_node (h_node (eff g rem) BConst []) (BOp trp) [x; c] in
  (forall d y, In (last, d, y) (bed e1) -> d <> m -> bk (bn e1 d) <> BOut /\ y = x) ->
  exists g2 rem2, it_step isq trp (g, rem) t = Some (g2, rem2) /\ (forall i, In i rem2 -> i < length (bed g2)) /\
    bids g2 = bids e1 /\ bprod g2 = bprod e1 /\ bnext g2 = bnext e1 /\
    (forall r, bn g2 r = if o_mem r (map e_tgt (filter (leaves last m) (bed e1))) then mkBN (bk (bn e1 r)) (map (it_ren x m) (bin (bn e1 r))) (bout (bn e1 r)) else bn e1 r) /\
    bed (eff g2 rem2) = filter (fun e => negb (leaves last m e)) (bed e1) ++ map (fun d => (m, d, m)) (map e_tgt (filter (leaves last m) (bed e1))) /\
    (forall n', n' <> last -> untouched g rem n' -> untouched g2 rem2 n').
Proof.
  intros n K B U last UL LL x c m XC e1 H. set (g1 := h_node (h_node g BConst []) (BOp trp) [x; c]).
  set (new := [(bprod (h_node g BConst []) x, m, x); (bprod (h_node g BConst []) c, m, c)] : list oedge).
  assert (G1 : bed g1 = bed g ++ new) by (cbn; now rewrite app_nil_r).
  assert (EE : e1 = eff g1 rem).
  { unfold eff. rewrite G1, live_app by exact B. unfold e1, g1, eff, h_node. cbn [bn bids bed bprod bnext map]. now rewrite app_nil_r. }
  assert (U1 : untouched g1 rem last) by (exact (untouched_app g rem last new g1 B G1 UL)).
  assert (ES : map snd (it_out g1 last) = filter (fun e => e_src e =? last) (bed e1)) by (rewrite EE; apply out_eff, U1).
  assert (BN1 : bn g1 = bn e1) by (rewrite EE; reflexivity).
  destruct (connect_ok x m ltac:(unfold m; lia) (map snd (it_out g1 last)) g1) as (g2 & X1 & X2 & X3 & X4 & X5 & X6).
  { rewrite ES, BN1. intros [[s d] y] I D. apply filter_In in I. destruct I as [I S]. unfold e_src, e_tgt in *. cbn [fst snd] in *. apply Nat.eqb_eq in S. subst s. exact (H d y I D). }
  assert (DS : map e_tgt (filter (fun e => negb (e_tgt e =? m)) (map snd (it_out g1 last))) = map e_tgt (filter (leaves last m) (bed e1))) by (rewrite ES, filter_filter; reflexivity).
  rewrite DS in X5, X6. set (ds := map e_tgt (filter (leaves last m) (bed e1))) in *.
  assert (B1 : forall i, In i rem -> i < length (bed g1)) by (intros i I; rewrite G1, app_length; apply B in I; lia).
  assert (U2 : untouched g2 rem last) by (exact (untouched_app g1 rem last _ g2 B1 X5 U1)).
  exists g2, (rem ++ map fst (filter (fun ie => negb (e_tgt (snd ie) =? m)) (it_out g2 last))). split; [|split; [|split; [|split; [|split; [|split; [|split]]]]]].
  - unfold it_step. fold n. rewrite K. rewrite (next_eff isq g rem n U). fold last. fold x c m g1. rewrite X1. reflexivity.
  - intros i I. apply in_app_or in I. destruct I as [I|I]; [rewrite X5, app_length; apply B1 in I; lia|]. apply in_map_iff in I. destruct I as ([j e] & <- & I). apply filter_In in I. destruct I as [I _].
    unfold it_out in I. apply filter_In in I. destruct I as [I _]. apply in_combine_l, in_seq in I. cbn. lia.
  - rewrite X2, EE. reflexivity.
  - rewrite X3, EE. reflexivity.
  - rewrite X4, EE. reflexivity.
  - intros r. rewrite X6, BN1. reflexivity.
  - cbn [eff bed]. rewrite (out_ilive g2 rem last U2). unfold remove_pos at 1.
    rewrite (filter_filter (fun ie : nat * oedge => negb (e_tgt (snd ie) =? m))). change (fun x0 : nat * oedge => (e_src (snd x0) =? last) && negb (e_tgt (snd x0) =? m)) with (fun ie : nat * oedge => leaves last m (snd ie)).
    rewrite ilive_more, (map_snd_filter (fun e => negb (leaves last m e))). fold (remove_pos rem (bed g2)). rewrite X5, live_app by exact B1. rewrite filter_app.
    change (remove_pos rem (bed g1)) with (bed (eff g1 rem)). rewrite <- EE. f_equal. apply filter_all. intros e I. apply in_map_iff in I. destruct I as (d & <- & _). unfold leaves, e_src. cbn [fst].
    destruct (m =? last) eqn:Q; [apply Nat.eqb_eq in Q; unfold m, c in Q; lia|reflexivity].
  - intros n' NL UN i e I R. apply in_app_or in R. destruct R as [R|R].
    + assert (Q : untouched g2 rem n') by (apply (untouched_app g1 rem n' _ g2 B1 X5), (untouched_app g rem n' new g1 B G1), UN). exact (Q i e I R).
    + apply in_map_iff in R. destruct R as ([j e'] & E & R). cbn in E. subst j. apply filter_In in R. destruct R as [R _]. unfold it_out in R. apply filter_In in R. destruct R as [R S]. apply Nat.eqb_eq in S. cbn [snd] in S.
      assert (Q := nodup_fst_inj _ (i, e) (i, e') ltac:(rewrite map_fst_combine by apply seq_length; apply seq_NoDup) I R eq_refl). injection Q as ->. congruence.
Qed.

Lemma singles {A} (e : A) : forall l, (forall a, In a l -> a = e) -> length l = 1 -> l = [e].
Proof. intros [|a [|b l]] H L; try discriminate L. now rewrite (H a (or_introl eq_refl)). Qed.
Lemma next_spec isq g t : b_wf g -> b_consistent g -> quantize_ok isq g -> bn g (bprod g t) = mkBN BIn [] [t] ->
  match it_next isq g (bprod g t) with Some r => only_quantize isq g t r | None => forall r, ~ only_quantize isq g t r end.
Proof.
  intros [ND W] C Q B. set (n := bprod g t) in *. rewrite next_snd, out_snd. set (l := filter _ (bed g)).
  assert (IN : forall e, In e l <-> exists d, e = (n, d, t) /\ In d (bids g) /\ In t (bin (bn g d))).
  { intros [[s d] y]. unfold l. rewrite filter_In. unfold e_src. cbn [fst]. rewrite Nat.eqb_eq. split.
    - intros [I ->]. apply (edge_iff g n d y C) in I. destruct I as (I1 & I2 & I3). destruct (W d I2) as (_ & Y & _). destruct (Y y I3) as (_ & _ & Y3). rewrite <- I1, B in Y3. destruct Y3 as [<-|[]]. eauto.
    - intros (d' & E & I2 & I3). injection E as -> -> ->. split; [|reflexivity]. apply (edge_iff g n d' t C). auto. }
  assert (ONE : forall r, only_quantize isq g t r -> l = [(n, r, t)]).
  { intros r (R1 & (f & R2 & R3) & R4 & R5). apply singles.
    - intros e I. apply IN in I. destruct I as (d & -> & I1 & I2). now rewrite (R5 d I1 I2).
    - destruct (Q r f R1 R2 R3) as (u & y & Q1 & Q2). assert (EC := C n r t). fold n in EC. rewrite Nat.eqb_refl in EC. assert (M : o_mem r (bids g) = true) by now apply o_mem_In. rewrite M, Q1 in EC. cbn [andb] in EC.
      rewrite Q1 in R4. destruct R4 as [->|[]]. cbn [count_occ] in EC. destruct (Nat.eq_dec t t); [|congruence]. rewrite <- EC. unfold ecount, l. f_equal. apply filter_ext_in. intros [[s d] y'] I. unfold e_src. cbn [fst snd].
      destruct (s =? n) eqn:S; [|reflexivity]. apply Nat.eqb_eq in S. subst s. assert (X : In (n, d, y') l) by (apply filter_In; split; [exact I|unfold e_src; cbn; apply Nat.eqb_refl]).
      apply IN in X. destruct X as (d' & E & I1 & I2). injection E as -> ->. rewrite (R5 d' I1 I2), !Nat.eqb_refl. reflexivity. }
  assert (NONE : (forall r, ~ only_quantize isq g t r) \/ exists r, l = [(n, r, t)] /\ only_quantize isq g t r).
  { destruct l as [|[[s d] y] [|b l']] eqn:EL.
    - left. intros r R. discriminate (ONE r R).
    - assert (X : In (s, d, y) [(s, d, y)]) by now left. apply IN in X. destruct X as (d' & E & I1 & I2). injection E as -> -> ->. destruct (bk (bn g d')) eqn:K.
      4: destruct (isq f) eqn:F.
      4: { right. exists d'. split; [reflexivity|]. split; [exact I1|]. split; [eauto|]. split; [exact I2|]. intros r' R1 R2. assert (X : In (n, r', t) [(n, d', t)]) by (apply IN; eauto). destruct X as [X|[]]. congruence. }
      all: left; intros r R; assert (X := ONE r R); injection X as ->; destruct R as (_ & (f' & R2 & R3) & _); congruence.
    - left. intros r R. discriminate (ONE r R). }
  destruct NONE as [N|(r & E & R)].
  - destruct l as [|e [|b l']] eqn:EL; try exact N. destruct (is_quantize isq (bk (bn g (e_tgt e)))) eqn:IQ; [|exact N]. exfalso. apply (N (e_tgt e)).
    assert (X : In e [e]) by now left. apply IN in X. destruct X as (d & -> & I1 & I2). unfold e_tgt in *. cbn [fst snd] in *. split; [exact I1|]. split; [destruct (bk (bn g d)) as [| | |f|f]; try discriminate; eauto|]. split; [exact I2|].
    intros r' R1 R2. assert (X : In (n, r', t) [(n, d, t)]) by (apply IN; eauto). destruct X as [X|[]]. congruence.
  - rewrite E. unfold e_tgt. cbn [fst snd]. destruct R as (R1 & (f & R2 & R3) & R4). rewrite R2. cbn [is_quantize]. rewrite R3. split; [exact R1|]. split; [eauto|exact R4].
Qed.
Lemma only_unique isq g t r r' : only_quantize isq g t r -> only_quantize isq g t r' -> r = r'.
Proof. intros (A & _ & B & _) (_ & _ & _ & C). exact (C r A B). Qed.

Section Pass.
Context {V : Type} (den : nat -> list V -> list V) (isq : nat -> bool) (trp : nat) (tr itr : V -> V) (perm : V) (ns : list (nat * bool)) (g0 : bg) (v0 : nat -> V).
Hypothesis W0 : b_wf g0. Hypothesis C0 : b_consistent g0. Hypothesis Q0 : quantize_ok isq g0. Hypothesis F0 : flagged_ok g0 ns. Hypothesis NO : no_moved_output isq g0 ns.
Hypothesis TQ : isq trp = false.

Definition lastn (t : nat) : nat := match it_next isq g0 (bprod g0 t) with Some r => r | None => bprod g0 t end.
Definition lastt (t : nat) : nat := nth 0 (bout (bn g0 (lastn t))) 0.
Definition fl (t : nat) : Prop := In (t, true) ns.
Lemma last_cases t : fl t -> (lastn t = bprod g0 t /\ lastt t = t /\ forall r, ~ only_quantize isq g0 t r) \/
  (only_quantize isq g0 t (lastn t) /\ bn g0 (lastn t) = mkBN (bk (bn g0 (lastn t))) [t] [lastt t] /\ it_next isq g0 (bprod g0 t) = Some (lastn t)).
Proof.
  intros H. destruct (proj2 F0 t H) as (F1 & F2 & F3). assert (X := next_spec isq g0 t W0 C0 Q0 F3). unfold lastt, lastn. destruct (it_next isq g0 (bprod g0 t)) as [r|].
  - right. split; [exact X|]. split; [|reflexivity]. destruct X as (X1 & (f & X2 & X3) & X4 & _). destruct (Q0 r f X1 X2 X3) as (u & y & Y1 & Y2). rewrite Y1 in X4. destruct X4 as [->|[]].
    rewrite Y2. cbn [nth]. rewrite <- Y1, <- Y2. destruct (bn g0 r); reflexivity.
  - left. rewrite F3. split; [reflexivity|]. split; [reflexivity|exact X].
Qed.
Lemma last_node t : fl t -> In (lastn t) (bids g0) /\ bout (bn g0 (lastn t)) = [lastt t] /\ lastt t < bnext g0 /\ bprod g0 (lastt t) = lastn t.
Proof.
  intros H. destruct (proj2 F0 t H) as (F1 & F2 & F3). assert (X : In (lastn t) (bids g0) /\ bout (bn g0 (lastn t)) = [lastt t]).
  { destruct (last_cases t H) as [(-> & -> & _)|((A & _) & B & _)]; [split; [exact F2|now rewrite F3]|]. split; [exact A|]. now rewrite B. }
  destruct X as [X1 X2]. split; [exact X1|]. split; [exact X2|]. destruct W0 as [_ W]. destruct (W _ X1) as (_ & _ & Y & _). apply Y. rewrite X2. now left.
Qed.
Lemma kind_last t : fl t -> bk (bn g0 (lastn t)) = BIn -> lastt t = t.
Proof. intros H K. destruct (last_cases t H) as [(_ & E & _)|((_ & (f & X & _) & _) & _)]; [exact E|congruence]. Qed.
Lemma lastn_inj t t' : fl t -> fl t' -> lastn t = lastn t' -> t = t'.
Proof.
  intros H H' E. destruct (proj2 F0 t H) as (_ & _ & F), (proj2 F0 t' H') as (_ & _ & F'). destruct (last_cases t H) as [(A1 & A2 & _)|((_ & (f & A1 & _) & _) & A2 & _)], (last_cases t' H') as [(B1 & B2 & _)|((_ & (f' & B1 & _) & _) & B2 & _)].
  - rewrite <- A1, E, B1, F' in F. congruence.
  - rewrite <- A1, E in F. rewrite F in B1. discriminate.
  - rewrite <- B1, <- E in F'. rewrite F' in A1. discriminate.
  - rewrite <- E in B2. rewrite A2 in B2. congruence.
Qed.
Lemma lastt_inj t t' : fl t -> fl t' -> lastt t = lastt t' -> t = t'.
Proof. intros H H' E. apply lastn_inj; auto. destruct (last_node t H) as (_ & _ & _ & <-), (last_node t' H') as (_ & _ & _ & <-). now rewrite E. Qed.
Lemma flagged_last t t' : fl t -> fl t' -> t = lastt t' -> t = t'.
Proof.
  intros H H' E. destruct (last_node t' H') as (_ & _ & _ & P). rewrite <- E in P. destruct (proj2 F0 t H) as (_ & _ & F). rewrite P in F. rewrite E. apply kind_last; [exact H'|now rewrite F].
Qed.

Fixpoint rho (adds : list (nat * nat * nat)) (x : nat) : nat := match adds with [] => x | (_, m, y) :: adds => if x =? y then m else rho adds x end.
Record iinv (P : list nat) (g : bg) (rem : list nat) (adds : list (nat * nat * nat)) (w : nat -> V) : Prop := mkII {
  n_wf : b_wf (eff g rem); n_con : b_consistent (eff g rem);
  n_fl : NoDup P /\ forall t, In t P -> fl t;
  n_rem : forall i, In i rem -> i < length (bed g);
  n_src : forall n, ~ In n (map lastn P) -> untouched g rem n;
  n_old : forall r, In r (bids g0) -> In r (bids g) /\ bn g r = mkBN (bk (bn g0 r)) (map (rho adds) (bin (bn g0 r))) (bout (bn g0 r));
  n_new : forall r, In r (bids g) -> In r (bids g0) \/ (bnext g0 <= r /\ exists c m x, In (c, m, x) adds /\ ((r = c /\ bn g r = mkBN BConst [] [c]) \/ (r = m /\ bn g r = mkBN (BOp trp) [x; c] [m])));
  n_adds : map (fun a => snd a) adds = map lastt P;
  n_addv : forall c m x, In (c, m, x) adds -> bnext g0 <= c < bnext g /\ bnext g0 <= m < bnext g /\ bn g c = mkBN BConst [] [c] /\ w c = perm /\ w m = v0 x;
  n_next : bnext g0 <= bnext g; n_prod : forall t, t < bnext g0 -> bprod g t = bprod g0 t }.

Lemma rho_in adds x : In x (map (fun a : nat * nat * nat => snd a) adds) -> exists c m, In (c, m, x) adds /\ rho adds x = m.
Proof.
  induction adds as [|[[c m] y] adds IH]; intros H; [destruct H|]. cbn [rho]. destruct (x =? y) eqn:E.
  - apply Nat.eqb_eq in E. subst y. exists c, m. split; [now left|reflexivity].
  - apply Nat.eqb_neq in E. destruct H as [H|H]; [cbn in H; congruence|]. destruct (IH H) as (c' & m' & A & B). exists c', m'. split; [now right|exact B].
Qed.
Lemma rho_out adds x : ~ In x (map (fun a : nat * nat * nat => snd a) adds) -> rho adds x = x.
Proof. induction adds as [|[[c m] y] adds IH]; intros H; [reflexivity|]. cbn [rho]. destruct (x =? y) eqn:E; [apply Nat.eqb_eq in E; elim H; left; now symmetry|]. apply IH. intros X. apply H. now right. Qed.
Lemma rho_back P g rem adds w x y : iinv P g rem adds w -> rho adds x = y -> y < bnext g0 -> x = y /\ ~ In y (map lastt P).
Proof.
  intros I E L. destruct (in_dec Nat.eq_dec x (map (fun a => snd a) adds)) as [H|H].
  - apply rho_in in H. destruct H as (c & m & A & B). destruct (n_addv _ _ _ _ _ I c m x A) as (_ & X & _). lia.
  - rewrite rho_out in E by exact H. subst y. split; [reflexivity|]. rewrite <- (n_adds _ _ _ _ _ I). exact H.
Qed.
(** a tensor that is not done has the readers it had *)
Lemma readers P g rem adds w x r : iinv P g rem adds w -> x < bnext g0 -> ~ In x (map lastt P) -> (In r (bids g) /\ In x (bin (bn g r)) <-> In r (bids g0) /\ In x (bin (bn g0 r))).
Proof.
  intros I L N. split.
  - intros [R X]. destruct (n_new _ _ _ _ _ I r R) as [R0|(_ & c & m & y & A & [[-> B]|[-> B]])].
    + destruct (n_old _ _ _ _ _ I r R0) as [_ B]. rewrite B in X. cbn [bin] in X. apply in_map_iff in X. destruct X as (z & E & Z). apply (rho_back _ _ _ _ _ _ _ I) in E; [|exact L]. destruct E as [-> _]. auto.
    + rewrite B in X. destruct X.
    + rewrite B in X. destruct (n_addv _ _ _ _ _ I c m y A) as (X1 & _). destruct X as [X|[X|[]]]; [|lia]. elim N. rewrite <- (n_adds _ _ _ _ _ I). apply in_map_iff. exists (c, m, y). auto.
  - intros [R X]. destruct (n_old _ _ _ _ _ I r R) as [R1 B]. split; [exact R1|]. rewrite B. cbn [bin]. apply in_map_iff. exists x. split; [|exact X]. apply rho_out. now rewrite (n_adds _ _ _ _ _ I).
Qed.
Lemma only_same P g rem adds w t r : iinv P g rem adds w -> fl t -> ~ In t P -> (only_quantize isq (eff g rem) t r <-> only_quantize isq g0 t r).
Proof.
  intros I H N. assert (L : t < bnext g0) by apply (proj2 F0 t H).
  assert (NL : ~ In t (map lastt P)).
  { intros X. apply in_map_iff in X. destruct X as (t' & E & T'). assert (H' := proj2 (n_fl _ _ _ _ _ I) t' T'). rewrite (flagged_last t t' H H' (eq_sym E)) in N. contradiction. }
  assert (RD := fun r => readers P g rem adds w t r I L NL). unfold only_quantize. cbn [eff bids bn]. split.
  - intros (A & (f & B1 & B2) & C & D). destruct (proj1 (RD r) (conj A C)) as [A' C']. split; [exact A'|]. destruct (n_old _ _ _ _ _ I r A') as [_ E]. split; [exists f; split; [rewrite E in B1; exact B1|exact B2]|]. split; [exact C'|].
    intros r' R1 R2. destruct (proj2 (RD r') (conj R1 R2)) as [R3 R4]. exact (D r' R3 R4).
  - intros (A & (f & B1 & B2) & C & D). destruct (proj2 (RD r) (conj A C)) as [A' C']. split; [exact A'|]. destruct (n_old _ _ _ _ _ I r A) as [_ E]. split; [exists f; split; [rewrite E; exact B1|exact B2]|]. split; [exact C'|].
    intros r' R1 R2. destruct (proj1 (RD r') (conj R1 R2)) as [R3 R4]. exact (D r' R3 R4).
Qed.
Lemma quantize_eff P g rem adds w : iinv P g rem adds w -> quantize_ok isq (eff g rem).
Proof.
  intros I r f R K F. cbn [eff bids bn] in *. destruct (n_new _ _ _ _ _ I r R) as [R0|(_ & c & m & y & A & [[-> B]|[-> B]])].
  - destruct (n_old _ _ _ _ _ I r R0) as [_ B]. rewrite B in K |- *. cbn [bk bin bout] in *. destruct (Q0 r f R0 K F) as (u & x & X1 & X2). rewrite X1. exists (rho adds u), x. split; [reflexivity|exact X2].
  - rewrite B in K. discriminate.
  - rewrite B in K. injection K as <-. congruence.
Qed.
Lemma step_ok P g rem adds w t : iinv P g rem adds w -> fl t -> ~ In t P ->
  exists g' rem' adds' w', it_step isq trp (g, rem) t = Some (g', rem') /\ iinv (t :: P) g' rem' adds' w'.
Proof.
  intros I H N. destruct (proj2 F0 t H) as (L & F2 & F3). destruct (last_node t H) as (LN & LO & LL & LP).
  assert (PF := proj2 (n_fl _ _ _ _ _ I)).
  assert (PE : bprod g t = bprod g0 t) by (apply (n_prod _ _ _ _ _ I), L). set (n := bprod g0 t) in *.
  destruct (n_old _ _ _ _ _ I n F2) as [NG NB]. rewrite F3 in NB. cbn [bk bin bout map] in NB.
  assert (NN : ~ In n (map lastn P)).
  { intros X. apply in_map_iff in X. destruct X as (t' & E & T'). assert (H' := PF t' T'). assert (K : bk (bn g0 (lastn t')) = BIn) by (rewrite E, F3; reflexivity). apply kind_last in K; [|exact H'].
    destruct (last_node t' H') as (_ & X & _). rewrite E, F3, K in X. cbn in X. injection X as ->. contradiction. }
  assert (NLN : ~ In (lastn t) (map lastn P)).
  { intros X. apply in_map_iff in X. destruct X as (t' & E & T'). apply lastn_inj in E; [subst; contradiction|exact (PF t' T')|exact H]. }
  assert (NLT : ~ In (lastt t) (map lastt P)).
  { intros X. apply in_map_iff in X. destruct X as (t' & E & T'). apply lastt_inj in E; [subst; contradiction|exact (PF t' T')|exact H]. }
  assert (NEXT : it_next isq (eff g rem) n = it_next isq g0 n).
  { assert (X := next_spec isq (eff g rem) t (n_wf _ _ _ _ _ I) (n_con _ _ _ _ _ I) (quantize_eff _ _ _ _ _ I)). cbn [eff bprod bn] in X. rewrite PE in X. specialize (X NB).
    assert (Y := next_spec isq g0 t W0 C0 Q0 F3). fold n in Y. fold (eff g rem) in X.
    destruct (it_next isq (eff g rem) n) as [r|], (it_next isq g0 n) as [r'|]; try reflexivity.
    - apply (only_same _ _ _ _ _ _ _ I H N) in X. f_equal. exact (only_unique _ _ _ _ _ X Y).
    - apply (only_same _ _ _ _ _ _ _ I H N) in X. elim (Y r X).
    - apply (only_same _ _ _ _ _ _ _ I H N) in Y. elim (X r' Y). }
  assert (LAST : match it_next isq (eff g rem) n with Some r => r | None => n end = lastn t) by (rewrite NEXT; reflexivity).
  destruct (n_old _ _ _ _ _ I (lastn t) LN) as [LG LB].
  assert (LTX : nth 0 (bout (bn g (lastn t))) 0 = lastt t) by (rewrite LB; reflexivity).
  set (x := lastt t) in *. set (c := bnext g). set (m := S c). assert (NX := n_next _ _ _ _ _ I). fold c in NX.
  set (e1 := h_node (h_node (eff g rem) BConst []) (BOp trp) [x; c]).
  assert (MX : made (eff g rem) x).
  { unfold made. cbn [eff bprod bids bn bnext]. rewrite (n_prod _ _ _ _ _ I x LL), LP. split; [lia|]. split; [exact LG|]. rewrite LB. cbn [bout]. rewrite LO. now left. }
  destruct (node_struct (eff g rem) BConst [] (n_wf _ _ _ _ _ I) (n_con _ _ _ _ _ I) ltac:(discriminate) ltac:(intros u [])) as (A1 & A2 & A3 & A4).
  destruct (node_struct _ (BOp trp) [x; c] A1 A2 ltac:(discriminate) ltac:(intros u [<-|[<-|[]]]; [apply A3, MX|exact A4])) as (B1 & B2 & B3 & B4). fold e1 in B1, B2, B3, B4.
  change (bnext (h_node (eff g rem) BConst [])) with m in B4.
  assert (OLD : forall r, r < c -> bn e1 r = bn g r) by (intros r R; unfold e1; rewrite node_old by (cbn; fold c; lia); rewrite node_old by (cbn; fold c; lia); reflexivity).
  assert (NC : bn e1 c = mkBN BConst [] [c]) by (unfold e1; rewrite node_old by (cbn; fold c; lia); exact (node_new (eff g rem) BConst [])).
  assert (NM : bn e1 m = mkBN (BOp trp) [x; c] [m]) by exact (node_new (h_node (eff g rem) BConst []) (BOp trp) [x; c]).
  assert (IDS : forall r, In r (bids e1) <-> In r (bids g) \/ r = c \/ r = m).
  { intros r. unfold e1. rewrite ids_node, ids_node. cbn [eff bids bnext h_node]. fold c m. tauto. }
  assert (SM : forall r, In r (bids g) -> r < c) by (intros r R; destruct (n_wf _ _ _ _ _ I) as [_ W]; exact (proj1 (W r R))).
  assert (RDX := fun r => readers P g rem adds w x r I LL NLT).
  assert (READ : forall d, In d (bids e1) -> In x (bin (bn e1 d)) -> d = m \/ (In d (bids g0) /\ In x (bin (bn g0 d)))).
  { intros d D X. apply IDS in D. destruct D as [D|[->| ->]]; [|rewrite NC in X; destruct X|now left]. right. rewrite OLD in X by (apply SM, D). apply RDX. auto. }
  destruct (step_eff isq trp g rem t) as (g2 & rem2 & S1 & S2 & S3 & S4 & S5 & S6 & S7 & S8).
  - rewrite PE, NB. reflexivity.
  - exact (n_rem _ _ _ _ _ I).
  - rewrite PE. apply (n_src _ _ _ _ _ I), NN.
  - rewrite PE, LAST. apply (n_src _ _ _ _ _ I), NLN.
  - rewrite PE, LAST. apply SM, LG.
  - rewrite PE, LAST, LTX. lia.
  - rewrite PE, LAST, LTX. fold c m. change (h_node (h_node (eff g rem) BConst []) (BOp trp) [x; c]) with e1. intros d y E D. apply (edge_iff e1 (lastn t) d y B2) in E. destruct E as (E1 & E2 & E3).
    assert (Y : y = x).
    { destruct B1 as [_ BW]. destruct (BW d E2) as (_ & Y & _). destruct (Y y E3) as (_ & _ & Y3). rewrite <- E1, OLD, LB in Y3 by (apply SM, LG). cbn [bout] in Y3. rewrite LO in Y3. destruct Y3 as [Y3|[]]. now symmetry. }
    split; [|exact Y]. subst y. destruct (READ d E2 E3) as [->|[D0 X0]]; [contradiction|]. destruct (n_old _ _ _ _ _ I d D0) as [DG DB]. rewrite OLD, DB by (apply SM, DG). cbn [bk].
    intros K. apply (NO x d); auto. exists t. split; [exact H|]. destruct (last_cases t H) as [(_ & E & _)|(OQ & _)]; [now left|right; exists (lastn t); auto].
  - rewrite PE, LAST, LTX in S3, S4, S5, S6, S7. rewrite PE, LAST in S8. fold c m in S3, S4, S5, S6, S7. change (h_node (h_node (eff g rem) BConst []) (BOp trp) [x; c]) with e1 in S3, S4, S5, S6, S7.
    set (ds := map e_tgt (filter (leaves (lastn t) m) (bed e1))) in *.
    assert (DS : forall r, In r (bids e1) -> (In r ds <-> r <> m /\ In x (bin (bn e1 r)))).
    { intros r R. unfold ds. rewrite in_map_iff. split.
      - intros ([[s d] y] & E & X). apply filter_In in X. destruct X as [X LV]. unfold leaves, e_src, e_tgt in *. cbn [fst snd] in *. subst d. apply andb_true_iff in LV. destruct LV as [L1 L2]. apply Nat.eqb_eq in L1. subst s.
        apply negb_true_iff, Nat.eqb_neq in L2. split; [exact L2|]. apply (edge_iff e1 (lastn t) r y B2) in X. destruct X as (E1 & E2 & E3).
        destruct B1 as [_ BW]. destruct (BW r E2) as (_ & Y & _). destruct (Y y E3) as (_ & _ & Y3). rewrite <- E1, OLD, LB in Y3 by (apply SM, LG). cbn [bout] in Y3. rewrite LO in Y3. destruct Y3 as [Y3|[]]. now subst y.
      - intros [D X]. exists (lastn t, r, x). split; [reflexivity|]. apply filter_In. split.
        + apply (edge_iff e1 (lastn t) r x B2). split; [|auto]. unfold e1. rewrite prod_old by (cbn; fold c; lia). rewrite prod_old by (cbn; fold c; lia). cbn [eff bprod]. rewrite (n_prod _ _ _ _ _ I x LL). now symmetry.
        + unfold leaves, e_src, e_tgt. cbn [fst snd]. rewrite Nat.eqb_refl. apply Nat.eqb_neq in D. now rewrite D. }
    assert (BN : forall r, In r (bids e1) -> bn g2 r = if r =? m then bn e1 r else mkBN (bk (bn e1 r)) (map (it_ren x m) (bin (bn e1 r))) (bout (bn e1 r))).
    { intros r R. rewrite S6. destruct (o_mem r ds) eqn:O.
      - apply o_mem_In in O. apply DS in O; [|exact R]. destruct O as [O _]. apply Nat.eqb_neq in O. now rewrite O.
      - destruct (r =? m) eqn:RM; [reflexivity|]. apply Nat.eqb_neq in RM. rewrite ren_none; [destruct (bn e1 r); reflexivity|]. intros X. apply o_mem_not in O. apply O. apply DS; auto. }
    assert (ME : In m (bids e1)) by (apply IDS; auto). assert (CE : In c (bids e1)) by (apply IDS; auto).
    assert (NR : forall r, In r (bids e1) -> ~ In m (bin (bn e1 r))).
    { intros r R X. apply IDS in R. destruct R as [R|[->| ->]].
      - rewrite OLD in X by (apply SM, R). destruct (n_wf _ _ _ _ _ I) as [_ W]. destruct (W r R) as (_ & Y & _). apply Y in X. cbn [eff bnext] in X. fold c in X. unfold m in X. lia.
      - rewrite NC in X. destruct X.
      - rewrite NM in X. destruct X as [X|[X|[]]]; unfold m in X; lia. }
    destruct (red_ok e1 (eff g2 rem2) (lastn t) x m trp [x; c] B1 B2) as [R1 R2]; auto.
    { apply IDS. left. exact LG. } { rewrite OLD, LB by (apply SM, LG). exact LO. } { unfold m. lia. } { assert (Q := SM _ LG). unfold m. lia. }
    assert (C2 : bn g2 c = mkBN BConst [] [c]).
    { rewrite BN by exact CE. destruct (c =? m) eqn:Q; [apply Nat.eqb_eq in Q; unfold m in Q; lia|]. rewrite NC. reflexivity. }
    assert (M2 : bn g2 m = mkBN (BOp trp) [x; c] [m]) by (rewrite BN, Nat.eqb_refl by exact ME; exact NM).
    assert (NX2 : bnext g2 = S m) by (rewrite S5; reflexivity).
    assert (SMO : forall r, r < c -> (r =? m) = false) by (intros r R; apply Nat.eqb_neq; unfold m; lia).
    exists g2, rem2, ((c, m, x) :: adds), (fun y => if y =? c then perm else if y =? m then v0 x else w y). split; [exact S1|]. constructor.
    + exact R1. + exact R2.
    + destruct (n_fl _ _ _ _ _ I) as [ND _]. split; [constructor; assumption|]. intros t' [<-|T']; [exact H|exact (PF t' T')].
    + exact S2.
    + intros n' X. apply S8; [intros ->; apply X; now left|]. apply (n_src _ _ _ _ _ I). intros Y. apply X. now right.
    + intros r R. destruct (n_old _ _ _ _ _ I r R) as [G B]. assert (RE : In r (bids e1)) by (apply IDS; now left). split; [rewrite S3; exact RE|]. rewrite BN by exact RE. rewrite SMO, OLD, B by (apply SM, G).
      cbn [bk bin bout]. f_equal. rewrite map_map. apply map_ext_in. intros y Y. cbn [rho]. destruct (y =? x) eqn:E.
      * apply Nat.eqb_eq in E. subst y. rewrite rho_out by (rewrite (n_adds _ _ _ _ _ I); exact NLT). apply ren_same.
      * apply Nat.eqb_neq in E. apply ren_other. intros Z. apply (rho_back _ _ _ _ _ _ _ I) in Z; [|exact LL]. destruct Z; congruence.
    + intros r R. rewrite S3 in R. assert (RE := R). apply IDS in R. destruct R as [R|[->| ->]].
      * destruct (n_new _ _ _ _ _ I r R) as [R0|(RL & c' & m' & y & A & [[-> B]|[-> B]])]; [now left| |]; right; (split; [exact RL|]); exists c', m', y; (split; [now right|]); [left|right]; (split; [reflexivity|]);
          rewrite BN by exact RE; rewrite SMO, OLD, B by (apply SM, R); cbn [bk bin bout map]; [reflexivity|]. rewrite !ren_other; [reflexivity| |].
        -- intros Z. destruct (n_addv _ _ _ _ _ I c' m' y A) as (X & _). lia.
        -- intros Z. subst y. apply NLT. rewrite <- (n_adds _ _ _ _ _ I). apply in_map_iff. exists (c', m', x). auto.
      * right. split; [unfold c in *; lia|]. exists c, m, x. split; [now left|]. left. auto.
      * right. split; [unfold m, c in *; lia|]. exists c, m, x. split; [now left|]. right. auto.
    + cbn [map snd]. f_equal. exact (n_adds _ _ _ _ _ I).
    + intros c' m' y [E|A].
      * injection E as <- <- <-. rewrite NX2, Nat.eqb_refl. split; [unfold m, c in *; lia|]. split; [unfold m, c in *; lia|]. split; [exact C2|]. split; [reflexivity|]. rewrite Nat.eqb_refl.
        destruct (m =? c) eqn:Q; [apply Nat.eqb_eq in Q; unfold m in Q; lia|reflexivity].
      * destruct (n_addv _ _ _ _ _ I c' m' y A) as (X1 & X2 & X3 & X4 & X5). rewrite NX2. fold c in X1, X2. split; [unfold m; lia|]. split; [unfold m; lia|]. split.
        -- assert (CI : In c' (bids e1) \/ ~ In c' (bids e1)) by (destruct (in_dec Nat.eq_dec c' (bids e1)); auto). rewrite S6, OLD by lia. rewrite X3. cbn [bk bin bout map]. destruct (o_mem c' ds); reflexivity.
        -- assert (Z1 : (c' =? c) = false) by (apply Nat.eqb_neq; lia). assert (Z2 : (m' =? c) = false) by (apply Nat.eqb_neq; lia). rewrite Z1, Z2, !SMO by lia. auto.
    + rewrite NX2. unfold m. lia.
    + intros t' T'. rewrite S4. unfold e1. rewrite prod_old by (cbn; fold c; lia). rewrite prod_old by (cbn; fold c; lia). exact (n_prod _ _ _ _ _ I t' T').
Qed.
Lemma start_ok : iinv [] g0 [] [] v0.
Proof.
  assert (E : eff g0 [] = g0).
  { unfold eff, remove_pos, ilive. rewrite filter_all by (intros; reflexivity). rewrite map_snd_combine by apply seq_length. destruct g0; reflexivity. }
  constructor; rewrite ?E; auto.
  - split; [constructor|intros t []].
  - intros i [].
  - intros n _ i e _ [].
  - intros r R. split; [exact R|]. cbn [rho]. rewrite map_id. destruct (bn g0 r); reflexivity.
  - intros c m x [].
Qed.
Lemma steps_ok : forall l P g rem adds w, iinv P g rem adds w -> (forall t b, In (t, b) l -> In (t, b) ns) -> NoDup (map fst l) -> (forall t b, In (t, b) l -> ~ In t P) ->
  exists g' rem' adds' w' P', it_steps isq trp l (g, rem) = Some (g', rem') /\ iinv P' g' rem' adds' w' /\ (forall t, In t P' <-> In (t, true) l \/ In t P).
Proof.
  induction l as [|[t b] l IH]; intros P g rem adds w I S N D.
  - exists g, rem, adds, w, P. split; [reflexivity|]. split; [exact I|]. intros t. cbn. tauto.
  - cbn [map fst] in N. inversion N as [|? ? N1 N2]; subst. cbn [it_steps]. destruct b.
    + destruct (step_ok P g rem adds w t I (S t true (or_introl eq_refl)) (D t true (or_introl eq_refl))) as (g1 & rem1 & adds1 & w1 & E & I1). rewrite E.
      destruct (IH (t :: P) g1 rem1 adds1 w1 I1 (fun a c H => S a c (or_intror H)) N2) as (g' & rem' & adds' & w' & P' & E' & I' & X).
      { intros a c H [<-|Q]; [apply N1; exact (in_map fst _ _ H)|exact (D a c (or_intror H) Q)]. }
      exists g', rem', adds', w', P'. split; [exact E'|]. split; [exact I'|]. intros a. rewrite X. cbn [In]. split; [intros [H|[<-|H]]; auto|]. intros [[H|H]|H]; auto. injection H as ->. auto.
    + destruct (IH P g rem adds w I (fun a c H => S a c (or_intror H)) N2 (fun a c H => D a c (or_intror H))) as (g' & rem' & adds' & w' & P' & E' & I' & X).
      exists g', rem', adds', w', P'. split; [exact E'|]. split; [exact I'|]. intros a. rewrite X. cbn [In]. split; [tauto|]. intros [[H|H]|H]; auto. discriminate.
Qed.
Hypothesis DT : forall y, den trp [y; perm] = [itr y].
Hypothesis IT : forall y, itr (tr y) = y.
Hypothesis DQ : forall f y, isq f = true -> den f [tr y] = map tr (den f [y]).
Hypothesis CO : b_computes den g0 v0.
Lemma moved_iff P x : (forall t, In t P <-> fl t) -> moved isq g0 ns x <-> In x P \/ In x (map lastt P).
Proof.
  intros FP. split.
  - intros (t & H & [->|(r & R & B)]); [left; now apply FP|]. right. apply in_map_iff. exists t. split; [|now apply FP]. destruct (last_cases t H) as [(_ & _ & E)|(OQ & _)]; [elim (E r R)|].
    destruct (last_node t H) as (_ & X & _). rewrite (only_unique _ _ _ _ _ OQ R), B in X. now injection X.
  - intros [H|H]; [exists x; split; [now apply FP|now left]|]. apply in_map_iff in H. destruct H as (t & E & H). apply FP in H. exists t. split; [exact H|]. rewrite <- E.
    destruct (last_cases t H) as [(_ & X & _)|(OQ & _)]; [now left|]. right. exists (lastn t). split; [exact OQ|]. apply (last_node t H).
Qed.
Theorem pass_ok : exists g' v', input_transpose isq trp ns g0 = Some g' /\ b_wf g' /\ b_consistent g' /\ b_computes den g' v' /\
  it_values isq tr g0 ns v0 v' /\ it_nodes isq trp perm g0 ns v0 g' v'.
Proof.
  destruct (steps_ok ns [] g0 [] [] v0 start_ok (fun _ _ H => H) (proj1 F0) (fun _ _ _ H => H)) as (g & rem & adds & w & P & E & I & PX).
  assert (FP : forall t, In t P <-> fl t) by (intros t; rewrite PX; unfold fl; cbn; tauto). clear PX.
  set (mv := fun x => o_mem x P || o_mem x (map lastt P)). set (v' := fun x => if x <? bnext g0 then if mv x then tr (v0 x) else v0 x else w x).
  assert (MV : forall x, mv x = true <-> moved isq g0 ns x) by (intros x; unfold mv; rewrite orb_true_iff, !o_mem_In, (moved_iff P x FP); reflexivity).
  assert (VS : forall x, x < bnext g0 -> v' x = if mv x then tr (v0 x) else v0 x) by (intros x L; unfold v'; apply Nat.ltb_lt in L; now rewrite L).
  assert (VB : forall x, bnext g0 <= x -> v' x = w x) by (intros x L; unfold v'; apply Nat.ltb_ge in L; now rewrite L).
  exists (eff g rem), v'. split; [unfold input_transpose; rewrite E; reflexivity|]. split; [exact (n_wf _ _ _ _ _ I)|]. split; [exact (n_con _ _ _ _ _ I)|].
  assert (W := W0). destruct W as [_ W].
  assert (ADD : forall c m x, In (c, m, x) adds -> In x (map lastt P) /\ x < bnext g0 /\ v' x = tr (v0 x) /\ v' c = perm /\ v' m = v0 x).
  { intros c m x A. destruct (n_addv _ _ _ _ _ I c m x A) as (X1 & X2 & X3 & X4 & X5). rewrite (VB c), (VB m), X4, X5 by lia.
    assert (XP : In x (map lastt P)) by (rewrite <- (n_adds _ _ _ _ _ I); apply in_map_iff; exists (c, m, x); auto). split; [exact XP|].
    assert (XL : x < bnext g0) by (apply in_map_iff in XP; destruct XP as (t & <- & T); apply FP in T; apply (last_node t T)). split; [exact XL|]. rewrite VS by exact XL.
    assert (MX : mv x = true) by (unfold mv; rewrite orb_true_iff, !o_mem_In; auto). now rewrite MX. }
  (* input values *)
  assert (INS : forall r, In r (bids g0) -> (exists t, fl t /\ only_quantize isq g0 t r) \/ map v' (bin (bn g r)) = map v0 (bin (bn g0 r))).
  { intros r R. destruct (n_old _ _ _ _ _ I r R) as [_ B]. rewrite B. cbn [bin]. rewrite map_map.
    assert (X : (exists x, In x (bin (bn g0 r)) /\ In x P /\ ~ In x (map lastt P)) \/ forall x, In x (bin (bn g0 r)) -> In x (map lastt P) \/ ~ In x P).
    { generalize (bin (bn g0 r)). induction l as [|a l [(x & X1 & X2)|IH]]; [right; intros x []|left; exists x; split; [now right|exact X2]|].
      destruct (in_dec Nat.eq_dec a (map lastt P)) as [A|A]; [right; intros x [<-|X]; auto|]. destruct (in_dec Nat.eq_dec a P) as [A2|A2]; [left; exists a; split; [now left|auto]|right; intros x [<-|X]; auto]. }
    destruct X as [(x & X1 & X2 & X3)|X].
    - left. exists x. assert (H := proj1 (FP x) X2). split; [exact H|]. destruct (last_cases x H) as [(_ & E1 & _)|(OQ & _)]; [elim X3; rewrite <- E1 at 1; now apply in_map|]. now rewrite (proj2 (proj2 (proj2 OQ)) r R X1).
    - right. apply map_ext_in. intros x XI. assert (XL : x < bnext g0) by (destruct (W r R) as (_ & Y & _); apply (Y x XI)). destruct (in_dec Nat.eq_dec x (map lastt P)) as [XP|XP].
      + assert (Q := XP). rewrite <- (n_adds _ _ _ _ _ I) in Q. destruct (rho_in adds x Q) as (c & m & A & ->). apply (ADD c m x A).
      + rewrite rho_out by (rewrite (n_adds _ _ _ _ _ I); exact XP). rewrite VS by exact XL. destruct (X x XI) as [Z|Z]; [contradiction|]. unfold mv. apply o_mem_not in Z. apply o_mem_not in XP. now rewrite Z, XP. }
  split; [|split; [|split; [|split]]].
  - intros r R. cbn [eff bids bn] in *. destruct (n_new _ _ _ _ _ I r R) as [R0|(_ & c & m & x & A & [[-> B]|[-> B]])].
    + destruct (n_old _ _ _ _ _ I r R0) as [_ B]. assert (Y := CO r R0).
      assert (CS : (exists t, fl t /\ only_quantize isq g0 t r) \/ ((forall t, fl t -> ~ only_quantize isq g0 t r) /\ map v' (bin (bn g r)) = map v0 (bin (bn g0 r)))).
      { destruct (INS r R0) as [X|IV]; [now left|]. destruct (in_dec Nat.eq_dec r (map lastn P)) as [RP|RP].
        - apply in_map_iff in RP. destruct RP as (t & E1 & T). apply FP in T. destruct (last_cases t T) as [(E2 & _)|(OQ & _)]; [|left; exists t; rewrite <- E1; auto].
          right. split; [|exact IV]. intros t' _ (_ & (f & K & _) & _). destruct (proj2 F0 t T) as (_ & _ & F3). rewrite <- E2, E1, K in F3 || (rewrite <- E2, E1 in F3; rewrite F3 in K; discriminate).
        - right. split; [|exact IV]. intros t' T' OQ. apply RP. apply in_map_iff. exists t'. split; [|now apply FP]. destruct (last_cases t' T') as [(_ & _ & N)|(OQ2 & _)]; [elim (N r OQ)|exact (only_unique _ _ _ _ _ OQ2 OQ)]. }
      destruct CS as [(t & H & OQ)|[NQ IV]].
      * assert (LR : lastn t = r) by (destruct (last_cases t H) as [(_ & _ & N)|(OQ2 & _)]; [elim (N r OQ)|exact (only_unique _ _ _ _ _ OQ2 OQ)]).
        destruct (last_cases t H) as [(_ & _ & N)|(_ & NB & _)]; [elim (N r OQ)|]. rewrite LR in NB. destruct OQ as (_ & (f & K & F) & _). rewrite K in NB. rewrite B, NB. cbn [bk bin bout map]. rewrite NB in Y. cbn [bk bin bout map] in Y.
        assert (TP := proj2 (FP t) H). destruct (proj2 F0 t H) as (TL & _). destruct (last_node t H) as (_ & _ & LL & LP).
        assert (RT : rho adds t = t). { apply rho_out. rewrite (n_adds _ _ _ _ _ I). intros X. apply in_map_iff in X. destruct X as (t' & E1 & T'). apply FP in T'. assert (Q := flagged_last t t' H T' (eq_sym E1)). subst t'.
          destruct (proj2 F0 t H) as (_ & _ & F3). assert (Z : bprod g0 t = r) by congruence. rewrite Z, NB in F3. discriminate. }
        rewrite RT, !VS by assumption. assert (M1 : mv t = true) by (unfold mv; rewrite orb_true_iff, !o_mem_In; auto).
        assert (M2 : mv (lastt t) = true) by (unfold mv; rewrite orb_true_iff, !o_mem_In; right; now apply in_map). rewrite M1, M2, DQ by exact F. rewrite <- Y. reflexivity.
      * assert (BE : bout (bn g r) = bout (bn g0 r) /\ bk (bn g r) = bk (bn g0 r)) by (rewrite B; split; reflexivity). destruct BE as [BE1 BE2]. rewrite BE1, BE2, IV.
        assert (OV : (exists f, bk (bn g0 r) = BOp f \/ bk (bn g0 r) = BSame f) -> (exists t, fl t /\ only_quantize isq g0 t r) \/ map v' (bout (bn g0 r)) = map v0 (bout (bn g0 r))).
        { intros (f & K). destruct (in_dec Nat.eq_dec r (map lastn P)) as [RP|RP].
          - apply in_map_iff in RP. destruct RP as (t & E1 & T). apply FP in T. destruct (last_cases t T) as [(E2 & _)|(OQ & _)]; [|left; exists t; rewrite <- E1; auto].
            destruct (proj2 F0 t T) as (_ & _ & F3). rewrite <- E2, E1 in F3. rewrite F3 in K. destruct K; discriminate.
          - right. apply map_ext_in. intros y YB. destruct (W r R0) as (_ & _ & Z & _). destruct (Z y YB) as [YL YP]. rewrite VS by exact YL.
            assert (M : mv y = false); [|now rewrite M]. unfold mv. apply orb_false_iff. split; apply o_mem_not; intros X.
            + apply FP in X. destruct (proj2 F0 y X) as (_ & _ & F3). rewrite YP in F3. rewrite F3 in K. destruct K; discriminate.
            + apply in_map_iff in X. destruct X as (t & E1 & T). apply RP. apply in_map_iff. exists t. split; [|exact T]. apply FP in T. destruct (last_node t T) as (_ & _ & _ & <-). now rewrite E1. }
        destruct (bk (bn g0 r)) as [| | |f|f] eqn:K; try exact Logic.I.
        -- destruct OV as [(t & H & OQ)|OV]; [eauto|elim (NQ t H OQ)|now rewrite OV].
        -- destruct OV as [(t & H & (_ & (f' & OQ & _) & _))|OV]; [eauto|congruence|now rewrite OV].
    + rewrite B. exact Logic.I.
    + rewrite B. cbn [bk bin bout map]. destruct (ADD c m x A) as (_ & _ & X1 & X2 & X3). rewrite X1, X2, X3, DT, IT. reflexivity.
  - intros x L. rewrite VS by exact L. split; intros M; [apply MV in M; now rewrite M|]. destruct (mv x) eqn:Q; [apply MV in Q; contradiction|reflexivity].
  - intros r R. cbn [eff bids bn]. destruct (n_old _ _ _ _ _ I r R) as [G B]. split; [exact G|]. split; [now rewrite B|]. split; [now rewrite B|]. split; [exact (INS r R)|].
    intros K. rewrite B. cbn [bin]. rewrite <- (map_id (bin (bn g0 r))) at 2. apply map_ext_in. intros x X. apply rho_out. rewrite (n_adds _ _ _ _ _ I). intros Q. apply (NO x r); auto. apply (moved_iff P x FP). now right.
  - intros r R. cbn [eff bids bn] in *. destruct (n_new _ _ _ _ _ I r R) as [R0|(RL & c & m & x & A & [[-> B]|[-> B]])]; [now left| |]; right; destruct (ADD c m x A) as (X1 & _ & _ & X2 & _).
    + left. auto.
    + right. exists x, c. split; [apply (moved_iff P x FP); now right|]. split; [|auto]. apply (n_addv _ _ _ _ _ I c m x A).
  - intros r x R M X. cbn [eff bids bn] in *. destruct (in_dec Nat.eq_dec r (bids g0)) as [R0|R0]; [right|now left]. destruct (n_old _ _ _ _ _ I r R0) as [_ B]. rewrite B in X. cbn [bin] in X. apply in_map_iff in X. destruct X as (y & E1 & Y).
    apply (moved_iff P x FP) in M. assert (XL : x < bnext g0).
    { destruct M as [M|M]; [apply FP in M; apply (proj2 F0 x M)|]. apply in_map_iff in M. destruct M as (t & <- & T). apply FP in T. apply (last_node t T). }
    apply (rho_back _ _ _ _ _ _ _ I) in E1; [|exact XL]. destruct E1 as [-> NX]. destruct M as [M|M]; [|contradiction]. apply FP in M. exists x. split; [exact M|].
    destruct (last_cases x M) as [(_ & E1 & _)|(OQ & _)]; [elim NX; rewrite <- E1 at 1; apply in_map; now apply FP|]. now rewrite (proj2 (proj2 (proj2 OQ)) r R0 Y).
Qed.
End Pass.
(** an input that is an output as well *)
Definition io_bn (n : nat) : bnode := match n with 0 => mkBN BIn [] [0] | 1 => mkBN (BOp 1) [0] [1] | 2 => mkBN BOut [1] [] | 3 => mkBN BOut [0] [] | _ => mkBN BIn [] [] end.
Definition io_bg : bg := mkBG io_bn (seq 0 4) [(0,1,0);(1,2,1);(0,3,0)] (fun t => t) 4.
Theorem io_lemma : exists g ns, b_wf g /\ b_consistent g /\ flagged_ok g ns /\ forall isq trp, quantize_ok isq g /\ input_transpose isq trp ns g = None.
Proof.
  exists io_bg, [(0, true)]. split; [b_wf_tac|]. split; [apply (b_consistent_check 4); reflexivity|]. split.
  - split; [repeat constructor; intros []|]. intros t [E|[]]. injection E as <-. cbn. auto with arith.
  - intros isq trp. split; [|reflexivity]. intros r f R K _. cbn in R. repeat (destruct R as [<-|R]; [try discriminate K; do 2 eexists; split; reflexivity|]). destruct R.
Qed.
