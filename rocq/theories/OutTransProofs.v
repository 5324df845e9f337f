(** Proofs about transposed outputs. *)
From Coq Require Import List Arith Bool Lia.
From Verif Require Import OutTransModel OutTransSpec.
Import ListNotations.

Lemma o_mem_In x l : o_mem x l = true <-> In x l.
Proof.
  unfold o_mem. rewrite existsb_exists. split; [intros (y & H & E); apply Nat.eqb_eq in E; now subst|].
  intros H. exists x. split; [exact H|apply Nat.eqb_refl].
Qed.
Lemma o_mem_not x l : o_mem x l = false <-> ~ In x l.
Proof. rewrite <- o_mem_In. destruct (o_mem x l); intuition congruence. Qed.

(** * Edges *)
Definition live (rem : list nat) (l : list oedge) : list oedge := remove_pos rem l.
Lemma combine_app {A B} (a a' : list A) : forall (b b' : list B), length a = length b -> combine (a ++ a') (b ++ b') = combine a b ++ combine a' b'.
Proof. induction a as [|x a IH]; intros [|y b] b' H; cbn in *; try discriminate; [reflexivity|]. f_equal. apply IH. lia. Qed.
Lemma map_snd_combine {A B} (a : list A) : forall (b : list B), length a = length b -> map snd (combine a b) = b.
Proof. induction a as [|x a IH]; intros [|y b] H; cbn in *; try discriminate; [reflexivity|]. f_equal. apply IH. lia. Qed.
Lemma map_fst_combine {A B} (a : list A) : forall (b : list B), length a = length b -> map fst (combine a b) = a.
Proof. induction a as [|x a IH]; intros [|y b] H; cbn in *; try discriminate; [reflexivity|]. f_equal. apply IH. lia. Qed.
Lemma filter_all {A} (f : A -> bool) l : (forall x, In x l -> f x = true) -> filter f l = l.
Proof. induction l as [|a l IH]; intros H; cbn; [reflexivity|]. rewrite H by now left. f_equal. apply IH. intros; apply H; now right. Qed.
Lemma ilive_app rem l new : (forall i, In i rem -> i < length l) -> ilive rem (l ++ new) = ilive rem l ++ combine (seq (length l) (length new)) new.
Proof.
  intros H. unfold ilive. rewrite app_length, seq_app, combine_app by apply seq_length. rewrite filter_app. f_equal.
  apply filter_all. intros [i e] I. apply in_combine_l, in_seq in I. cbn [fst]. apply negb_true_iff, o_mem_not. intros J. apply H in J. lia.
Qed.
Lemma live_app rem l new : (forall i, In i rem -> i < length l) -> remove_pos rem (l ++ new) = remove_pos rem l ++ new.
Proof. intros H. unfold remove_pos. rewrite ilive_app, map_app by exact H. f_equal. apply map_snd_combine. apply seq_length. Qed.
Lemma NoDup_map_filter {A} (h : A -> nat) (f : A -> bool) l : NoDup (map h l) -> NoDup (map h (filter f l)).
Proof.
  induction l as [|a l IH]; cbn; intros N; [constructor|]. inversion N as [|? ? X Y]; subst. destruct (f a); cbn; [constructor|]; auto.
  intros I. apply X. apply in_map_iff in I. destruct I as (b & E & I). apply filter_In in I. apply in_map_iff. exists b. tauto.
Qed.
Lemma ilive_nodup rem l : NoDup (map fst (ilive rem l)).
Proof. apply NoDup_map_filter. rewrite map_fst_combine by apply seq_length. apply seq_NoDup. Qed.
Lemma nodup_fst_inj (l : list (nat * oedge)) a b : NoDup (map fst l) -> In a l -> In b l -> fst a = fst b -> a = b.
Proof.
  induction l as [|x l IH]; cbn; intros N A B E; [contradiction|]. inversion N as [|? ? X Y]; subst.
  destruct A as [<-|A], B as [<-|B]; auto.
  - elim X. rewrite E. now apply in_map.
  - elim X. rewrite <- E. now apply in_map.
Qed.
Lemma ilive_more rem l (P : nat * oedge -> bool) :
  ilive (rem ++ map fst (filter P (ilive rem l))) l = filter (fun ie => negb (P ie)) (ilive rem l).
Proof.
  assert (N := ilive_nodup rem l). set (S := map fst (filter P (ilive rem l))).
  assert (E : ilive (rem ++ S) l = filter (fun ie => negb (o_mem (fst ie) S)) (ilive rem l)).
  { unfold ilive. generalize (combine (seq 0 (length l)) l). intros L. induction L as [|a L IH]; cbn; [reflexivity|].
    unfold o_mem at 1. rewrite existsb_app. fold (o_mem (fst a) rem) (o_mem (fst a) S). rewrite negb_orb.
    destruct (o_mem (fst a) rem); cbn; [exact IH|]. destruct (o_mem (fst a) S); cbn; [exact IH|]. now f_equal. }
  rewrite E. apply filter_ext_in. intros ie I. f_equal. destruct (P ie) eqn:Q.
  - apply o_mem_In. apply in_map. apply filter_In. auto.
  - apply o_mem_not. intros J. apply in_map_iff in J. destruct J as (je & F & J). apply filter_In in J. destruct J as [J PJ].
    rewrite (nodup_fst_inj _ _ _ N J I F) in PJ. congruence.
Qed.
Lemma ecount_app s d t a b : ecount s d t (a ++ b) = ecount s d t a + ecount s d t b.
Proof. unfold ecount. now rewrite filter_app, app_length. Qed.
Lemma ecount_In s d t l : 0 < ecount s d t l <-> In (s, d, t) l.
Proof.
  unfold ecount. induction l as [|[[a b] c] l IH]; cbn; [intuition lia|]. destruct ((a =? s) && (b =? d) && (c =? t)) eqn:E; cbn.
  - rewrite !andb_true_iff, !Nat.eqb_eq in E. destruct E as [[-> ->] ->]. intuition lia.
  - rewrite IH. split; [auto|]. intros [F|F]; [|exact F]. inversion F; subst. rewrite !Nat.eqb_refl in E. discriminate.
Qed.
Lemma count_occ_map_dst (k : nat -> bool) p t n : forall L,
  count_occ Nat.eq_dec (map e_dst (filter (fun ie => k (e_dst ie)) (filter (fun ie => from_to p t (snd ie)) L))) n =
  if k n then ecount p n t (map snd L) else 0.
Proof.
  induction L as [|ie L IH]; [cbn; destruct (k n); reflexivity|]. cbn [filter].
  assert (M : map snd (ie :: L) = snd ie :: map snd L) by reflexivity. rewrite M. clear M.
  assert (C : ecount p n t (snd ie :: map snd L) = (if from_to p t (snd ie) && (e_dst ie =? n) then 1 else 0) + ecount p n t (map snd L)).
  { unfold ecount, from_to, e_dst. cbn [filter]. destruct (fst (fst (snd ie)) =? p), (snd (fst (snd ie)) =? n), (snd (snd ie) =? t); reflexivity. }
  rewrite C. clear C. destruct (from_to p t (snd ie)); cbn [andb]; [|exact IH]. cbn [filter]. destruct (e_dst ie =? n) eqn:B.
  - apply Nat.eqb_eq in B. rewrite B. destruct (k n) eqn:K; [|exact IH]. cbn [map count_occ]. destruct (Nat.eq_dec (e_dst ie) n); [|congruence].
    rewrite IH. reflexivity.
  - apply Nat.eqb_neq in B. destruct (k (e_dst ie)); [|exact IH]. cbn [map count_occ]. destruct (Nat.eq_dec (e_dst ie) n); [congruence|]. exact IH.
Qed.
Lemma ecount_filter s d x p t (k : nat -> bool) : forall L,
  ecount s d x (map snd (filter (fun ie => negb (from_to p t (snd ie) && k (e_dst ie))) L)) =
  if (s =? p) && (x =? t) && k d then 0 else ecount s d x (map snd L).
Proof.
  induction L as [|ie L IH]; [cbn; destruct ((s =? p) && (x =? t) && k d); reflexivity|]. cbn [filter].
  assert (M : map snd (ie :: L) = snd ie :: map snd L) by reflexivity. rewrite M. clear M.
  assert (C : forall l, ecount s d x (snd ie :: l) = (if from_to s x (snd ie) && (e_dst ie =? d) then 1 else 0) + ecount s d x l).
  { intros l. unfold ecount, from_to, e_dst. cbn [filter]. destruct (fst (fst (snd ie)) =? s), (snd (fst (snd ie)) =? d), (snd (snd ie) =? x); reflexivity. }
  destruct (from_to p t (snd ie) && k (e_dst ie)) eqn:E; cbn [negb].
  - rewrite IH. destruct ((s =? p) && (x =? t) && k d) eqn:F; [reflexivity|]. rewrite C.
    destruct (from_to s x (snd ie) && (e_dst ie =? d)) eqn:G; [|reflexivity]. exfalso. unfold from_to in *.
    rewrite !andb_true_iff, !Nat.eqb_eq in E. rewrite !andb_true_iff, !Nat.eqb_eq in G. destruct E as [[E1 E2] E3], G as [[G1 G2] G3]. rewrite G3 in E3.
    assert (A1 : (s =? p) = true) by (apply Nat.eqb_eq; congruence). assert (A2 : (x =? t) = true) by (apply Nat.eqb_eq; congruence).
    rewrite A1, A2, E3 in F. discriminate.
  - assert (M : forall l, map snd (ie :: l) = snd ie :: map snd l) by reflexivity. rewrite M, !C, IH.
    destruct (from_to s x (snd ie) && (e_dst ie =? d)) eqn:G; [|reflexivity]. unfold from_to in *. rewrite !andb_true_iff, !Nat.eqb_eq in G.
    destruct G as [[G1 G2] G3]. rewrite G1, G2, G3 in E. now rewrite E.
Qed.
Lemma ecount_map s d x p f : forall ds, ecount s d x (map (fun d => (p, d, f)) ds) = if (s =? p) && (x =? f) then count_occ Nat.eq_dec ds d else 0.
Proof.
  induction ds as [|a ds IH]; cbn [map]; [cbn; destruct ((s =? p) && (x =? f)); reflexivity|]. unfold ecount in *. cbn [filter fst snd count_occ].
  destruct ((p =? s) && (a =? d) && (f =? x)) eqn:E.
  - rewrite !andb_true_iff, !Nat.eqb_eq in E. destruct E as [[-> ->] ->]. rewrite !Nat.eqb_refl in *. cbn [andb] in *.
    destruct (Nat.eq_dec d d); [|congruence]. cbn [length]. now rewrite IH.
  - rewrite IH. destruct ((s =? p) && (x =? f)) eqn:F; [|reflexivity]. rewrite !andb_true_iff, !Nat.eqb_eq in F. destruct F as [-> ->].
    rewrite !Nat.eqb_refl in E. cbn [andb] in E. rewrite andb_true_r in E. apply Nat.eqb_neq in E. destruct (Nat.eq_dec a d); congruence.
Qed.

(** * Replacing inputs *)
Definition ren (t f x : nat) : nat := if x =? t then f else x.
Fixpoint times {A} (k : nat) (h : A -> A) (x : A) : A := match k with 0 => x | S j => times j h (h x) end.
Lemma sub_cons t f x : forall k l, x <> t -> times k (sub_first t f) (x :: l) = x :: times k (sub_first t f) l.
Proof.
  induction k as [|k IH]; intros l N; cbn [times]; [reflexivity|]. cbn [sub_first]. destruct (x =? t) eqn:E; [apply Nat.eqb_eq in E; congruence|].
  now apply IH.
Qed.
Lemma sub_all t f : f <> t -> forall l, times (count_occ Nat.eq_dec l t) (sub_first t f) l = map (ren t f) l.
Proof.
  intros N. induction l as [|x l IH]; cbn [count_occ map]; [reflexivity|]. unfold ren at 1. destruct (Nat.eq_dec x t) as [->|D].
  - rewrite Nat.eqb_refl. cbn [times sub_first]. rewrite Nat.eqb_refl. rewrite sub_cons by exact N. now rewrite IH.
  - rewrite sub_cons by exact D. apply Nat.eqb_neq in D. rewrite D. now rewrite IH.
Qed.
Lemma times_one t f k : forall n, times k (sub_one t f) n = mkON (okd n) (times k (sub_first t f) (oin n)) (oout n).
Proof. induction k as [|k IH]; intros [a b c]; cbn [times okd oin oout]; [reflexivity|]. rewrite IH. reflexivity. Qed.
Lemma connect_on t f p n : forall ds g, on (connect t f p ds g) n = times (count_occ Nat.eq_dec ds n) (sub_one t f) (on g n).
Proof.
  unfold connect. induction ds as [|d ds IH]; intros g; cbn [fold_left count_occ]; [reflexivity|]. rewrite IH. cbn [on]. unfold o_upd.
  destruct (Nat.eq_dec d n) as [->|D]; [now rewrite Nat.eqb_refl|]. destruct (n =? d) eqn:E; [apply Nat.eqb_eq in E; congruence|reflexivity].
Qed.
Lemma connect_rest t f p : forall ds g, oids (connect t f p ds g) = oids g /\ oed (connect t f p ds g) = oed g ++ map (fun d => (p, d, f)) ds /\
  oprod (connect t f p ds g) = oprod g /\ onext (connect t f p ds g) = onext g /\ oouts (connect t f p ds g) = oouts g.
Proof.
  unfold connect. induction ds as [|d ds IH]; intros g; cbn [fold_left map]; [now rewrite app_nil_r|].
  destruct (IH (mkOG (o_upd (on g) d (sub_one t f (on g d))) (oids g) (oed g ++ [(p, d, f)]) (oprod g) (onext g) (oouts g))) as (A & B & C & D & E).
  rewrite A, B, C, D, E. cbn. rewrite <- app_assoc. auto.
Qed.

(** * One output *)
Record inv (s : ost) : Prop := mkInv {
  i_wf : o_wf (s_g s);
  i_rem : forall i, In i (s_rem s) -> i < length (oed (s_g s));
  i_rv : forall n, In n (s_rv s) -> In n (oids (s_g s)) /\ okd (on (s_g s) n) = OOut;
  i_acts : s_acts s = [];
  i_edges : forall a d t, ~ In d (s_rv s) -> ecount a d t (remove_pos (s_rem s) (oed (s_g s))) =
     if (a =? oprod (s_g s) t) && o_mem d (oids (s_g s)) then count_occ Nat.eq_dec (oin (on (s_g s) d)) t else 0 }.
Definition live_at (s : ost) (t n : nat) : Prop := out_at (s_g s) t n /\ ~ In n (s_rv s).
Definition source_ok (g : og) (t : nat) : Prop := okd (on g (oprod g t)) <> OIn /\ okd (on g (oprod g t)) <> OConst.

Section Step.
Context (s : ost) (t : nat) (I : inv s) (T : In t (oouts (s_g s))).
Let g := s_g s.
Let p := oprod g t.
Let f := onext g.
Let isn (n : nat) : bool := negb (is_oout (okd (on g n))).
Let es := o_edges g (s_rem s) p t.
Let nexts := filter (fun ie => isn (e_dst ie)) es.
Let outs := filter (fun ie => is_oout (okd (on g (e_dst ie)))) es.
Let ds := map e_dst nexts.
Let np := mkON (okd (on g p)) (oin (on g p)) (map (ren t f) (oout (on g p))).
Let on1 := o_upd (o_upd (o_upd (on g) p np) f (mkON (OTr true) [f] [t])) (S f) (mkON OOut [t] []).
Let g1 := mkOG on1 (oids g ++ [f; S f]) (oed g ++ [(p, f, f); (f, S f, t)]) (o_upd (o_upd (oprod g) f p) t f) (S (S f)) (oouts g).
Let g2 := connect t f p ds g1.
Let s2 := mkOS g2 (s_rem s ++ map fst nexts) (s_rv s ++ map e_dst outs) (s_acts s).

Lemma step_eq : source_ok g t -> next_step s t = Some s2.
Proof.
  intros [A B]. unfold next_step. fold g. fold p. assert (E : forall (X : option ost) k, okd (on g p) = k -> k <> OIn -> k <> OConst ->
    match k with OIn | OConst => None | _ => X end = X) by (intros X [] _ K1 K2; congruence).
  exact (E (Some s2) (okd (on g p)) eq_refl A B).
Qed.
Let WF := i_wf s I.
Lemma t_made : In p (oids g) /\ In t (oout (on g p)).
Proof. destruct WF as (_ & _ & O). apply O. exact T. Qed.
Lemma t_small : t < f.
Proof. destruct WF as (_ & N & _). destruct t_made as [P Q]. exact (proj1 (proj1 (proj2 (proj2 (proj2 (N p P)))) t Q)). Qed.
Lemma small n : In n (oids g) -> n < f.
Proof. destruct WF as (_ & N & _). intros H. exact (proj1 (N n H)). Qed.
Lemma edges_old a d x : ~ In d (s_rv s) -> ecount a d x (remove_pos (s_rem s) (oed g)) = if (a =? oprod g x) && o_mem d (oids g) then count_occ Nat.eq_dec (oin (on g d)) x else 0.
Proof. apply (i_edges s I). Qed.
Lemma rv_out n : In n (s_rv s) -> In n (oids g) /\ okd (on g n) = OOut.
Proof. apply (i_rv s I). Qed.
Lemma ds_count n : count_occ Nat.eq_dec ds n = if isn n then if o_mem n (oids g) then count_occ Nat.eq_dec (oin (on g n)) t else 0 else 0.
Proof.
  unfold ds, nexts, es, o_edges. rewrite (count_occ_map_dst isn p t n). destruct (isn n) eqn:K; [|reflexivity].
  fold (remove_pos (s_rem s) (oed g)). rewrite edges_old.
  - unfold p at 1. now rewrite Nat.eqb_refl.
  - intros R. apply rv_out in R. destruct R as [_ R]. unfold isn in K. rewrite R in K. discriminate.
Qed.
Lemma g2_on n : on g2 n = mkON (okd (on1 n)) (times (count_occ Nat.eq_dec ds n) (sub_first t f) (oin (on1 n))) (oout (on1 n)).
Proof. unfold g2. rewrite connect_on, times_one. reflexivity. Qed.
Lemma g2_ids : oids g2 = oids g ++ [f; S f].
Proof. unfold g2. now rewrite (proj1 (connect_rest t f p ds g1)). Qed.
Lemma g2_prod : oprod g2 = o_upd (o_upd (oprod g) f p) t f.
Proof. unfold g2. now rewrite (proj1 (proj2 (proj2 (connect_rest t f p ds g1)))). Qed.
Lemma g2_next : onext g2 = S (S f).
Proof. unfold g2. now rewrite (proj1 (proj2 (proj2 (proj2 (connect_rest t f p ds g1))))). Qed.
Lemma g2_outs : oouts g2 = oouts g.
Proof. unfold g2. now rewrite (proj2 (proj2 (proj2 (proj2 (connect_rest t f p ds g1))))). Qed.
Lemma g2_ed : oed g2 = oed g ++ [(p, f, f); (f, S f, t)] ++ map (fun d => (p, d, f)) ds.
Proof. unfold g2. rewrite (proj1 (proj2 (connect_rest t f p ds g1))). unfold g1. cbn [oed]. now rewrite <- app_assoc. Qed.
Lemma out_f : on g2 f = mkON (OTr true) [f] [t].
Proof.
  rewrite g2_on. assert (E : on1 f = mkON (OTr true) [f] [t]).
  { unfold on1, o_upd. rewrite Nat.eqb_refl. destruct (f =? S f) eqn:Q; [apply Nat.eqb_eq in Q; lia|reflexivity]. }
  rewrite E. rewrite ds_count. assert (M : o_mem f (oids g) = false) by (apply o_mem_not; intros H; apply small in H; lia).
  rewrite M. destruct (isn f); reflexivity.
Qed.
Lemma out_Sf : on g2 (S f) = mkON OOut [t] [].
Proof.
  rewrite g2_on. assert (E : on1 (S f) = mkON OOut [t] []) by (unfold on1, o_upd; now rewrite Nat.eqb_refl).
  rewrite E. rewrite ds_count. assert (M : o_mem (S f) (oids g) = false) by (apply o_mem_not; intros H; apply small in H; lia).
  rewrite M. destruct (isn (S f)); reflexivity.
Qed.
Lemma on1_old n : In n (oids g) -> on1 n = if n =? p then np else on g n.
Proof.
  intros H. apply small in H. unfold on1, o_upd. destruct (n =? S f) eqn:A; [apply Nat.eqb_eq in A; lia|].
  destruct (n =? f) eqn:B; [apply Nat.eqb_eq in B; lia|]. reflexivity.
Qed.
(** an old node: [t] became [f], but OUTPUT nodes still read [t] *)
Lemma out_old n : In n (oids g) -> on g2 n = mkON (okd (on g n)) (if isn n then map (ren t f) (oin (on g n)) else oin (on g n)) (map (ren t f) (oout (on g n))).
Proof.
  intros H. rewrite g2_on, on1_old by exact H. rewrite ds_count. assert (M := proj2 (o_mem_In n (oids g)) H). rewrite M.
  assert (FT : f <> t) by (assert (X := t_small); lia).
  assert (O : n <> p -> map (ren t f) (oout (on g n)) = oout (on g n)).
  { intros NP. rewrite <- (map_id (oout (on g n))) at 2. apply map_ext_in. intros x X. unfold ren. destruct (x =? t) eqn:E; [|reflexivity].
    apply Nat.eqb_eq in E. subst. destruct WF as (_ & N & _). destruct (N n H) as (_ & _ & _ & Q & _). elim NP. symmetry. exact (proj2 (Q t X)). }
  destruct (n =? p) eqn:E.
  - apply Nat.eqb_eq in E. subst n. unfold np. cbn [okd oin oout]. f_equal. destruct (isn p); [apply sub_all; exact FT|reflexivity].
  - apply Nat.eqb_neq in E. rewrite O by exact E. f_equal. destruct (isn n); [apply sub_all; exact FT|reflexivity].
Qed.
Lemma p_isn : isn p = true.
Proof.
  unfold isn. destruct t_made as [P Q]. destruct WF as (_ & N & _). destruct (N p P) as (_ & _ & _ & _ & O).
  destruct (okd (on g p)) eqn:K; try reflexivity. destruct (O K) as [E _]. unfold g in Q. rewrite E in Q. contradiction.
Qed.
Lemma prod_f : oprod g2 f = p.
Proof. rewrite g2_prod. unfold o_upd. destruct (f =? t) eqn:E; [apply Nat.eqb_eq in E; assert (X := t_small); lia|]. now rewrite Nat.eqb_refl. Qed.
Lemma prod_t : oprod g2 t = f.
Proof. rewrite g2_prod. unfold o_upd. now rewrite Nat.eqb_refl. Qed.
Lemma prod_x x : x <> t -> x <> f -> oprod g2 x = oprod g x.
Proof. intros A B. rewrite g2_prod. unfold o_upd. apply Nat.eqb_neq in A, B. now rewrite A, B. Qed.

Lemma step_live : remove_pos (s_rem s2) (oed g2) =
  map snd (filter (fun ie => negb (from_to p t (snd ie) && isn (e_dst ie))) (ilive (s_rem s) (oed g))) ++ [(p, f, f); (f, S f, t)] ++ map (fun d => (p, d, f)) ds.
Proof.
  assert (B : forall i, In i (s_rem s ++ map fst nexts) -> i < length (oed g)).
  { intros i H. apply in_app_or in H. destruct H as [H|H]; [now apply (i_rem s I)|]. apply in_map_iff in H. destruct H as (ie & <- & H).
    apply filter_In in H. destruct H as [H _]. apply filter_In in H. destruct H as [H _]. apply filter_In in H. destruct H as [H _].
    destruct ie as [i e]. apply in_combine_l, in_seq in H. cbn. lia. }
  cbn [s_rem s2]. rewrite g2_ed, live_app by exact B. f_equal. unfold remove_pos. f_equal.
  assert (E : nexts = filter (fun ie => from_to p t (snd ie) && isn (e_dst ie)) (ilive (s_rem s) (oed g))).
  { unfold nexts, es, o_edges. generalize (ilive (s_rem s) (oed g)). intros L. induction L as [|a L IH]; cbn; [reflexivity|].
    destruct (from_to p t (snd a)); cbn [andb filter]; [destruct (isn (e_dst a)); [now f_equal|exact IH]|exact IH]. }
  rewrite E. apply ilive_more.
Qed.
Lemma outs_In n : In n (map e_dst outs) <-> In (p, n, t) (remove_pos (s_rem s) (oed g)) /\ okd (on g n) = OOut.
Proof.
  unfold outs, es, o_edges, remove_pos. rewrite !in_map_iff. split.
  - intros (ie & <- & H). apply filter_In in H. destruct H as [H K]. apply filter_In in H. destruct H as [H F].
    destruct ie as [i [[a b] c]]. unfold from_to in F. cbn in *. rewrite andb_true_iff, !Nat.eqb_eq in F. destruct F as [-> ->].
    split; [exists (i, (p, b, t)); auto|]. unfold e_dst in *. cbn in *. destruct (okd (on g b)); try discriminate. reflexivity.
  - intros [(ie & E & H) K]. exists ie. unfold e_dst. rewrite E. split; [reflexivity|]. apply filter_In. rewrite E. cbn. rewrite K. split; [|reflexivity].
    apply filter_In. split; [exact H|]. rewrite E. unfold from_to. cbn. now rewrite !Nat.eqb_refl.
Qed.
Lemma count_ren_t l : (forall x, In x l -> x < f) -> count_occ Nat.eq_dec (map (ren t f) l) t = 0.
Proof.
  intros _. apply count_occ_not_In. intros H. apply in_map_iff in H. destruct H as (x & E & _). unfold ren in E.
  destruct (x =? t) eqn:Q; [assert (X := t_small); lia|apply Nat.eqb_neq in Q; congruence].
Qed.
Lemma count_ren_f l : (forall x, In x l -> x < f) -> count_occ Nat.eq_dec (map (ren t f) l) f = count_occ Nat.eq_dec l t.
Proof.
  induction l as [|a l IH]; intros B; cbn [map count_occ]; [reflexivity|]. rewrite IH by (intros; apply B; now right).
  assert (X := B a (or_introl eq_refl)). unfold ren. destruct (a =? t) eqn:E.
  - apply Nat.eqb_eq in E. subst. destruct (Nat.eq_dec f f); [|congruence]. destruct (Nat.eq_dec t t); [|congruence]. reflexivity.
  - apply Nat.eqb_neq in E. destruct (Nat.eq_dec a f); [lia|]. destruct (Nat.eq_dec a t); [congruence|]. reflexivity.
Qed.
Lemma count_ren_x l x : x <> t -> x <> f -> count_occ Nat.eq_dec (map (ren t f) l) x = count_occ Nat.eq_dec l x.
Proof.
  intros A B. induction l as [|a l IH]; cbn [map count_occ]; [reflexivity|]. rewrite IH. unfold ren. destruct (a =? t) eqn:E.
  - apply Nat.eqb_eq in E. subst. destruct (Nat.eq_dec f x); [congruence|]. destruct (Nat.eq_dec t x); [congruence|]. reflexivity.
  - reflexivity.
Qed.
Lemma ins_small n x : In n (oids g) -> In x (oin (on g n)) -> x < f.
Proof. destruct WF as (_ & N & _). intros H X. destruct (N n H) as (_ & _ & Q & _). exact (proj1 (Q x X)). Qed.
Lemma count_fresh n : In n (oids g) -> count_occ Nat.eq_dec (oin (on g n)) f = 0.
Proof. intros H. apply count_occ_not_In. intros X. apply (ins_small n f H) in X. lia. Qed.

Lemma step_edges a d x : ~ In d (s_rv s2) -> ecount a d x (remove_pos (s_rem s2) (oed g2)) =
  if (a =? oprod g2 x) && o_mem d (oids g2) then count_occ Nat.eq_dec (oin (on g2 d)) x else 0.
Proof.
  intros RV. cbn [s_rv s2] in RV. assert (RV1 : ~ In d (s_rv s)) by (intros H; apply RV, in_or_app; now left).
  assert (RV2 : ~ In d (map e_dst outs)) by (intros H; apply RV, in_or_app; now right).
  rewrite step_live, !ecount_app. rewrite (ecount_filter a d x p t isn). fold (remove_pos (s_rem s) (oed g)).
  rewrite ecount_map, ds_count. rewrite (edges_old a d x RV1).
  assert (TS := t_small). assert (FT : f <> t) by lia.
  assert (C2 : ecount a d x [(p, f, f); (f, S f, t)] = (if (p =? a) && (f =? d) && (f =? x) then 1 else 0) + (if (f =? a) && (S f =? d) && (t =? x) then 1 else 0)).
  { unfold ecount. cbn [filter fst snd]. destruct ((p =? a) && (f =? d) && (f =? x)), ((f =? a) && (S f =? d) && (t =? x)); reflexivity. }
  rewrite C2. clear C2. rewrite g2_ids.
  destruct (o_mem d (oids g)) eqn:MD.
  - (* an old node *)
    apply o_mem_In in MD. assert (DS := small d MD).
    assert (M2 : o_mem d (oids g ++ [f; S f]) = true) by (apply o_mem_In, in_or_app; now left).
    rewrite M2, !andb_true_r. rewrite out_old by exact MD. cbn [oin].
    replace (f =? d) with false by (symmetry; apply Nat.eqb_neq; lia). replace (S f =? d) with false by (symmetry; apply Nat.eqb_neq; lia).
    rewrite !andb_false_r. cbn [andb Nat.add].
    destruct (isn d) eqn:K.
    + rewrite andb_true_r. destruct (Nat.eq_dec x t) as [->|XT].
      * rewrite Nat.eqb_refl, andb_true_r, count_ren_t by (intros; eapply ins_small; eauto).
        replace (t =? f) with false by (symmetry; apply Nat.eqb_neq; lia). rewrite andb_false_r, Nat.add_0_r.
        change (oprod g t) with p. destruct (a =? p); destruct (a =? oprod g2 t); reflexivity.
      * assert (X := XT). apply Nat.eqb_neq in X. rewrite X, andb_false_r. destruct (Nat.eq_dec x f) as [->|XF].
        -- rewrite Nat.eqb_refl, andb_true_r, prod_f, count_ren_f by (intros; eapply ins_small; eauto). rewrite count_fresh by exact MD.
           destruct (a =? oprod g f); reflexivity.
        -- rewrite prod_x, count_ren_x by assumption. apply Nat.eqb_neq in XF. rewrite XF, andb_false_r. lia.
    + rewrite andb_false_r.
      assert (Z : (if (a =? p) && (x =? f) then 0 else 0) = 0) by (destruct ((a =? p) && (x =? f)); reflexivity).
      assert (NT : count_occ Nat.eq_dec (oin (on g d)) t = 0).
      { destruct (count_occ Nat.eq_dec (oin (on g d)) t) eqn:Q; [reflexivity|]. elim RV2. apply outs_In. split.
        - apply ecount_In. rewrite (edges_old p d t RV1). change (oprod g t) with p. rewrite Nat.eqb_refl. apply o_mem_In in MD. rewrite MD. cbn. lia.
        - unfold isn in K. destruct (okd (on g d)); try discriminate. reflexivity. }
      destruct (Nat.eq_dec x t) as [->|XT].
      * rewrite NT. destruct (a =? oprod g t), (a =? oprod g2 t); exact Z || lia.
      * destruct (Nat.eq_dec x f) as [->|XF].
        -- rewrite count_fresh by exact MD. destruct (a =? oprod g f), (a =? oprod g2 f); exact Z || lia.
        -- rewrite prod_x by assumption. lia.
  - (* a new node or none *)
    rewrite andb_false_r. replace (if (a =? p) && (x =? t) && isn d then 0 else 0) with 0 by (destruct ((a =? p) && (x =? t) && isn d); reflexivity).
    replace (if isn d then 0 else 0) with 0 by (destruct (isn d); reflexivity).
    replace (if (a =? p) && (x =? f) then 0 else 0) with 0 by (destruct ((a =? p) && (x =? f)); reflexivity).
    rewrite Nat.add_0_l, Nat.add_0_r. apply o_mem_not in MD.
    destruct (Nat.eq_dec d f) as [->|DF]; [|destruct (Nat.eq_dec d (S f)) as [->|DS]].
    + assert (M2 : o_mem f (oids g ++ [f; S f]) = true) by (apply o_mem_In, in_or_app; right; now left).
      rewrite M2, andb_true_r, out_f, Nat.eqb_refl, andb_true_r. cbn [oin count_occ]. replace (S f =? f) with false by (symmetry; apply Nat.eqb_neq; lia).
      rewrite andb_false_r. cbn [andb]. rewrite Nat.add_0_r. rewrite (Nat.eqb_sym f x), (Nat.eqb_sym p a). destruct (Nat.eq_dec f x) as [<-|N].
      * rewrite prod_f, Nat.eqb_refl, andb_true_r. reflexivity.
      * replace (x =? f) with false by (symmetry; apply Nat.eqb_neq; lia). rewrite andb_false_r. destruct (a =? oprod g2 x); reflexivity.
    + assert (M2 : o_mem (S f) (oids g ++ [f; S f]) = true) by (apply o_mem_In, in_or_app; right; right; now left).
      rewrite M2, andb_true_r, out_Sf, Nat.eqb_refl, andb_true_r. cbn [oin count_occ]. replace (f =? S f) with false by (symmetry; apply Nat.eqb_neq; lia).
      rewrite andb_false_r. cbn [andb]. rewrite Nat.add_0_l. rewrite (Nat.eqb_sym t x), (Nat.eqb_sym f a). destruct (Nat.eq_dec t x) as [<-|N].
      * rewrite prod_t, Nat.eqb_refl, andb_true_r. reflexivity.
      * replace (x =? t) with false by (symmetry; apply Nat.eqb_neq; lia). rewrite andb_false_r. destruct (a =? oprod g2 x); reflexivity.
    + assert (M2 : o_mem d (oids g ++ [f; S f]) = false).
      { apply o_mem_not. intros H. apply in_app_or in H. destruct H as [H|[H|[H|[]]]]; [contradiction|lia|lia]. }
      rewrite M2, andb_false_r. replace (f =? d) with false by (symmetry; apply Nat.eqb_neq; lia). replace (S f =? d) with false by (symmetry; apply Nat.eqb_neq; lia).
      rewrite !andb_false_r. reflexivity.
Qed.

Lemma ren_t : ren t f t = f.
Proof. unfold ren. now rewrite Nat.eqb_refl. Qed.
Lemma ren_x x : x <> t -> ren t f x = x.
Proof. intros H. unfold ren. apply Nat.eqb_neq in H. now rewrite H. Qed.
Lemma made_old x : x <> t -> x < f -> In (oprod g x) (oids g) -> In x (oout (on g (oprod g x))) ->
  In (oprod g2 x) (oids g2) /\ In x (oout (on g2 (oprod g2 x))).
Proof.
  intros XT XF A B. assert (XN : x <> f) by lia. rewrite (prod_x x XT XN). rewrite g2_ids. split; [apply in_or_app; now left|].
  rewrite out_old by exact A. cbn [oout]. assert (M := in_map (ren t f) _ _ B). now rewrite (ren_x x XT) in M.
Qed.
Lemma made_t : In (oprod g2 t) (oids g2) /\ In t (oout (on g2 (oprod g2 t))).
Proof. rewrite prod_t, g2_ids, out_f. split; [apply in_or_app; right; now left|now left]. Qed.
Lemma made_f : In (oprod g2 f) (oids g2) /\ In f (oout (on g2 (oprod g2 f))).
Proof.
  destruct t_made as [A B]. rewrite prod_f, g2_ids, out_old by exact A. split; [apply in_or_app; now left|]. cbn [oout].
  assert (M := in_map (ren t f) _ _ B). now rewrite ren_t in M.
Qed.
Lemma NoDup_ren l : (forall x, In x l -> x < f) -> NoDup l -> NoDup (map (ren t f) l).
Proof.
  intros B N. induction l as [|a l IH]; cbn; [constructor|]. inversion N as [|? ? X Y]; subst. constructor.
  - intros H. apply in_map_iff in H. destruct H as (b & E & H). assert (BA := B a (or_introl eq_refl)). assert (BB := B b (or_intror H)).
    unfold ren in E. destruct (b =? t) eqn:Q1, (a =? t) eqn:Q2; rewrite ?Nat.eqb_eq, ?Nat.eqb_neq in *; subst; try lia; contradiction.
  - apply IH; [|exact Y]. intros; apply B; now right.
Qed.
Lemma step_wf : o_wf g2.
Proof.
  assert (W := WF). destruct W as (ND & N & O). fold g in ND, N, O. assert (TS := t_small). repeat split.
  - rewrite g2_ids. assert (X : forall l, NoDup l -> (forall n, In n l -> n < f) -> NoDup (l ++ [f; S f])).
    { induction l as [|a l IH]; cbn; intros A B.
      - constructor; [intros [E|[]]; lia|]. constructor; [intros []|constructor].
      - inversion A as [|? ? P Q]; subst. constructor; [|apply IH; auto]. intros H. assert (L := B a (or_introl eq_refl)).
        apply in_app_or in H. destruct H as [H|[H|[H|[]]]]; [contradiction|lia|lia]. }
    apply X; [exact ND|]. apply small.
  - rewrite g2_next. rewrite g2_ids in H. apply in_app_or in H. destruct H as [H|[H|[H|[]]]]; [apply small in H|..]; lia.
  - rewrite g2_ids in H. apply in_app_or in H. destruct H as [H|[<-|[<-|[]]]].
    + rewrite out_old by exact H. cbn [oout]. destruct (N n H) as (_ & A & _ & B & _). apply NoDup_ren; [|exact A]. intros x X. exact (proj1 (B x X)).
    + rewrite out_f. constructor; [intros []|constructor].
    + rewrite out_Sf. constructor.
  - rewrite g2_next. rewrite g2_ids in H. apply in_app_or in H. destruct H as [H|[<-|[<-|[]]]].
    + rewrite out_old in H0 by exact H. cbn [oin] in H0. destruct (isn n).
      * apply in_map_iff in H0. destruct H0 as (y & <- & Y). apply ins_small in Y; [|exact H]. unfold ren. destruct (y =? t); lia.
      * apply ins_small in H0; [lia|exact H].
    + rewrite out_f in H0. destruct H0 as [<-|[]]. lia.
    + rewrite out_Sf in H0. destruct H0 as [<-|[]]. lia.
  - assert (X : t0 = t \/ t0 = f \/ (t0 <> t /\ t0 < f /\ In (oprod g t0) (oids g) /\ In t0 (oout (on g (oprod g t0))))).
    { rewrite g2_ids in H. apply in_app_or in H. destruct H as [H|[<-|[<-|[]]]].
      - rewrite out_old in H0 by exact H. cbn [oin] in H0. destruct (N n H) as (_ & _ & A & _).
        assert (Y : In t0 (oin (on g n)) -> t0 = t \/ t0 = f \/ (t0 <> t /\ t0 < f /\ In (oprod g t0) (oids g) /\ In t0 (oout (on g (oprod g t0))))).
        { intros Y. destruct (Nat.eq_dec t0 t); [now left|]. right. right. destruct (A t0 Y) as (Y1 & Y2 & Y3). auto. }
        destruct (isn n); [|exact (Y H0)]. apply in_map_iff in H0. destruct H0 as (y & E & H0). unfold ren in E. destruct (y =? t); [right; left; congruence|]. subst. exact (Y H0).
      - rewrite out_f in H0. destruct H0 as [<-|[]]. right; now left.
      - rewrite out_Sf in H0. destruct H0 as [<-|[]]. now left. }
    destruct X as [->|[->|(X1 & X2 & X3 & X4)]]; [exact (proj1 made_t)|exact (proj1 made_f)|exact (proj1 (made_old t0 X1 X2 X3 X4))].
  - assert (X : t0 = t \/ t0 = f \/ (t0 <> t /\ t0 < f /\ In (oprod g t0) (oids g) /\ In t0 (oout (on g (oprod g t0))))).
    { rewrite g2_ids in H. apply in_app_or in H. destruct H as [H|[<-|[<-|[]]]].
      - rewrite out_old in H0 by exact H. cbn [oin] in H0. destruct (N n H) as (_ & _ & A & _).
        assert (Y : In t0 (oin (on g n)) -> t0 = t \/ t0 = f \/ (t0 <> t /\ t0 < f /\ In (oprod g t0) (oids g) /\ In t0 (oout (on g (oprod g t0))))).
        { intros Y. destruct (Nat.eq_dec t0 t); [now left|]. right. right. destruct (A t0 Y) as (Y1 & Y2 & Y3). auto. }
        destruct (isn n); [|exact (Y H0)]. apply in_map_iff in H0. destruct H0 as (y & E & H0). unfold ren in E. destruct (y =? t); [right; left; congruence|]. subst. exact (Y H0).
      - rewrite out_f in H0. destruct H0 as [<-|[]]. right; now left.
      - rewrite out_Sf in H0. destruct H0 as [<-|[]]. now left. }
    destruct X as [->|[->|(X1 & X2 & X3 & X4)]]; [exact (proj2 made_t)|exact (proj2 made_f)|exact (proj2 (made_old t0 X1 X2 X3 X4))].
  - rewrite g2_next. rewrite g2_ids in H. apply in_app_or in H. destruct H as [H|[<-|[<-|[]]]].
    + rewrite out_old in H0 by exact H. cbn [oout] in H0. apply in_map_iff in H0. destruct H0 as (y & <- & Y).
      destruct (N n H) as (_ & _ & _ & B & _). destruct (B y Y) as [B1 _]. fold f in B1. unfold ren. destruct (y =? t); lia.
    + rewrite out_f in H0. destruct H0 as [<-|[]]. lia.
    + rewrite out_Sf in H0. destruct H0.
  - rewrite g2_ids in H. apply in_app_or in H. destruct H as [H|[<-|[<-|[]]]].
    + rewrite out_old in H0 by exact H. cbn [oout] in H0. apply in_map_iff in H0. destruct H0 as (y & <- & Y).
      destruct (N n H) as (_ & _ & _ & B & _). destruct (B y Y) as [B1 B2]. fold f in B1. unfold ren. destruct (y =? t) eqn:E.
      * apply Nat.eqb_eq in E. subst y. rewrite prod_f. exact B2.
      * apply Nat.eqb_neq in E. rewrite prod_x by lia. exact B2.
    + rewrite out_f in H0. destruct H0 as [<-|[]]. apply prod_t.
    + rewrite out_Sf in H0. destruct H0.
  - rewrite g2_ids in H. apply in_app_or in H. destruct H as [H|[<-|[<-|[]]]].
    + rewrite out_old in * by exact H. cbn [okd oout] in *. destruct (N n H) as (_ & _ & _ & _ & C). destruct (C H0) as [E _]. now rewrite E.
    + rewrite out_f in H0. discriminate.
    + rewrite out_Sf. reflexivity.
  - rewrite g2_outs. rewrite g2_ids in H. apply in_app_or in H. destruct H as [H|[<-|[<-|[]]]].
    + rewrite out_old in * by exact H. cbn [okd oin] in *. destruct (N n H) as (_ & _ & _ & _ & C). destruct (C H0) as [_ (x & X & E)].
      exists x. split; [exact X|]. unfold isn. rewrite H0. exact E.
    + rewrite out_f in H0. discriminate.
    + rewrite out_Sf. exists t. auto.
  - rewrite g2_outs in H. destruct (Nat.eq_dec t0 t) as [->|D]; [exact (proj1 made_t)|]. destruct (O t0 H) as [A B].
    destruct (N _ A) as (_ & _ & _ & Q & _). exact (proj1 (made_old t0 D (proj1 (Q t0 B)) A B)).
  - rewrite g2_outs in H. destruct (Nat.eq_dec t0 t) as [->|D]; [exact (proj2 made_t)|]. destruct (O t0 H) as [A B].
    destruct (N _ A) as (_ & _ & _ & Q & _). exact (proj2 (made_old t0 D (proj1 (Q t0 B)) A B)).
Qed.
Lemma outs_old n : In n (map e_dst outs) -> In n (oids g) /\ okd (on g n) = OOut.
Proof.
  intros H. apply outs_In in H. destruct H as [H K]. split; [|exact K].
  destruct (in_dec Nat.eq_dec n (s_rv s)) as [R|R]; [exact (proj1 (rv_out n R))|].
  apply ecount_In in H. rewrite (edges_old p n t R) in H. destruct (o_mem n (oids g)) eqn:M; [now apply o_mem_In|]. rewrite andb_false_r in H. lia.
Qed.
Lemma step_inv : inv s2.
Proof.
  constructor.
  - exact step_wf.
  - cbn [s_rem s2 s_g]. rewrite g2_ed, app_length. intros i H. apply in_app_or in H. destruct H as [H|H]; [apply (i_rem s I) in H; fold g in H; lia|].
    apply in_map_iff in H. destruct H as (ie & <- & H).
    apply filter_In in H. destruct H as [H _]. apply filter_In in H. destruct H as [H _]. apply filter_In in H. destruct H as [H _].
    destruct ie as [i e]. apply in_combine_l, in_seq in H. cbn. lia.
  - cbn [s_rv s2 s_g]. intros n H. assert (X : In n (oids g) /\ okd (on g n) = OOut) by (apply in_app_or in H; destruct H as [H|H]; [now apply rv_out|now apply outs_old]).
    destruct X as [A B]. rewrite g2_ids, out_old by exact A. split; [apply in_or_app; now left|exact B].
  - cbn [s_acts s2]. apply (i_acts s I).
  - intros a d x H. exact (step_edges a d x H).
Qed.
(** the OUTPUT nodes *)
Lemma step_out_t n : live_at s2 t n <-> n = S f.
Proof.
  unfold live_at, out_at. cbn [s_g s2 s_rv]. split.
  - intros ((H & E) & R). rewrite g2_ids in H. apply in_app_or in H. destruct H as [H|[<-|[<-|[]]]]; [exfalso| |reflexivity].
    + rewrite out_old in E by exact H. injection E as K L M. apply R. apply in_or_app.
      destruct (in_dec Nat.eq_dec n (s_rv s)) as [V|V]; [now left|right]. apply outs_In. split; [|exact K]. apply ecount_In. rewrite (edges_old p n t V).
      change (oprod g t) with p. rewrite Nat.eqb_refl, (proj2 (o_mem_In n (oids g)) H). cbn [andb]. unfold isn in L. rewrite K in L. cbn [is_oout negb] in L. rewrite L.
      cbn. destruct (Nat.eq_dec t t); [lia|congruence].
    + rewrite out_f in E. discriminate.
  - intros ->. rewrite g2_ids, out_Sf. split; [split; [apply in_or_app; right; right; now left|reflexivity]|].
    intros H. apply in_app_or in H. destruct H as [H|H]; [apply rv_out in H|apply outs_old in H]; destruct H as [H _]; apply small in H; lia.
Qed.
Lemma step_out_x x n : x <> t -> (live_at s2 x n <-> live_at s x n).
Proof.
  intros X. unfold live_at, out_at. cbn [s_g s2 s_rv]. fold g. split.
  - intros ((H & E) & R). assert (R1 : ~ In n (s_rv s)) by (intros Q; apply R, in_or_app; now left).
    rewrite g2_ids in H. apply in_app_or in H. destruct H as [H|[<-|[<-|[]]]].
    + rewrite out_old in E by exact H. injection E as K L M. unfold isn in L. rewrite K in L. cbn in L. apply map_eq_nil in M.
      split; [split; [exact H|]|exact R1]. assert (Z : on g n = mkON (okd (on g n)) (oin (on g n)) (oout (on g n))) by (now destruct (on g n)). rewrite Z, K, L, M. reflexivity.
    + rewrite out_f in E. discriminate.
    + rewrite out_Sf in E. congruence.
  - intros ((H & E) & R). rewrite g2_ids. split; [split; [apply in_or_app; now left|]|].
    + rewrite out_old by exact H. unfold isn. rewrite E. reflexivity.
    + intros Q. apply in_app_or in Q. destruct Q as [Q|Q]; [contradiction|]. apply outs_In in Q. destruct Q as [Q _].
      apply ecount_In in Q. rewrite (edges_old p n t R), E in Q. cbn [oin count_occ] in Q. destruct (Nat.eq_dec x t); [congruence|].
      destruct ((p =? oprod g t) && o_mem n (oids g)); cbn in Q; lia.
Qed.
(** the values *)
Context {V : Type} (den : nat -> list V -> list V) (tr : bool -> V -> V) (v : nat -> V).
Let v2 (x : nat) : V := if x =? t then tr true (v t) else if x =? f then v t else v x.
Lemma v2_t : v2 t = tr true (v t).
Proof. unfold v2. now rewrite Nat.eqb_refl. Qed.
Lemma v2_f : v2 f = v t.
Proof. unfold v2. assert (X := t_small). destruct (f =? t) eqn:E; [apply Nat.eqb_eq in E; lia|]. now rewrite Nat.eqb_refl. Qed.
Lemma v2_x x : x <> t -> x < f -> v2 x = v x.
Proof. intros A B. unfold v2. apply Nat.eqb_neq in A. rewrite A. destruct (x =? f) eqn:E; [apply Nat.eqb_eq in E; lia|reflexivity]. Qed.
Lemma v2_ren l : (forall x, In x l -> x < f) -> map v2 (map (ren t f) l) = map v l.
Proof.
  intros B. rewrite map_map. apply map_ext_in. intros x X. destruct (Nat.eq_dec x t) as [->|D]; [rewrite ren_t; apply v2_f|].
  rewrite ren_x by exact D. apply v2_x; auto.
Qed.
Lemma outs_small n x : In n (oids g) -> In x (oout (on g n)) -> x < f.
Proof. destruct WF as (_ & N & _). intros H X. destruct (N n H) as (_ & _ & _ & Q & _). exact (proj1 (Q x X)). Qed.
Lemma isn_true n : okd (on g n) <> OOut -> isn n = true.
Proof. unfold isn. destruct (okd (on g n)); try reflexivity. congruence. Qed.
Lemma step_keeps : o_keeps tr [t] g v g2 v2.
Proof.
  split.
  - intros n H K. rewrite g2_ids, out_old by exact H. cbn [okd oin oout]. rewrite isn_true by exact K.
    rewrite (v2_ren (oin (on g n))) by (intros x X; exact (ins_small n x H X)). rewrite (v2_ren (oout (on g n))) by (intros x X; exact (outs_small n x H X)).
    split; [apply in_or_app; now left|auto].
  - intros x X. cbn [o_mem existsb]. rewrite orb_false_r. destruct (x =? t) eqn:E.
    + apply Nat.eqb_eq in E. subst. apply v2_t.
    + apply Nat.eqb_neq in E. apply v2_x; [exact E|]. destruct WF as (_ & _ & O). destruct (O x X) as [A B]. exact (outs_small _ _ A B).
Qed.
Lemma step_computes : o_computes den tr g v -> o_computes den tr g2 v2.
Proof.
  intros C n H. rewrite g2_ids in H. apply in_app_or in H. destruct H as [H|[<-|[<-|[]]]].
  - rewrite out_old by exact H. cbn [okd oin oout]. assert (X := C n H). destruct (okd (on g n)) eqn:K; try exact Logic.I;
      rewrite isn_true by (rewrite K; discriminate);
      rewrite (v2_ren (oin (on g n))) by (intros x Q; exact (ins_small n x H Q)); rewrite (v2_ren (oout (on g n))) by (intros x Q; exact (outs_small n x H Q)); exact X.
  - rewrite out_f. cbn [okd oin oout map]. rewrite v2_t, v2_f. reflexivity.
  - rewrite out_Sf. exact Logic.I.
Qed.
Lemma step_all : source_ok g t -> o_computes den tr g v -> exists s' v', next_step s t = Some s' /\ inv s' /\ o_computes den tr (s_g s') v' /\
  o_keeps tr [t] g v (s_g s') v' /\ oouts (s_g s') = oouts g /\
  (exists n, forall m, live_at s' t m <-> m = n) /\ (forall x m, x <> t -> (live_at s' x m <-> live_at s x m)) /\
  (forall x, In x (oouts g) -> x <> t -> oprod (s_g s') x = oprod g x).
Proof.
  intros S C. exists s2, v2. split; [now apply step_eq|]. split; [exact step_inv|]. split; [now apply step_computes|]. split; [exact step_keeps|].
  split; [exact g2_outs|]. split; [exists (Datatypes.S f); exact step_out_t|]. split; [exact step_out_x|].
  intros x X D. apply prod_x; [exact D|]. destruct WF as (_ & _ & O). destruct (O x X) as [A B]. apply (outs_small _ _ A) in B. lia.
Qed.
End Step.

(** * All outputs *)
Lemma prod_kind g t : o_wf g -> In t (oouts g) -> In (oprod g t) (oids g) /\ okd (on g (oprod g t)) <> OOut.
Proof.
  intros (_ & N & O) H. destruct (O t H) as [A B]. split; [exact A|]. intros K. destruct (N _ A) as (_ & _ & _ & _ & C). destruct (C K) as [E _]. now rewrite E in B.
Qed.
Lemma steps_all {V} (den : nat -> list V -> list V) tr : forall ts s v, inv s -> NoDup ts ->
  (forall t, In t ts -> In t (oouts (s_g s)) /\ source_ok (s_g s) t) -> o_computes den tr (s_g s) v ->
  exists s' v', next_steps ts s = Some s' /\ inv s' /\ o_computes den tr (s_g s') v' /\
  o_keeps tr ts (s_g s) v (s_g s') v' /\ oouts (s_g s') = oouts (s_g s) /\
  (forall t, In t ts -> exists n, forall m, live_at s' t m <-> m = n) /\ (forall x m, ~ In x ts -> (live_at s' x m <-> live_at s x m)).
Proof.
  induction ts as [|t ts IH]; intros s v I N T C.
  - exists s, v. cbn [next_steps]. split; [reflexivity|]. split; [exact I|]. split; [exact C|]. split; [split; [auto|reflexivity]|]. split; [reflexivity|]. split; [intros t []|tauto].
  - inversion N as [|? ? N1 N2]; subst. destruct (T t (or_introl eq_refl)) as [T1 T2].
    destruct (step_all s t I T1 den tr v T2 C) as (s1 & v1 & E1 & I1 & C1 & K1 & O1 & L1 & M1 & P1).
    destruct (IH s1 v1 I1 N2) as (s2 & v2 & E2 & I2 & C2 & K2 & O2 & L2 & M2).
    { intros x X. destruct (T x (or_intror X)) as [X1 X2]. rewrite O1. split; [exact X1|].
      assert (D : x <> t) by (intros ->; contradiction). unfold source_ok. rewrite (P1 x X1 D).
      destruct (prod_kind _ x (i_wf s I) X1) as [A B]. destruct K1 as [K1 _]. destruct (K1 _ A B) as (_ & K & _). rewrite K. exact X2. }
    { exact C1. }
    exists s2, v2. cbn [next_steps]. rewrite E1. split; [exact E2|]. split; [exact I2|]. split; [exact C2|]. split; [|split; [congruence|split]].
    + destruct K1 as [A1 B1], K2 as [A2 B2]. split.
      * intros n H K. destruct (A1 n H K) as (Q1 & Q2 & Q3 & Q4). assert (K' : okd (on (s_g s1) n) <> OOut) by congruence.
        destruct (A2 n Q1 K') as (R1 & R2 & R3 & R4). repeat split; [exact R1|congruence..].
      * intros x X. rewrite B2 by congruence. rewrite (B1 x X). cbn [o_mem existsb]. fold (o_mem x ts). rewrite orb_false_r.
        destruct (x =? t) eqn:E; [|reflexivity]. apply Nat.eqb_eq in E. subst. assert (F : o_mem t ts = false) by now apply o_mem_not. rewrite F. reflexivity.
    + intros x [<-|X]; [|now apply L2]. destruct L1 as (n & L1). exists n. intros m. rewrite (M2 t m N1). apply L1.
    + intros x m X. rewrite M2 by (intros H; apply X; now right). apply M1. intros ->. apply X. now left.
Qed.

(** * The end *)
Lemma ecount_keep s d t (R : list nat) : forall l, ecount s d t (filter (fun e : oedge => negb (o_mem (fst (fst e)) R) && negb (o_mem (snd (fst e)) R)) l) =
  if o_mem s R || o_mem d R then 0 else ecount s d t l.
Proof.
  unfold ecount. induction l as [|e l IH]; cbn [filter]; [destruct (o_mem s R || o_mem d R); reflexivity|].
  destruct ((fst (fst e) =? s) && (snd (fst e) =? d) && (snd e =? t)) eqn:E.
  - rewrite !andb_true_iff, !Nat.eqb_eq in E. destruct E as [[E1 E2] E3]. rewrite E1, E2 in *. rewrite <- negb_orb.
    destruct (o_mem s R || o_mem d R); cbn [negb]; [exact IH|]. cbn [filter]. rewrite E1, E2, E3, !Nat.eqb_refl. cbn [andb length]. now rewrite IH.
  - destruct (negb (o_mem (fst (fst e)) R) && negb (o_mem (snd (fst e)) R)); cbn [filter]; [rewrite E|]; exact IH.
Qed.
Lemma finish_eq s : s_acts s = [] -> o_finish s = let g := s_g s in
  mkOG (on g) (filter (fun n => negb (o_mem n (s_rv s))) (oids g))
       (filter (fun e => negb (o_mem (fst (fst e)) (s_rv s)) && negb (o_mem (snd (fst e)) (s_rv s))) (remove_pos (s_rem s) (oed g))) (oprod g) (onext g) (oouts g).
Proof. intros E. unfold o_finish. rewrite E. cbn [fold_left]. now rewrite app_nil_r. Qed.
Lemma finish_ids s n : inv s -> In n (oids (o_finish s)) <-> In n (oids (s_g s)) /\ ~ In n (s_rv s).
Proof. intros I. rewrite finish_eq by apply (i_acts s I). cbn [oids]. rewrite filter_In, negb_true_iff, o_mem_not. tauto. Qed.
Lemma finish_rest s : inv s -> on (o_finish s) = on (s_g s) /\ oprod (o_finish s) = oprod (s_g s) /\ onext (o_finish s) = onext (s_g s) /\ oouts (o_finish s) = oouts (s_g s).
Proof. intros I. rewrite finish_eq by apply (i_acts s I). auto. Qed.
Lemma finish_source s t : inv s -> In (oprod (s_g s) t) (oids (s_g s)) -> In t (oout (on (s_g s) (oprod (s_g s) t))) -> In (oprod (s_g s) t) (oids (o_finish s)).
Proof.
  intros I A B. apply finish_ids; [exact I|]. split; [exact A|]. intros R. destruct (i_rv s I _ R) as [_ K]. destruct (i_wf s I) as (_ & N & _).
  destruct (N _ A) as (_ & _ & _ & _ & C). destruct (C K) as [E _]. now rewrite E in B.
Qed.
Lemma finish_wf s : inv s -> o_wf (o_finish s).
Proof.
  intros I. assert (W := i_wf s I). destruct W as (ND & N & O). destruct (finish_rest s I) as (E1 & E2 & E3 & E4). unfold o_wf. rewrite E1, E2, E3, E4. split; [|split].
  - rewrite finish_eq by apply (i_acts s I). cbn [oids]. now apply NoDup_filter.
  - intros n H. apply finish_ids in H; [|exact I]. destruct H as [H R]. destruct (N n H) as (A & B & C & D & E). repeat split; auto.
    + exact (proj1 (C t H0)).
    + destruct (C t H0) as (_ & C1 & C2). now apply finish_source.
    + exact (proj2 (proj2 (C t H0))).
    + exact (proj1 (D t H0)).
    + exact (proj2 (D t H0)).
    + exact (proj1 (E H0)).
    + exact (proj2 (E H0)).
  - intros t H. destruct (O t H) as [A B]. split; [now apply finish_source|exact B].
Qed.
Lemma finish_consistent s : inv s -> o_consistent (o_finish s).
Proof.
  intros I a d t. destruct (finish_rest s I) as (E1 & E2 & _ & _). rewrite E1, E2.
  assert (M : o_mem d (oids (o_finish s)) = o_mem d (oids (s_g s)) && negb (o_mem d (s_rv s))).
  { apply eq_true_iff_eq. rewrite o_mem_In, finish_ids by exact I. rewrite andb_true_iff, o_mem_In, negb_true_iff, o_mem_not. tauto. }
  rewrite M. rewrite finish_eq by apply (i_acts s I). cbn [oed]. rewrite ecount_keep. destruct (o_mem d (s_rv s)) eqn:R.
  - rewrite orb_true_r, !andb_false_r. reflexivity.
  - rewrite orb_false_r, andb_true_r. apply o_mem_not in R. rewrite (i_edges s I a d t R). destruct (o_mem a (s_rv s)) eqn:Q; [|reflexivity].
    destruct (a =? oprod (s_g s) t) eqn:E; [|reflexivity]. destruct (o_mem d (oids (s_g s))) eqn:D; [|reflexivity]. cbn [andb]. symmetry.
    apply count_occ_not_In. intros H. apply o_mem_In in D, Q. apply Nat.eqb_eq in E. destruct (i_wf s I) as (_ & N & _).
    destruct (N d D) as (_ & _ & C & _). destruct (C t H) as (_ & X & Y). rewrite <- E in X, Y. destruct (i_rv s I a Q) as [_ K].
    destruct (N a X) as (_ & _ & _ & _ & Z). destruct (Z K) as [F _]. now rewrite F in Y.
Qed.

(** * The decisions *)
Lemma out_dict_spec : forall l, (forall t b b', In (t, b) l -> In (t, b') l -> b = b') ->
  exists d, out_dict l = Some d /\ NoDup (map fst d) /\ (forall x, In x d <-> In x l).
Proof.
  induction l as [|[t b] l IH]; intros H; [exists []; repeat split; auto; constructor|].
  destruct IH as (d & E & N & S); [intros; eapply H; right; eauto|]. cbn [out_dict]. rewrite E.
  destruct (find (fun x => fst x =? t) d) as [[t' b']|] eqn:F.
  - apply find_some in F. destruct F as [F1 F2]. cbn in F2. apply Nat.eqb_eq in F2. subst t'. apply S in F1.
    assert (B : b = b') by (apply (H t); [now left|now right]). subst b'. rewrite Bool.eqb_reflx. eexists. split; [reflexivity|]. split.
    + cbn [map fst]. constructor; [|now apply NoDup_map_filter]. intros X. apply in_map_iff in X. destruct X as ([x y] & X1 & X2). cbn in X1. subst x.
      apply filter_In in X2. cbn in X2. rewrite Nat.eqb_refl in X2. destruct X2 as [_ X2]. discriminate.
    + intros [x y]. cbn [In]. rewrite filter_In, negb_true_iff, Nat.eqb_neq, S. cbn [fst]. split; [tauto|]. intros [X|X]; [now left|].
      destruct (Nat.eq_dec x t) as [->|D]; [left|now right]. f_equal. apply (H t); [now left|now right].
  - eexists. split; [reflexivity|]. split.
    + cbn [map fst]. constructor; [|exact N]. intros X. apply in_map_iff in X. destruct X as (x & X1 & X2). apply (find_none _ _ F) in X2.
      rewrite X1, Nat.eqb_refl in X2. discriminate.
    + intros x. cbn [In]. rewrite S. tauto.
Qed.

Theorem output_transpose_ok {V} (den : nat -> list V -> list V) tr g flags v :
  o_wf g -> o_consistent g -> one_choice g flags -> o_computes den tr g v ->
  (forall t, In t (flagged g flags) -> okd (on g (oprod g t)) <> OIn /\ okd (on g (oprod g t)) <> OConst /\ okd (on g (oprod g t)) <> ODeq) ->
  exists g' v', output_transpose g flags = Some g' /\ o_wf g' /\ o_consistent g' /\ oouts g' = oouts g /\ o_computes den tr g' v' /\
    o_keeps tr (flagged g flags) g v g' v' /\
    (forall t, In t (flagged g flags) -> exists n, forall m, out_at g' t m <-> m = n) /\
    (forall t m, ~ In t (flagged g flags) -> (out_at g' t m <-> out_at g t m)).
Proof.
  intros W C OC V0 K. unfold output_transpose. destruct (out_dict_spec _ OC) as (d & E & N & S). rewrite E. set (ts := map fst (filter snd d)).
  assert (TS : forall t, In t ts <-> In t (flagged g flags)).
  { intros t. unfold ts, flagged. rewrite !in_map_iff. split; intros (x & X1 & X2); exists x; (split; [exact X1|]); apply filter_In in X2; apply filter_In;
      (split; [apply S|]; tauto). }
  assert (F1 : filter (is_deq g) ts = []).
  { assert (X : forall t, In t ts -> is_deq g t = false).
    { intros t X. apply TS in X. destruct (K t X) as (_ & _ & X3). unfold is_deq. destruct (okd (on g (oprod g t))); try reflexivity. congruence. }
    revert X. generalize ts. intros l. induction l as [|a l IH]; cbn; intros X; [reflexivity|]. rewrite X by now left. apply IH. intros; apply X; now right. }
  assert (F2 : filter (fun t => negb (is_deq g t)) ts = ts).
  { apply filter_all. intros t X. apply TS in X. destruct (K t X) as (_ & _ & X3). unfold is_deq. destruct (okd (on g (oprod g t))); try reflexivity. congruence. }
  rewrite F1, F2. cbn [fold_left]. set (s0 := mkOS g [] [] []).
  assert (L0 : remove_pos [] (oed g) = oed g).
  { unfold remove_pos, ilive. rewrite filter_all by reflexivity. apply map_snd_combine, seq_length. }
  assert (I0 : inv s0).
  { constructor; cbn; [exact W|intros i []|intros n []|reflexivity|]. intros a x t _. rewrite L0. apply C. }
  assert (ND : NoDup ts) by now apply NoDup_map_filter.
  destruct (steps_all den tr ts s0 v I0 ND) as (s' & v' & A1 & A2 & A3 & A4 & A5 & A6 & A7); [|exact V0|].
  { intros t X. apply TS in X. destruct (K t X) as (X1 & X2 & _). split; [|split; assumption]. unfold flagged in X. apply in_map_iff in X.
    destruct X as ([x y] & <- & X). apply filter_In in X. destruct X as [X _]. now apply in_combine_l in X. }
  rewrite A1. destruct (finish_rest s' A2) as (E1 & E2 & E3 & E4).
  assert (OA : forall t n, out_at (o_finish s') t n <-> live_at s' t n).
  { intros t n. unfold out_at, live_at, out_at. rewrite finish_ids, E1 by exact A2. tauto. }
  assert (IN : forall t, ~ In t ts -> ~ In t (flagged g flags)) by (intros t X Y; apply X, TS; exact Y).
  exists (o_finish s'), v'. split; [reflexivity|]. split; [now apply finish_wf|]. split; [now apply finish_consistent|]. split; [rewrite E4; exact A5|]. split; [|split; [|split]].
  - intros n H. apply finish_ids in H; [|exact A2]. rewrite E1. apply A3. tauto.
  - destruct A4 as [B1 B2]. split.
    + intros n H Q. destruct (B1 n H Q) as (R1 & R2 & R3 & R4). rewrite E1. split; [|auto]. apply finish_ids; [exact A2|]. split; [exact R1|].
      intros R. destruct (i_rv s' A2 n R) as [_ X]. apply Q. rewrite <- X. symmetry. exact R2.
    + intros t H. rewrite (B2 t H). assert (X : o_mem t ts = o_mem t (flagged g flags)) by (apply eq_true_iff_eq; rewrite !o_mem_In; apply TS). now rewrite X.
  - intros t H. apply TS in H. destruct (A6 t H) as (n & Q). exists n. intros m. rewrite OA. apply Q.
  - intros t m H. rewrite OA, A7 by (intros X; apply H, TS; exact X). unfold live_at, out_at. change (s_g s0) with g. change (s_rv s0) with (@nil nat). split; [tauto|]. intros Y. split; [exact Y|intros []].
Qed.

(** * Checking a graph *)
Definition below (N : nat) (l : list nat) : bool := forallb (fun x => x <? N) l.
Definition consistent_b (N : nat) (g : og) : bool :=
  forallb (fun e : oedge => (fst (fst e) <? N) && (snd (fst e) <? N) && (snd e <? N)) (oed g) && below N (oids g) &&
  forallb (fun n => below N (oin (on g n))) (oids g) && below N (map (oprod g) (seq 0 N)) &&
  forallb (fun s => forallb (fun d => forallb (fun t => ecount s d t (oed g) =? (if (s =? oprod g t) && o_mem d (oids g) then count_occ Nat.eq_dec (oin (on g d)) t else 0))
    (seq 0 N)) (seq 0 N)) (seq 0 N).
Lemma below_In N l x : below N l = true -> In x l -> x < N.
Proof. unfold below. rewrite forallb_forall. intros H X. now apply Nat.ltb_lt, H. Qed.
Lemma consistent_check N g : consistent_b N g = true -> o_consistent g.
Proof.
  unfold consistent_b. rewrite !andb_true_iff. intros ((((A & B) & C) & D) & E) s d t.
  assert (Z : ~ (s < N /\ d < N /\ t < N) -> ecount s d t (oed g) = 0).
  { intros H. destruct (ecount s d t (oed g)) eqn:Q; [reflexivity|]. elim H. assert (X : In (s, d, t) (oed g)) by (apply ecount_In; lia).
    rewrite forallb_forall in A. apply A in X. cbn [fst snd] in X. rewrite !andb_true_iff, !Nat.ltb_lt in X. tauto. }
  assert (R : ~ (s < N /\ d < N /\ t < N) -> (if (s =? oprod g t) && o_mem d (oids g) then count_occ Nat.eq_dec (oin (on g d)) t else 0) = 0).
  { intros H. destruct (o_mem d (oids g)) eqn:M; [|now rewrite andb_false_r]. apply o_mem_In in M. destruct (s =? oprod g t) eqn:S; [|reflexivity].
    apply Nat.eqb_eq in S. cbn [andb]. apply count_occ_not_In. intros X. apply H. rewrite forallb_forall in C. assert (TN := below_In _ _ _ (C d M) X).
    split; [|split; [exact (below_In _ _ _ B M)|exact TN]]. rewrite S. apply (below_In _ _ _ D). apply in_map, in_seq. lia. }
  destruct (lt_dec s N) as [HS|HS]; [|rewrite Z, R; tauto]. destruct (lt_dec d N) as [HD|HD]; [|rewrite Z, R; tauto]. destruct (lt_dec t N) as [HT|HT]; [|rewrite Z, R; tauto].
  rewrite forallb_forall in E. specialize (E s (proj2 (in_seq N 0 s) (conj (Nat.le_0_l s) HS))). rewrite forallb_forall in E.
  specialize (E d (proj2 (in_seq N 0 d) (conj (Nat.le_0_l d) HD))). rewrite forallb_forall in E.
  specialize (E t (proj2 (in_seq N 0 t) (conj (Nat.le_0_l t) HT))). now apply Nat.eqb_eq.
Qed.
Ltac o_wf_tac :=
  split; [repeat (constructor; [cbn; intuition discriminate|]); constructor|split];
  [intros n H; cbn in H; repeat (destruct H as [<-|H]; [cbn; split; [lia|]; split; [repeat (constructor; [cbn; intuition discriminate|]); constructor|];
     split; [intros x X; cbn in X; repeat (destruct X as [<-|X]; [cbn; intuition lia|]); destruct X|];
     split; [intros x X; cbn in X; repeat (destruct X as [<-|X]; [cbn; intuition lia|]); destruct X|];
     intros K; first [discriminate|split; [reflexivity|eexists; split; [|reflexivity]; cbn; tauto]]|]); destruct H
  |intros t H; cbn in H; repeat (destruct H as [<-|H]; [cbn; intuition lia|]); destruct H].

(** two dequantized outputs, one of them read by an operator *)
Definition st_on (n : nat) : onode :=
  match n with
  | 0 => mkON OIn [] [0] | 1 => mkON OOp [0] [1] | 2 => mkON ODeq [1] [2] | 3 => mkON OOp [2] [3] | 4 => mkON OOp [0] [4]
  | 5 => mkON ODeq [4] [5] | 6 => mkON OOut [5] [] | 7 => mkON OOut [2] [] | 8 => mkON OOut [3] [] | _ => mkON OIn [] [] end.
Definition st_g : og := mkOG st_on (seq 0 9) [(0,1,0);(1,2,1);(2,3,2);(0,4,0);(4,5,4);(5,6,5);(2,7,2);(3,8,3)] (fun t => t) 9 [5;2;3].
Lemma stale_lemma : exists g flags g', o_wf g /\ o_consistent g /\ one_choice g flags /\
  (forall t, In t (oouts g) -> okd (on g (oprod g t)) <> OIn /\ okd (on g (oprod g t)) <> OConst) /\
  output_transpose g flags = Some g' /\
  exists t n, In t (flagged g flags) /\ out_at g' t n /\ forall s, ~ In (s, n, t) (oed g').
Proof.
  exists st_g, [true; true; false]. eexists. split; [o_wf_tac|]. split; [apply (consistent_check 9); reflexivity|]. split; [|split; [|split; [vm_compute; reflexivity|]]].
  - intros t b b'. cbn. intros X Y. repeat (destruct X as [X|X]; [inversion X; subst; repeat (destruct Y as [Y|Y]; [now inversion Y|]); destruct Y|]). destruct X.
  - intros t H. cbn in H. repeat (destruct H as [<-|H]; [cbn; split; discriminate|]). destruct H.
  - exists 5, 6. split; [cbn; tauto|]. split; [split; [cbn; tauto|reflexivity]|]. intros s H. cbn in H. repeat (destruct H as [H|H]; [inversion H|]). destruct H.
Qed.
(** an output that is an input *)
Definition pt_on (n : nat) : onode := match n with 0 => mkON OIn [] [0] | 1 => mkON OOut [0] [] | _ => mkON OIn [] [] end.
Definition pt_g : og := mkOG pt_on [0; 1] [(0, 1, 0)] (fun t => t) 2 [0].
Lemma through_lemma : exists g flags, o_wf g /\ o_consistent g /\ one_choice g flags /\ output_transpose g flags = None.
Proof.
  exists pt_g, [true]. split; [o_wf_tac|]. split; [apply (consistent_check 2); reflexivity|]. split; [|reflexivity].
  intros t b b'. cbn. intros [X|[]] [Y|[]]. congruence.
Qed.
