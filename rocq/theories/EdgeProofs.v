(** Proofs about [fuse_connected_edges]. *)
From Coq Require Import List Arith Lia Permutation Bool.
From Verif Require Import Tensor ChainModel.
Import ListNotations.

(** The edges walked by a sequence of nodes. *)
Fixpoint path_edges (s : list nat) : list (nat * nat) :=
  match s with
  | [] => []
  | a :: s' => match s' with
               | [] => []
               | b :: _ => (a, b) :: path_edges s'
               end
  end.

Definition hd0 (s : list nat) := hd 0 s.
Definition la0 (s : list nat) := last s 0.

Lemma seq_head_hd s : 2 <= length s -> seq_head s = Some (hd0 s).
Proof. destruct s; simpl; auto; lia. Qed.

Lemma seq_last_la s : 2 <= length s -> seq_last s = Some (la0 s).
Proof.
  intros H. unfold seq_last, la0. destruct s as [|a s] using rev_ind; simpl in *; [lia|].
  rewrite rev_app_distr, last_last. reflexivity.
Qed.

Lemma last_cons2 (a b : nat) s : last (a :: b :: s) 0 = last (b :: s) 0.
Proof. reflexivity. Qed.

Lemma path_edges_app s s' :
  s <> [] -> s' <> [] -> la0 s = hd0 s' -> path_edges (s ++ tl s') = path_edges s ++ path_edges s'.
Proof.
  intros Hs Hs' E. destruct s' as [|b s']; [congruence|]. unfold hd0 in E. simpl in E. simpl tl.
  induction s as [|a s IH]; [congruence|]. destruct s as [|c s].
  - unfold la0 in E. simpl in E. subst. simpl. destruct s'; reflexivity.
  - change ((a :: c :: s) ++ s') with (a :: ((c :: s) ++ s')).
    change (path_edges (a :: (c :: s) ++ s')) with ((a, c) :: path_edges ((c :: s) ++ s')).
    rewrite IH; auto. discriminate.
Qed.

Lemma filter_len_le {X} (f : X -> bool) l : length (filter f l) <= length l.
Proof. induction l; simpl; auto. destruct (f a); simpl; lia. Qed.

Lemma path_edges_first s : 2 <= length s -> exists b l, path_edges s = (hd0 s, b) :: l.
Proof. destruct s as [|a [|b s]]; simpl; try lia. intros _. eauto. Qed.

Lemma path_edges_last s : 2 <= length s -> exists a l, path_edges s = l ++ [(a, la0 s)].
Proof.
  induction s as [|a s IH]; simpl; [lia|]. destruct s as [|b s]; [simpl; lia|]. intros _.
  destruct s as [|c s].
  - exists a, []. reflexivity.
  - destruct IH as [x [l E]]; [simpl; lia|]. exists x, ((a, b) :: l).
    rewrite E. reflexivity.
Qed.

(** An edge of a path is its last edge or is followed by another edge, and dually. *)
Lemma path_edge_next s u v : In (u, v) (path_edges s) ->
  la0 s = v \/ exists w, In (v, w) (tl (path_edges s)).
Proof.
  induction s as [|a s IH]; simpl; [tauto|]. destruct s as [|b s]; simpl; [tauto|].
  intros [E|H].
  - inversion E; subst. destruct s as [|c s]; [left; reflexivity|]. right. exists c. simpl. auto.
  - destruct (IH H) as [L|[w Hw]]; [left; exact L|]. right. exists w.
    destruct (path_edges (b :: s)) eqn:EP; simpl in Hw; [tauto|]. simpl path_edges in EP. rewrite EP.
    simpl. auto.
Qed.

Lemma path_edge_prev s v w : In (v, w) (path_edges s) ->
  hd0 s = v \/ exists u, In (u, v) (removelast (path_edges s)).
Proof.
  induction s as [|a s IH]; simpl; [tauto|]. destruct s as [|b s]; simpl; [tauto|].
  intros [E|H].
  - inversion E; subst. left; reflexivity.
  - right. destruct (IH H) as [L|[u Hu]].
    + unfold hd0 in L. simpl in L. subst. exists a.
      destruct s as [|c s]; simpl in *; [tauto|]. left; reflexivity.
    + exists u. destruct s as [|c s]; simpl in *; [tauto|]. right. exact Hu.
Qed.

(* ------------------------------------------------------------------ *)


Lemma NoDup_app_l {X} (l m : list X) : NoDup (l ++ m) -> NoDup l.
Proof.
  induction l; simpl; intros H; [constructor|]. inversion H; subst. constructor; auto.
  intros Hin. apply H2. apply in_or_app; auto.
Qed.
Lemma NoDup_app_r' {X} (l m : list X) : NoDup (l ++ m) -> NoDup m.
Proof. induction l; simpl; auto. intros H; inversion H; auto. Qed.
Lemma NoDup_app_dis {X} (l m : list X) x : NoDup (l ++ m) -> In x l -> In x m -> False.
Proof.
  induction l; simpl; intros HN H1 H2; [tauto|]. inversion HN; subst.
  destruct H1 as [->|H1]; auto. apply H3. apply in_or_app; auto.
Qed.

(** Owners of an edge are unique when [f] has no duplicates on all edges. *)
Lemma owner_unique {X} (f : nat * nat -> X) L s s' e e' :
  NoDup (map f (flat_map path_edges L)) -> In s L -> In s' L ->
  In e (path_edges s) -> In e' (path_edges s') -> f e = f e' -> s = s'.
Proof.
  induction L as [|x L IH]; simpl; [tauto|]. intros HN Hs Hs' He He' E.
  rewrite map_app in HN.
  assert (INR : forall y d, In y L -> In d (path_edges y) -> In (f d) (map f (flat_map path_edges L))).
  { intros y d Hy Hd. apply in_map. apply in_flat_map. eauto. }
  destruct Hs as [<-|Hs]; destruct Hs' as [<-|Hs']; auto.
  - exfalso. apply (NoDup_app_dis _ _ (f e) HN); [apply in_map; auto|]. rewrite E. eapply INR; eauto.
  - exfalso. apply (NoDup_app_dis _ _ (f e') HN); [apply in_map; auto|]. rewrite <- E. eapply INR; eauto.
  - apply IH; auto. apply NoDup_app_r' in HN; auto.
Qed.

Lemma member_NoDup {X} (f : nat * nat -> X) L s :
  NoDup (map f (flat_map path_edges L)) -> In s L -> NoDup (map f (path_edges s)).
Proof.
  induction L as [|x L IH]; simpl; [tauto|]. intros HN [<-|Hs]; rewrite map_app in HN.
  - apply NoDup_app_l in HN; auto.
  - apply IH; auto. apply NoDup_app_r' in HN; auto.
Qed.

Lemma heads_unique L s s' :
  Forall (fun s => 2 <= length s) L -> NoDup (map fst (flat_map path_edges L)) ->
  In s L -> In s' L -> hd0 s = hd0 s' -> s = s'.
Proof.
  intros LEN ND Hs Hs' E. rewrite Forall_forall in LEN.
  destruct (path_edges_first s (LEN s Hs)) as [b [l P]].
  destruct (path_edges_first s' (LEN s' Hs')) as [b' [l' P']].
  apply (owner_unique fst L s s' (hd0 s, b) (hd0 s', b')); auto.
  - rewrite P; left; reflexivity.
  - rewrite P'; left; reflexivity.
Qed.

Lemma lasts_unique L s s' :
  Forall (fun s => 2 <= length s) L -> NoDup (map snd (flat_map path_edges L)) ->
  In s L -> In s' L -> la0 s = la0 s' -> s = s'.
Proof.
  intros LEN ND Hs Hs' E. rewrite Forall_forall in LEN.
  destruct (path_edges_last s (LEN s Hs)) as [b [l P]].
  destruct (path_edges_last s' (LEN s' Hs')) as [b' [l' P']].
  apply (owner_unique snd L s s' (b, la0 s) (b', la0 s')); auto.
  - rewrite P; apply in_or_app; right; left; reflexivity.
  - rewrite P'; apply in_or_app; right; left; reflexivity.
Qed.

Lemma list_NoDup L :
  Forall (fun s => 2 <= length s) L -> NoDup (map fst (flat_map path_edges L)) -> NoDup L.
Proof.
  induction L as [|x L IH]; intros LEN ND; [constructor|]. inversion LEN; subst.
  constructor.
  - intros Hin. simpl in ND. rewrite map_app in ND.
    destruct (path_edges_first x H1) as [b [l P]].
    apply (NoDup_app_dis _ _ (hd0 x) ND).
    + rewrite P. left; reflexivity.
    + change (hd0 x) with (fst (hd0 x, b)). apply in_map. apply in_flat_map. exists x. split; auto.
      rewrite P. left; reflexivity.
  - apply IH; auto. simpl in ND. rewrite map_app in ND. apply NoDup_app_r' in ND; auto.
Qed.

Lemma connectable_spec L v : Forall (fun s => 2 <= length s) L ->
  (connectable L v = true <-> (exists s, In s L /\ hd0 s = v) /\ (exists s, In s L /\ la0 s = v)).
Proof.
  intros LEN. rewrite Forall_forall in LEN. unfold connectable. rewrite andb_true_iff, !existsb_exists.
  split; intros [[s [H1 H2]] [s' [H3 H4]]].
  - rewrite seq_head_hd in H2 by auto. rewrite seq_last_la in H4 by auto. simpl in *.
    apply Nat.eqb_eq in H2. apply Nat.eqb_eq in H4. split; eauto.
  - split; [exists s|exists s']; split; auto.
    + rewrite seq_head_hd by auto. simpl. apply Nat.eqb_eq. auto.
    + rewrite seq_last_la by auto. simpl. apply Nat.eqb_eq. auto.
Qed.

Lemma last_index_spec key v L : forall i,
  (forall r, last_index key v L i = Some r -> i <= r /\ r < i + length L /\ key (nth (r - i) L []) = Some v) /\
  (last_index key v L i = None -> forall s, In s L -> key s <> Some v).
Proof.
  induction L as [|x L IH]; intros i; simpl.
  - split; [discriminate|tauto].
  - destruct (IH (S i)) as [I1 I2]. destruct (last_index key v L (S i)) as [r|] eqn:E.
    + split; [|discriminate]. intros r' H; inversion H; subst. specialize (I1 r' eq_refl).
      destruct I1 as [A1 [A2 A3]]. replace (r' - i) with (S (r' - S i)) by lia. repeat split; auto; lia.
    + specialize (I2 eq_refl). destruct (key x) as [h|] eqn:K.
      * destruct (Nat.eqb_spec h v).
        -- split; [|discriminate]. intros r H; inversion H; subst. rewrite Nat.sub_diag.
           repeat split; auto; lia.
        -- split; [discriminate|]. intros _ s [<-|Hs]; auto. congruence.
      * split; [discriminate|]. intros _ s [<-|Hs]; auto. congruence.
Qed.

Section Round2.
  Variable L : list (list nat).
  Hypothesis LEN : Forall (fun s => 2 <= length s) L.
  Hypothesis NDF : NoDup (map fst (flat_map path_edges L)).
  Hypothesis NDS : NoDup (map snd (flat_map path_edges L)).

  Lemma LEN' s : In s L -> 2 <= length s.
  Proof. rewrite Forall_forall in LEN; auto. Qed.

  Definition with_head (v : nat) : list nat :=
    match last_index seq_head v L 0 with Some i => nth i L [] | None => [] end.
  Definition with_last (v : nat) : list nat :=
    match last_index seq_last v L 0 with Some i => nth i L [] | None => [] end.

  Lemma with_head_spec v : (exists s, In s L /\ hd0 s = v) ->
    exists i, last_index seq_head v L 0 = Some i /\ In (nth i L []) L /\ hd0 (nth i L []) = v.
  Proof.
    intros [s [Hs E]]. destruct (last_index_spec seq_head v L 0) as [I1 I2].
    destruct (last_index seq_head v L 0) as [i|].
    - destruct (I1 i eq_refl) as [A1 [A2 A3]]. rewrite Nat.sub_0_r in A3. simpl in A2.
      exists i. assert (In (nth i L []) L) by (apply nth_In; lia). repeat split; auto.
      rewrite seq_head_hd in A3 by (apply LEN'; auto). congruence.
    - exfalso. apply (I2 eq_refl s Hs). rewrite seq_head_hd by (apply LEN'; auto). congruence.
  Qed.

  Lemma with_last_spec v : (exists s, In s L /\ la0 s = v) ->
    exists i, last_index seq_last v L 0 = Some i /\ In (nth i L []) L /\ la0 (nth i L []) = v.
  Proof.
    intros [s [Hs E]]. destruct (last_index_spec seq_last v L 0) as [I1 I2].
    destruct (last_index seq_last v L 0) as [i|].
    - destruct (I1 i eq_refl) as [A1 [A2 A3]]. rewrite Nat.sub_0_r in A3. simpl in A2.
      exists i. assert (In (nth i L []) L) by (apply nth_In; lia). repeat split; auto.
      rewrite seq_last_la in A3 by (apply LEN'; auto). congruence.
    - exfalso. apply (I2 eq_refl s Hs). rewrite seq_last_la by (apply LEN'; auto). congruence.
  Qed.

  Definition dropped (s : list nat) : bool :=
    connectable L (hd0 s) && negb (connectable L (hd0 (with_last (hd0 s)))).
  Definition starts (s : list nat) : bool :=
    negb (connectable L (hd0 s)) && connectable L (la0 s).
  Definition nxt (s : list nat) := with_head (la0 s).

  Lemma fce_one_eq s : In s L ->
    fce_one L s = if dropped s then [] else if starts s then [s ++ tl (nxt s)] else [s].
  Proof.
    intros Hs. unfold fce_one, dropped, starts, nxt.
    rewrite seq_head_hd, seq_last_la by (apply LEN'; auto).
    destruct (connectable L (hd0 s)) eqn:C; simpl.
    - apply connectable_spec in C; auto. destruct C as [_ C].
      destruct (with_last_spec _ C) as [i [E [HI HL]]]. unfold with_last. rewrite E.
      rewrite seq_head_hd by (apply LEN'; auto).
      destruct (connectable L (hd0 (nth i L []))); reflexivity.
    - destruct (connectable L (la0 s)) eqn:C2; auto.
      apply connectable_spec in C2; auto. destruct C2 as [C2 _].
      destruct (with_head_spec _ C2) as [i [E [HI HL]]]. unfold with_head. rewrite E. reflexivity.
  Qed.

  Lemma starts_nxt s : In s L -> starts s = true ->
    In (nxt s) L /\ hd0 (nxt s) = la0 s /\ dropped (nxt s) = true.
  Proof.
    intros Hs H. unfold starts in H. apply andb_true_iff in H. destruct H as [H1 H2].
    pose proof H2 as C. apply connectable_spec in C; auto. destruct C as [C C'].
    destruct (with_head_spec _ C) as [i [E [HI HL]]]. unfold nxt, with_head. rewrite E.
    repeat split; auto.
    unfold dropped. rewrite HL, H2. simpl.
    destruct (with_last_spec _ C') as [k [E' [HI' HL']]]. unfold with_last. rewrite E'.
    assert (nth k L [] = s) by (eapply lasts_unique; eauto). rewrite H. exact H1.
  Qed.

  Lemma dropped_prev d : In d L -> dropped d = true ->
    exists s, In s L /\ starts s = true /\ nxt s = d.
  Proof.
    intros Hd H. unfold dropped in H. apply andb_true_iff in H. destruct H as [H1 H2].
    pose proof H1 as C. apply connectable_spec in C; auto. destruct C as [C C'].
    destruct (with_last_spec _ C') as [k [E [HI HL]]].
    unfold with_last in H2. rewrite E in H2.
    exists (nth k L []). split; auto. split.
    - unfold starts. rewrite H2, HL, H1. reflexivity.
    - unfold nxt. rewrite HL. destruct (with_head_spec _ C) as [i [E2 [HI2 HL2]]].
      unfold with_head. rewrite E2. eapply heads_unique; eauto.
  Qed.

  Lemma starts_not_dropped s : starts s = true -> dropped s = false.
  Proof.
    unfold starts, dropped. destruct (connectable L (hd0 s)); simpl; auto. discriminate.
  Qed.

  Lemma nxt_dropped_perm : Permutation (map nxt (filter starts L)) (filter dropped L).
  Proof.
    pose proof (list_NoDup L LEN NDF) as ND.
    apply NoDup_Permutation.
    - apply NoDup_map_inj; [|apply NoDup_filter; auto].
      intros a b Ha Hb E. apply filter_In in Ha. apply filter_In in Hb.
      destruct Ha as [Ha Sa]. destruct Hb as [Hb Sb].
      destruct (starts_nxt a Ha Sa) as [_ [Ea _]]. destruct (starts_nxt b Hb Sb) as [_ [Eb _]].
      eapply lasts_unique; eauto. congruence.
    - apply NoDup_filter; auto.
    - intros d. rewrite in_map_iff, filter_In. split.
      + intros [s [<- Hs]]. apply filter_In in Hs. destruct Hs as [Hs Ss].
        destruct (starts_nxt s Hs Ss) as [A [_ B]]. auto.
      + intros [Hd Dd]. destruct (dropped_prev d Hd Dd) as [s [Hs [Ss E]]].
        exists s. split; auto. apply filter_In; auto.
  Qed.

  Lemma round_split M : incl M L ->
    Permutation (flat_map path_edges (flat_map (fce_one L) M))
      (flat_map path_edges (filter (fun s => negb (dropped s)) M) ++
       flat_map path_edges (map nxt (filter starts M))).
  Proof.
    induction M as [|s M IH]; intros HI; simpl; auto.
    assert (Hs : In s L) by (apply HI; left; auto).
    assert (HM : incl M L) by (intros x Hx; apply HI; right; auto).
    specialize (IH HM). rewrite flat_map_app. rewrite fce_one_eq by exact Hs.
    destruct (dropped s) eqn:D; simpl.
    - assert (S0 : starts s = false).
      { destruct (starts s) eqn:S0; auto. apply starts_not_dropped in S0. congruence. }
      rewrite S0. exact IH.
    - destruct (starts s) eqn:S0; simpl.
      + rewrite app_nil_r. destruct (starts_nxt s Hs S0) as [A [B _]].
        rewrite path_edges_app.
        * rewrite IH. rewrite <- !app_assoc. apply Permutation_app_head.
          rewrite !app_assoc. apply Permutation_app_tail. apply Permutation_app_comm.
        * pose proof (LEN' s Hs). destruct s; simpl in *; [lia|discriminate].
        * pose proof (LEN' _ A). destruct (nxt s); simpl in *; [lia|discriminate].
        * auto.
      + rewrite app_nil_r, <- app_assoc. apply Permutation_app_head. exact IH.
  Qed.

  Lemma filter_split (f : list nat -> bool) (M : list (list nat)) :
    Permutation (flat_map path_edges (filter (fun s => negb (f s)) M) ++ flat_map path_edges (filter f M))
                (flat_map path_edges M).
  Proof.
    induction M as [|s M IH]; simpl; auto. destruct (f s); simpl.
    - rewrite <- IH. rewrite !app_assoc. apply Permutation_app_tail. apply Permutation_app_comm.
    - rewrite <- app_assoc. apply Permutation_app_head. exact IH.
  Qed.

  Lemma flat_map_perm (M N : list (list nat)) :
    Permutation M N -> Permutation (flat_map path_edges M) (flat_map path_edges N).
  Proof.
    intros H; induction H; simpl; auto.
    - apply Permutation_app_head; auto.
    - rewrite !app_assoc. apply Permutation_app_tail. apply Permutation_app_comm.
    - eapply Permutation_trans; eauto.
  Qed.

  Lemma round_perm :
    Permutation (flat_map path_edges (flat_map (fce_one L) L)) (flat_map path_edges L).
  Proof.
    rewrite round_split by apply incl_refl.
    rewrite (flat_map_perm _ _ nxt_dropped_perm).
    apply filter_split.
  Qed.

  Lemma round_len : Forall (fun s => 2 <= length s) (flat_map (fce_one L) L).
  Proof.
    apply Forall_forall. intros x Hx. apply in_flat_map in Hx. destruct Hx as [s [Hs Hx]].
    rewrite fce_one_eq in Hx by exact Hs. pose proof (LEN' s Hs).
    destruct (dropped s); [destruct Hx|]. destruct (starts s); destruct Hx as [<-|[]]; auto.
    rewrite app_length. lia.
  Qed.

  Lemma round_length M : incl M L ->
    length (flat_map (fce_one L) M) = length (filter (fun s => negb (dropped s)) M).
  Proof.
    induction M as [|s M IH]; intros HI; simpl; auto. rewrite app_length.
    rewrite IH by (intros x Hx; apply HI; right; auto).
    rewrite fce_one_eq by (apply HI; left; auto).
    destruct (dropped s); simpl; auto. destruct (starts s); reflexivity.
  Qed.

  Variable rank : nat -> nat.
  Hypothesis RANK : forall u v, In (u, v) (flat_map path_edges L) -> rank u < rank v.

  Lemma rank_path s : 2 <= length s -> (forall u v, In (u, v) (path_edges s) -> rank u < rank v) ->
    rank (hd0 s) < rank (la0 s).
  Proof.
    induction s as [|a s IH]; simpl; [lia|]. destruct s as [|b s]; simpl; [lia|]. intros _ H.
    destruct s as [|c s].
    - unfold hd0, la0. simpl. apply H. left; reflexivity.
    - assert (rank a < rank b) by (apply H; left; reflexivity).
      assert (rank (hd0 (b :: c :: s)) < rank (la0 (b :: c :: s))).
      { apply IH; [simpl; lia|]. intros u v Hu. apply H. right. exact Hu. }
      unfold hd0, la0 in *. simpl in *. lia.
  Qed.

  Lemma exists_dropped k : forall s, In s L -> rank (hd0 s) = k -> connectable L (hd0 s) = true ->
    exists d, In d L /\ dropped d = true.
  Proof.
    induction k as [k IH] using lt_wf_ind. intros s Hs Hk C.
    destruct (dropped s) eqn:D; [eauto|].
    unfold dropped in D. rewrite C in D. simpl in D. apply negb_false_iff in D.
    apply connectable_spec in C; auto. destruct C as [_ C].
    destruct (with_last_spec _ C) as [i [E [HI HL]]]. unfold with_last in D. rewrite E in D.
    apply (IH (rank (hd0 (nth i L []))) ) with (s := nth i L []); auto.
    rewrite <- Hk, <- HL. apply rank_path.
    - apply LEN'; auto.
    - intros u v Hu. apply RANK. apply in_flat_map. eauto.
  Qed.

  Lemma round_decreases s : In s L -> connectable L (hd0 s) = true ->
    length (flat_map (fce_one L) L) < length L.
  Proof.
    intros Hs C. destruct (exists_dropped _ s Hs eq_refl C) as [d [Hd Dd]].
    rewrite round_length by apply incl_refl.
    clear - Hd Dd. induction L as [|x M IH]; simpl in *; [tauto|].
    destruct Hd as [->|Hd].
    - rewrite Dd. simpl. pose proof (filter_len_le (fun s => negb (dropped s)) M). lia.
    - specialize (IH Hd). destruct (dropped x); simpl; lia.
  Qed.

  (** Maximality once nothing is connectable. *)
  Lemma maximal s : (forall x, In x L -> connectable L (hd0 x) = false) -> In s L ->
    ~ In (hd0 s) (map snd (flat_map path_edges L)) /\ ~ In (la0 s) (map fst (flat_map path_edges L)).
  Proof.
    intros HC Hs. split; intros Hin; apply in_map_iff in Hin; destruct Hin as [[u v] [E Hin]];
      apply in_flat_map in Hin; destruct Hin as [s2 [Hs2 He]]; simpl in E; subst.
    - destruct (path_edge_next s2 u (hd0 s) He) as [EL|[w Hw]].
      + specialize (HC s Hs). rewrite <- not_true_iff_false in HC. apply HC.
        apply connectable_spec; auto. split; eauto.
      + assert (Hw' : In (hd0 s, w) (path_edges s2)).
        { destruct (path_edges s2); simpl in *; auto. }
        destruct (path_edges_first s (LEN' s Hs)) as [b [l P]].
        assert (s = s2).
        { eapply (owner_unique fst L s s2 (hd0 s, b) (hd0 s, w)); eauto. rewrite P; left; auto. }
        subst s2. pose proof (member_NoDup fst L s NDF Hs) as NM. rewrite P in NM, Hw. simpl in NM, Hw.
        inversion NM; subst. apply H1. change (hd0 s) with (fst (hd0 s, w)). apply in_map; auto.
    - destruct (path_edge_prev s2 (la0 s) v He) as [EL|[w Hw]].
      + specialize (HC s2 Hs2). rewrite <- not_true_iff_false in HC. apply HC.
        apply connectable_spec; auto. split; eauto.
      + assert (INR : forall (X : Type) (l : list X) x, In x (removelast l) -> In x l).
        { intros X l x. induction l as [|y l IHl]; simpl; auto. destruct l; simpl in *; [tauto|].
          intros [->|H]; auto. }
        destruct (path_edges_last s (LEN' s Hs)) as [b [l P]].
        assert (s = s2).
        { eapply (owner_unique snd L s s2 (b, la0 s) (w, la0 s)); eauto.
          rewrite P; apply in_or_app; right; left; auto. }
        subst s2. pose proof (member_NoDup snd L s NDS Hs) as NM. rewrite P in NM, Hw.
        rewrite removelast_last in Hw. rewrite map_app in NM. simpl in NM.
        apply (NoDup_app_dis _ _ (la0 s) NM).
        * change (la0 s) with (snd (w, la0 s)). apply in_map; auto.
        * left; reflexivity.
  Qed.
End Round2.

Lemma fce_correct rank E : forall fuel L,
  length L <= fuel ->
  Forall (fun s => 2 <= length s) L -> Permutation (flat_map path_edges L) E ->
  NoDup (map fst E) -> NoDup (map snd E) -> (forall u v, In (u, v) E -> rank u < rank v) ->
  exists R, fuse_connected_edges fuel L = Some R /\
    Forall (fun s => 2 <= length s) R /\ Permutation (flat_map path_edges R) E /\
    Forall (fun s => ~ In (hd0 s) (map snd E) /\ ~ In (la0 s) (map fst E)) R.
Proof.
  induction fuel as [|fuel IH]; intros L HF LEN HP N1 N2 HR.
  - destruct L; simpl in HF; [|lia]. simpl. exists []. repeat split; auto.
  - assert (NDF : NoDup (map fst (flat_map path_edges L))).
    { apply (Permutation_NoDup (Permutation_map fst (Permutation_sym HP))); auto. }
    assert (NDS : NoDup (map snd (flat_map path_edges L))).
    { apply (Permutation_NoDup (Permutation_map snd (Permutation_sym HP))); auto. }
    simpl. destruct (existsb _ L) eqn:EX.
    + apply existsb_exists in EX. destruct EX as [s [Hs C]].
      rewrite seq_head_hd in C by (rewrite Forall_forall in LEN; auto).
      apply IH; auto.
      * assert (length (flat_map (fce_one L) L) < length L).
        { apply (round_decreases L LEN) with (rank := rank) (s := s); auto.
          intros u v Hu. apply HR. apply (Permutation_in _ HP); auto. }
        lia.
      * apply round_len; auto.
      * rewrite round_perm; auto.
    + exists L. repeat split; auto.
      apply Forall_forall. intros s Hs.
      assert (HC : forall x, In x L -> connectable L (hd0 x) = false).
      { intros x Hx. destruct (connectable L (hd0 x)) eqn:C; auto. exfalso.
        rewrite <- not_true_iff_false in EX. apply EX. apply existsb_exists. exists x. split; auto.
        rewrite seq_head_hd; auto. rewrite Forall_forall in LEN; auto. }
      destruct (maximal L LEN NDF NDS s HC Hs) as [M1 M2]. split; intros Hin.
      * apply M1. apply (Permutation_in _ (Permutation_map snd (Permutation_sym HP))); auto.
      * apply M2. apply (Permutation_in _ (Permutation_map fst (Permutation_sym HP))); auto.
Qed.

Lemma fuse_connected_edges_correct rank (E : list (nat * nat)) :
  NoDup (map fst E) -> NoDup (map snd E) -> (forall u v, In (u, v) E -> rank u < rank v) ->
  exists R, fuse_connected_edges (length E) (map (fun e => [fst e; snd e]) E) = Some R /\
    Forall (fun s => 2 <= length s) R /\ Permutation (flat_map path_edges R) E /\
    Forall (fun s => ~ In (hd 0 s) (map snd E) /\ ~ In (last s 0) (map fst E)) R.
Proof.
  intros N1 N2 HR. apply (fce_correct rank E); auto.
  - rewrite map_length. lia.
  - apply Forall_forall. intros s Hs. apply in_map_iff in Hs. destruct Hs as [[u v] [<- _]]. simpl. lia.
  - assert (EQ : flat_map path_edges (map (fun e : nat * nat => [fst e; snd e]) E) = E).
    { clear. induction E as [|[u v] E IH]; simpl; auto. rewrite IH. reflexivity. }
    rewrite EQ. reflexivity.
Qed.
