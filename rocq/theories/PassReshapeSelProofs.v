(** Choosing the shapes of [elementwise_op_reshape_passthrough_pass]. *)
From Coq Require Import List Arith Bool Lia.
From Verif Require Import Tensor ConvSpec CatSpec LayoutSpec ChainModel ChainProofs PassModel FuseModel PassReshapeModel.
Import ListNotations.
Local Open Scope nat_scope.

Definition cnt (l : list (list nat)) (k : list nat) : nat := count_occ (list_eq_dec Nat.eq_dec) l k.

Lemma bump_in k d : NoDup (map fst d) -> forall k' c, In (k', c) (bump k d) ->
  (k' = k /\ ((exists c0, c = S c0 /\ In (k, c0) d) \/ (c = 1 /\ ~ In k (map fst d)))) \/ (k' <> k /\ In (k', c) d).
Proof.
  induction d as [|[k1 c1] d IH]; cbn; intros ND k' c H.
  - destruct H as [H|[]]. injection H as <- <-. left. auto.
  - inversion ND; subst. destruct (list_eqb k1 k) eqn:E.
    + apply list_eqb_spec in E as ->. destruct H as [H|H].
      * injection H as <- <-. left. split; [reflexivity|]. left. exists c1. auto.
      * right. split; [|auto]. intros ->. apply H2. apply in_map_iff. exists (k, c). auto.
    + assert (k1 <> k) as Hk by (intros ->; rewrite (proj2 (list_eqb_spec k k) eq_refl) in E; discriminate).
      destruct H as [H|H]; [injection H as <- <-; right; auto|].
      destruct (IH H3 _ _ H) as [[-> [(c0 & -> & Hi)|[-> Hn]]]|[Hne Hi]].
      * left. split; [reflexivity|]. left. exists c0. auto.
      * left. split; [reflexivity|]. right. split; [reflexivity|]. intros [?|?]; auto.
      * right. auto.
Qed.
Lemma bump_keys k d x : In x (map fst (bump k d)) <-> x = k \/ In x (map fst d).
Proof.
  induction d as [|[k1 c1] d IH]; cbn; [intuition|]. destruct (list_eqb k1 k) eqn:E; cbn.
  - apply list_eqb_spec in E as ->. intuition.
  - rewrite IH. intuition.
Qed.
Lemma bump_nodup k d : NoDup (map fst d) -> NoDup (map fst (bump k d)).
Proof.
  induction d as [|[k1 c1] d IH]; cbn; intros ND; [repeat constructor; auto|]. inversion ND; subst.
  destruct (list_eqb k1 k) eqn:E; cbn; constructor; auto. rewrite bump_keys. intros [->|?]; [|auto].
  rewrite (proj2 (list_eqb_spec k k) eq_refl) in E. discriminate.
Qed.
Lemma tally_spec l : NoDup (map fst (tally l)) /\ (forall x, In x (map fst (tally l)) <-> In x l) /\
  (forall k c, In (k, c) (tally l) -> c = cnt l k).
Proof.
  induction l as [|k l (ND & K & C)] using rev_ind.
  - split; [constructor|]. split; [reflexivity|]. intros ? ? [].
  - unfold tally. rewrite fold_left_app. cbn [fold_left]. fold (tally l). split; [apply bump_nodup; auto|]. split.
    + intros x. rewrite bump_keys, K, in_app_iff. cbn. intuition.
    + intros k' c H. unfold cnt. rewrite count_occ_app. cbn. apply bump_in in H; [|auto].
      destruct H as [[-> [(c0 & -> & Hi)|[-> Hn]]]|[Hne Hi]].
      * destruct (list_eq_dec Nat.eq_dec k k); [|congruence]. apply C in Hi. unfold cnt in Hi. lia.
      * destruct (list_eq_dec Nat.eq_dec k k); [|congruence]. rewrite K in Hn.
        apply (count_occ_not_In (list_eq_dec Nat.eq_dec)) in Hn. lia.
      * destruct (list_eq_dec Nat.eq_dec k k'); [congruence|]. apply C in Hi. unfold cnt in Hi. lia.
Qed.
Lemma most_in d k c : most d = Some (k, c) -> In (k, c) d.
Proof.
  revert k c. induction d as [|[k1 c1] d IH]; cbn [most In]; intros k c H; [discriminate|].
  destruct (most d) as [[k' c']|]; [destruct (c1 <? c')|]; injection H as <- <-; auto.
Qed.
Lemma most_max d k c : most d = Some (k, c) -> Forall (fun p => snd p <= c) d.
Proof.
  revert k c. induction d as [|[k1 c1] d IH]; cbn [most]; intros k c H; [constructor|].
  destruct (most d) as [[k' c']|] eqn:E.
  - specialize (IH _ _ eq_refl). destruct (c1 <? c') eqn:L; injection H as <- <-.
    + apply Nat.ltb_lt in L. constructor; cbn; [lia|auto].
    + apply Nat.ltb_ge in L. constructor; cbn; [lia|]. eapply Forall_impl; [|apply IH]. cbn. lia.
  - injection H as <- <-. destruct d as [|[k2 c2] d]; [repeat constructor|]. cbn [most] in E.
    destruct (most d) as [[? ?]|]; [destruct (c2 <? n)|]; discriminate.
Qed.
Lemma cnt_full l k : cnt l k = length l -> Forall (eq k) l.
Proof.
  unfold cnt. induction l as [|x l IH]; cbn; intros H; [constructor|].
  destruct (list_eq_dec Nat.eq_dec x k) as [->|]; [constructor; auto|].
  pose proof (count_occ_bound (list_eq_dec Nat.eq_dec) k l). lia.
Qed.
Lemma cnt_all l k : Forall (eq k) l -> cnt l k = length l.
Proof.
  unfold cnt. induction 1 as [|x l <- H IH]; cbn; [reflexivity|].
  destruct (list_eq_dec Nat.eq_dec k k); [lia|congruence].
Qed.

(** every chosen shape comes from a candidate *)
Lemma select_in cands P N : rp_select cands = Some (P, N) -> In P (map fst cands) /\ In N (map snd cands).
Proof.
  unfold rp_select. destruct (most (tally (map fst cands))) as [[p c]|] eqn:E1; [|discriminate].
  destruct (most (tally (map snd cands))) as [[n c']|] eqn:E2; [|discriminate]. destruct (c =? c'); [|discriminate].
  intros H. injection H as <- <-. apply most_in in E1, E2. split.
  - apply (tally_spec (map fst cands)). apply in_map_iff. exists (p, c). auto.
  - apply (tally_spec (map snd cands)). apply in_map_iff. exists (n, c'). auto.
Qed.
(** with operands of one shape, every reshape around the node is the chosen one *)
Lemma select_agrees cands P N : rp_select cands = Some (P, N) ->
  (forall p q, In p cands -> In q cands -> snd p = snd q) -> forall p, In p cands -> p = (P, N).
Proof.
  intros H All. pose proof (select_in _ _ _ H) as [_ HN]. revert H. unfold rp_select.
  destruct (most (tally (map fst cands))) as [[p c]|] eqn:E1; [|discriminate].
  destruct (most (tally (map snd cands))) as [[n c']|] eqn:E2; [|discriminate]. destruct (Nat.eqb_spec c c') as [<-|]; [|discriminate].
  intros H. injection H as -> ->. apply most_in in E1, E2. apply tally_spec in E1, E2.
  assert (Forall (eq N) (map snd cands)) as F.
  { apply in_map_iff in HN as (q & <- & Hq). apply Forall_forall. intros x Hx. apply in_map_iff in Hx as (r & <- & Hr). apply All; auto. }
  rewrite (cnt_all _ _ F), map_length in E2. assert (Forall (eq P) (map fst cands)) as G by (apply cnt_full; rewrite map_length; lia).
  intros [a b] Hp. rewrite Forall_forall in F, G. rewrite (F b), (G a); [reflexivity| |];
    apply in_map_iff; eexists; (split; [|exact Hp]); reflexivity.
Qed.
(** the two choices need not fit: [3] -> [1,3] and [3] -> [3,1] in front of an addition, [3,3] -> [3,3,1] and
    [3,3] -> [1,3,3] behind it *)
Lemma select_mixed : exists (x y z : tensor nat) cands P N,
  binop Nat.add x y = Some z /\ Forall (fun c => offered KOther None [tshape x; tshape y] [tshape z] (fst c) (snd c)) cands /\
  rp_select cands = Some (P, N) /\ ~ In (P, N) cands /\ rp_binary false P N (tshape z) x y = None.
Proof.
  exists (mkT [1; 3] (fun _ => 0)), (mkT [3; 1] (fun _ => 0)). eexists.
  exists [([3], [1; 3]); ([3], [3; 1]); ([3; 3; 1], [3; 3]); ([1; 3; 3], [3; 3])], [3], [3; 3].
  split; [reflexivity|]. split.
  - constructor; [left; exists [3], [1; 3]; split; [left; reflexivity|reflexivity]|].
    constructor; [left; exists [3], [3; 1]; split; [right; left; reflexivity|reflexivity]|].
    constructor; [right; exists [3; 3], [3; 3; 1]; split; [left; reflexivity|reflexivity]|].
    constructor; [right; exists [3; 3], [1; 3; 3]; split; [left; reflexivity|reflexivity]|constructor].
  - split; [reflexivity|]. split; [|reflexivity]. cbn. intuition discriminate.
Qed.
