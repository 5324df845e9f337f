(** Proofs about [merge_group]. *)
From Coq Require Import List Arith Bool ZArith Lia.
From Verif Require Import PruneModel MergeProofs.
Import ListNotations.
Local Open Scope nat_scope.

Definition same (a b : pset) : Prop := forall x, In x a <-> In x b.
Definition disj (a b : pset) : Prop := forall x, In x a -> In x b -> False.

Lemma set_eqb_same a b : set_eqb a b = true <-> same a b.
Proof.
  unfold set_eqb, same. rewrite andb_true_iff, !forallb_forall. split.
  - intros [H1 H2] x. split; intro; [apply mem_In; auto|apply mem_In; auto].
  - intro H. split; intros x Hx; apply mem_In; now apply H.
Qed.
Lemma set_eqb_refl a : set_eqb a a = true.
Proof. apply set_eqb_same. red; tauto. Qed.
Lemma inter_In x a b : In x (inter a b) <-> In x a /\ In x b.
Proof. unfold inter. now rewrite filter_In, mem_In. Qed.
Lemma diff_In x a b : In x (diff a b) <-> In x a /\ ~ In x b.
Proof. unfold diff. now rewrite filter_In, negb_true_iff, mem_notIn. Qed.
Lemma nonempty_true {A} (l : list A) : nonempty l = true <-> exists x, In x l.
Proof. destruct l; simpl; split; intro H; try discriminate; eauto. destruct H as [x []]. Qed.
Lemma filter_split {A} (f : A -> bool) l :
  length (filter f l) + length (filter (fun x => negb (f x)) l) = length l.
Proof. induction l; simpl; auto. destruct (f a); simpl; lia. Qed.

Lemma remove_first_spec b l :
  In b l -> exists l1 b' l2, l = l1 ++ b' :: l2 /\ same b b' /\ remove_first b l = l1 ++ l2.
Proof.
  induction l as [|t l IH]; simpl; [tauto|]. intros H.
  destruct (set_eqb b t) eqn:E.
  - exists [], t, l. repeat split; auto; apply set_eqb_same in E; apply E.
  - destruct H as [->|H]; [now rewrite set_eqb_refl in E|].
    destruct (IH H) as (l1 & b' & l2 & -> & S & R).
    exists (t :: l1), b', l2. simpl. rewrite R. auto.
Qed.
Lemma remove_first_head a l : remove_first a (a :: l) = l.
Proof. simpl. now rewrite set_eqb_refl. Qed.

Section MG.
  Variable g0 : list pset.

  (** The invariant of the loop. *)
  Record mg_inv (g ng : list pset) : Prop := {
    mi_dis : ForallOrdPairs disj ng;
    mi_cross : forall t s, In t ng -> In s g -> disj t s;
    mi_sub : forall t x, In t (g ++ ng) -> In x t -> exists s, In s g0 /\ In x s;
    mi_cov : forall s x, In s g0 -> In x s -> exists t, In t (g ++ ng) /\ In x t /\ incl t s;
    mi_sig : forall t x y, In t (g ++ ng) ->
       (forall s, In s g0 -> (In x s <-> In y s)) -> (In x t <-> In y t)
  }.

  Lemma mg_init : mg_inv g0 [].
  Proof.
    constructor.
    - constructor.
    - intros t s [].
    - intros t x. rewrite app_nil_r. eauto.
    - intros s x H Hx. exists s. rewrite app_nil_r. repeat split; auto. apply incl_refl.
    - intros t x y. rewrite app_nil_r. auto.
  Qed.

  Lemma ForallOrdPairs_snoc {A} (R : A -> A -> Prop) l a :
    ForallOrdPairs R l -> Forall (fun x => R x a) l -> ForallOrdPairs R (l ++ [a]).
  Proof.
    induction 1; intro F; simpl.
    - constructor; constructor.
    - inversion F; subst. constructor; auto. apply Forall_app. split; auto.
  Qed.

  Lemma mg_move a rest ng :
    mg_inv (a :: rest) ng -> first_meeting a rest = None -> mg_inv rest (ng ++ [a]).
  Proof.
    intros [D C S V G] F.
    assert (P : forall t, In t (rest ++ ng ++ [a]) <-> In t ((a :: rest) ++ ng)).
    { intro t. simpl. rewrite !in_app_iff. simpl. intuition. }
    constructor.
    - apply ForallOrdPairs_snoc; auto. apply Forall_forall. intros t Ht. apply C; simpl; auto.
    - intros t s Ht Hs. apply in_app_iff in Ht. destruct Ht as [Ht|[<-|[]]].
      + apply C; simpl; auto.
      + intros x Ha Hx. unfold first_meeting in F. eapply find_none in F; eauto.
        assert (nonempty (inter a s) = true) by (apply nonempty_true; exists x; apply inter_In; auto).
        congruence.
    - intros t x Ht. apply S. now apply P.
    - intros s x Hs Hx. destruct (V s x Hs Hx) as (t & Ht & Hxt & Hi). exists t. rewrite P. auto.
    - intros t x y Ht. apply G. now apply P.
  Qed.

  Lemma mg_split a b rest ng :
    mg_inv (a :: rest) ng -> In b rest ->
    let k := inter a b in
    mg_inv (remove_first b rest ++ filter nonempty [diff a k; diff b k; k]) ng.
  Proof.
    intros [D C S V G] Hb k.
    destruct (remove_first_spec b rest Hb) as (l1 & b' & l2 & Er & Sb & ->).
    assert (New : forall t, In t (filter nonempty [diff a k; diff b k; k]) ->
              (forall x, In x t -> In x a \/ In x b) /\
              (forall x y, (In x a <-> In y a) -> (In x b <-> In y b) -> (In x t <-> In y t))).
    { intros t Ht. apply filter_In in Ht. destruct Ht as [Ht _]. simpl in Ht.
      destruct Ht as [<-|[<-|[<-|[]]]]; split; intros; unfold k in *;
        rewrite ?diff_In, ?inter_In in *; tauto. }
    assert (Old : forall t, In t (l1 ++ l2) -> In t rest).
    { intros t. rewrite Er, !in_app_iff. simpl. tauto. }
    assert (Ha : In a ((a :: rest) ++ ng)) by (simpl; auto).
    assert (Hb' : In b ((a :: rest) ++ ng)) by (simpl; right; apply in_app_iff; auto).
    assert (InNew : forall t x, In t [diff a k; diff b k; k] -> In x t ->
              In t (filter nonempty [diff a k; diff b k; k])).
    { intros t x Ht Hx. apply filter_In. split; auto. apply nonempty_true. eauto. }
    constructor; auto.
    - intros t s Ht Hs. apply in_app_iff in Hs. destruct Hs as [Hs|Hs].
      + apply C; simpl; auto.
      + apply New in Hs. destruct Hs as [Hs _]. intros x Hx Hxs. apply Hs in Hxs.
        destruct Hxs; eapply (C t); eauto; simpl; auto.
    - intros t x Ht Hx. rewrite !in_app_iff in Ht. destruct Ht as [[Ht|Ht]|Ht].
      + apply (S t x); auto. simpl. right. apply in_app_iff. left. apply Old. now rewrite in_app_iff.
      + apply New in Ht. destruct Ht as [Hs _]. apply Hs in Hx. destruct Hx; [apply (S a x)|apply (S b x)]; auto.
      + apply (S t x); auto. simpl. right. apply in_app_iff. auto.
    - intros s x Hs Hx. destruct (V s x Hs Hx) as (t & Ht & Hxt & Hi).
      assert (Case : (t = a \/ same b t) \/ In t ((l1 ++ l2) ++ ng)).
      { simpl in Ht. rewrite Er, !in_app_iff in Ht. simpl in Ht. rewrite !in_app_iff.
        destruct Ht as [<-|[[Ht|[<-|Ht]]|Ht]]; tauto. }
      destruct Case as [[->|Sb']|Ht'].
      + destruct (in_dec Z.eq_dec x b) as [Hxb|Hxb].
        * exists k. repeat split.
          -- rewrite !in_app_iff. left. right. apply (InNew k x); [simpl; auto|apply inter_In; auto].
          -- apply inter_In; auto.
          -- intros y Hy. apply inter_In in Hy. apply Hi; tauto.
        * assert (In x (diff a k)) by (apply diff_In; split; auto; unfold k; rewrite inter_In; tauto).
          exists (diff a k). repeat split; auto.
          -- rewrite !in_app_iff. left. right. apply (InNew (diff a k) x); simpl; auto.
          -- intros y Hy. apply diff_In in Hy. apply Hi; tauto.
      + apply Sb' in Hxt. assert (Hi' : incl b s) by (intros y Hy; apply Hi, Sb', Hy).
        destruct (in_dec Z.eq_dec x a) as [Hxa|Hxa].
        * exists k. repeat split.
          -- rewrite !in_app_iff. left. right. apply (InNew k x); [simpl; auto|apply inter_In; auto].
          -- apply inter_In; auto.
          -- intros y Hy. apply inter_In in Hy. apply Hi'; tauto.
        * assert (In x (diff b k)) by (apply diff_In; split; auto; unfold k; rewrite inter_In; tauto).
          exists (diff b k). repeat split; auto.
          -- rewrite !in_app_iff. left. right. apply (InNew (diff b k) x); simpl; auto.
          -- intros y Hy. apply diff_In in Hy. apply Hi'; tauto.
      + exists t. repeat split; auto. rewrite !in_app_iff in *. tauto.
    - intros t x y Ht Sg. rewrite !in_app_iff in Ht. destruct Ht as [[Ht|Ht]|Ht].
      + apply (G t x y); auto. simpl. right. apply in_app_iff. left. apply Old. now rewrite in_app_iff.
      + apply New in Ht. destruct Ht as [_ Hs]. apply Hs; apply G; auto.
      + apply (G t x y); auto. simpl. right. apply in_app_iff. auto.
  Qed.

  Definition meas (g : list pset) : nat := length g + 2 * length (concat g).
  Lemma concat_len (g : list pset) : length (concat g) = list_sum (map (@length Z) g).
  Proof. induction g; simpl; auto. rewrite app_length. lia. Qed.
  Lemma meas_app g h : meas (g ++ h) = meas g + meas h.
  Proof. unfold meas. rewrite concat_app, !app_length. lia. Qed.
  Lemma meas_cons a g : meas (a :: g) = 1 + 2 * length a + meas g.
  Proof. unfold meas. simpl. rewrite app_length. lia. Qed.
  Lemma filter_negb_mem (a b : pset) :
    length (diff a (inter a b)) + length (inter a b) = length a.
  Proof.
    unfold diff. rewrite <- (filter_split (fun x => mem x b) a). unfold inter at 2.
    replace (filter (fun x => negb (mem x (inter a b))) a) with (filter (fun x => negb (mem x b)) a); [lia|].
    apply filter_ext_in. intros x Hx. f_equal.
    destruct (mem x b) eqn:E; symmetry.
    - apply mem_In, inter_In. split; auto. now apply mem_In.
    - apply mem_notIn. rewrite inter_In. apply mem_notIn in E. tauto.
  Qed.
  Lemma diff_shorter (a b : pset) :
    (exists x, In x (inter a b)) -> length (diff b (inter a b)) + 1 <= length b.
  Proof.
    intros [x Hx]. unfold diff.
    rewrite <- (filter_split (fun x => mem x (inter a b)) b).
    assert (H : In x (filter (fun x => mem x (inter a b)) b)).
    { apply filter_In. split; [apply inter_In in Hx; tauto|now apply mem_In]. }
    destruct (filter _ b) as [|z l]; [destruct H|]. simpl. lia.
  Qed.

  Lemma meas_new a b :
    (exists x, In x (inter a b)) ->
    let k := inter a b in
    meas (filter nonempty [diff a k; diff b k; k]) < meas [a; b].
  Proof.
    intros Hk k. pose proof (filter_negb_mem a b) as E1. pose proof (diff_shorter a b Hk) as E2.
    fold k in E1, E2.
    assert (Hk1 : 1 <= length k) by (destruct Hk as [x Hx]; fold k in Hx; destruct k; [destruct Hx|simpl; lia]).
    assert (Hb1 : 1 <= length b).
    { destruct Hk as [x Hx]. apply inter_In in Hx. destruct b; [tauto|simpl; lia]. }
    rewrite (meas_cons a), (meas_cons b). change (meas []) with 0.
    clearbody k. revert E1 E2 Hk1. generalize (diff a k) as m, (diff b k) as n. clear Hk.
    intros m n E1 E2 Hk1. destruct k as [|z k]; [simpl in Hk1; lia|].
    destruct m as [|z1 m], n as [|z2 n];
      match goal with |- meas ?l < _ => let l' := eval cbn [filter nonempty] in l in change (meas l') with (meas l'); change l with l' end;
      rewrite ?meas_cons; change (meas []) with 0; cbn [length] in *; lia.
  Qed.

  Lemma remove_found a b rest :
    first_meeting a rest = Some b ->
    exists l1 l2, rest = l1 ++ b :: l2 /\ remove_first b rest = l1 ++ l2.
  Proof.
    unfold first_meeting. induction rest as [|t rest IH]; simpl; [discriminate|].
    destruct (nonempty (inter a t)) eqn:E.
    - intro H. injection H as <-. exists [], rest. rewrite set_eqb_refl. auto.
    - intro H. destruct (set_eqb b t) eqn:Q.
      + exfalso. apply set_eqb_same in Q. apply find_some in H. destruct H as [_ H].
        apply nonempty_true in H. destruct H as [x Hx]. apply inter_In in Hx.
        assert (nonempty (inter a t) = true); [|congruence].
        apply nonempty_true. exists x. apply inter_In. split; [tauto|]. apply Q. tauto.
      + destruct (IH H) as (l1 & l2 & -> & R). exists (t :: l1), l2. simpl. rewrite R. auto.
  Qed.

  Lemma mg_loop_correct fuel : forall g ng,
    meas g < fuel -> mg_inv g ng -> exists out, mg_loop fuel g ng = Some out /\ mg_inv [] out.
  Proof.
    induction fuel as [|f IH]; intros g ng Hf I; [lia|].
    cbn [mg_loop]. destruct g as [|a rest]; [eauto|].
    rewrite remove_first_head.
    destruct (first_meeting a rest) as [b|] eqn:F.
    - destruct (remove_found a b rest F) as (l1 & l2 & Er & Err).
      unfold first_meeting in F. apply find_some in F. destruct F as [Hb Hk].
      apply nonempty_true in Hk. apply IH.
      + pose proof (meas_new a b Hk) as M. cbv zeta in M.
        rewrite Err, !meas_app. rewrite Er in Hf.
        rewrite meas_cons, meas_app, meas_cons in Hf.
        rewrite (meas_cons a), (meas_cons b) in M. change (meas []) with 0 in M. lia.
      + now apply mg_split.
    - apply IH.
      + rewrite meas_cons in Hf. lia.
      + now apply mg_move.
  Qed.
End MG.

(** *** The duplicate removal at the end *)
Lemma same_disj_nil a b : same a b -> disj a b -> a = [].
Proof. intros S D. destruct a as [|x a]; auto. exfalso. apply (D x); [now left|apply S; now left]. Qed.
Lemma same_nil a : same [] a -> a = [].
Proof. intro S. destruct a as [|x a]; auto. exfalso. apply (S x). now left. Qed.

Fixpoint rm_nil (l : list pset) : list pset :=
  match l with [] => [] | [] :: l' => l' | t :: l' => t :: rm_nil l' end.
Lemma remove_first_nil l : remove_first [] l = rm_nil l.
Proof.
  induction l as [|[|x t] l IH]; simpl; auto. unfold set_eqb. simpl. now rewrite IH.
Qed.
Lemma rm_nil_In t l : t <> [] -> (In t (rm_nil l) <-> In t l).
Proof.
  intro N. induction l as [|[|x u] l IH]; simpl; [tauto| |rewrite IH; tauto].
  split; auto. intros [E|H]; [congruence|auto].
Qed.
Lemma rm_nil_incl t l : In t (rm_nil l) -> In t l.
Proof. induction l as [|[|x u] l IH]; simpl; auto. intuition. Qed.
Lemma rm_nil_pairs R l : ForallOrdPairs R l -> ForallOrdPairs R (rm_nil l).
Proof.
  induction 1 as [|t l F H IH]; simpl; [constructor|]. destruct t; auto. constructor; auto.
  apply Forall_forall. intros u Hu. rewrite Forall_forall in F. apply F. now apply rm_nil_incl.
Qed.
Definition nils (l : list pset) : nat := length (filter (fun t => negb (nonempty t)) l).
Lemma rm_nil_nils l : nils (rm_nil l) = nils l - 1.
Proof.
  unfold nils. induction l as [|[|x u] l IH]; simpl; auto.
  all: lia.
Qed.

Lemma nils_nil l : nils ([] :: l) = S (nils l).
Proof. reflexivity. Qed.
Lemma nils_cons x t l : nils ((x :: t) :: l) = nils l.
Proof. reflexivity. Qed.
Lemma nils_pos l : In [] l -> 1 <= nils l.
Proof.
  induction l as [|[|x t] l IH]; [intros []| |]; intro H.
  - rewrite nils_nil. lia.
  - rewrite nils_cons. destruct H as [H|H]; [discriminate|auto].
Qed.
Lemma nils_zero l : ~ In [] l -> nils l = 0.
Proof.
  induction l as [|[|x t] l IH]; intro H; auto; [exfalso; apply H; now left|].
  rewrite nils_cons. apply IH. intro Q. apply H. now right.
Qed.

Lemma dedup_spec g : ForallOrdPairs disj g -> forall ng,
  (forall t, t <> [] -> (In t (mg_dedup g ng) <-> In t ng)) /\
  (forall t, In t (mg_dedup g ng) -> In t ng) /\
  (ForallOrdPairs disj ng -> ForallOrdPairs disj (mg_dedup g ng)) /\
  nils (mg_dedup g ng) = nils ng - (nils g - 1).
Proof.
  induction 1 as [|t g F H IH]; intro ng; simpl.
  - split; [tauto|split; [auto|split; [auto|unfold nils; simpl; lia]]].
  - destruct (existsb (set_eqb t) g) eqn:E.
    + apply existsb_exists in E. destruct E as (u & Hu & Q). apply set_eqb_same in Q.
      rewrite Forall_forall in F. pose proof (same_disj_nil t u Q (F u Hu)) as ->.
      apply same_nil in Q. subst u. rewrite remove_first_nil.
      destruct (IH (rm_nil ng)) as (A & B & C & D). split; [|split; [|split]].
      * intros t Ht. rewrite A, rm_nil_In; tauto.
      * intros t Ht. apply rm_nil_incl; auto.
      * intro Q. apply C. now apply rm_nil_pairs.
      * rewrite D, rm_nil_nils, nils_nil. pose proof (nils_pos g Hu). lia.
    + destruct (IH ng) as (A & B & C & D). split; [auto|split; [auto|split; [auto|]]].
      rewrite D. destruct t; [|reflexivity]. rewrite nils_nil, (nils_zero g); [lia|].
      intro Q. assert (existsb (set_eqb []) g = true); [|congruence].
      apply existsb_exists. exists []. auto.
Qed.

Lemma pairs_nth (l : list pset) : ForallOrdPairs disj l ->
  forall i j x, i < length l -> j < length l -> In x (nth i l []) -> In x (nth j l []) -> i = j.
Proof.
  induction 1 as [|t l F H IH]; simpl; intros i j x Hi Hj; [lia|].
  rewrite Forall_forall in F.
  destruct i, j; auto; intros A B.
  - exfalso. eapply (F (nth j l [])); eauto. apply nth_In; lia.
  - exfalso. eapply (F (nth i l [])); eauto. apply nth_In; lia.
  - f_equal. eapply IH; eauto; lia.
Qed.
Lemma nils_nth (l : list pset) : nils l <= 1 ->
  forall i j, i < length l -> j < length l -> nth i l [] = [] -> nth j l [] = [] -> i = j.
Proof.
  induction l as [|t l IH]; intros H i j Hi Hj; [simpl in Hi; lia|].
  assert (Z : t = [] -> forall k, k < length l -> nth k l [] <> []).
  { intros -> k Hk E. rewrite nils_nil in H. assert (1 <= nils l); [|lia].
    apply nils_pos. rewrite <- E. apply nth_In; auto. }
  simpl in Hi, Hj.
  destruct i, j; auto; simpl; intros A B.
  - exfalso. eapply (Z A j); eauto; lia.
  - exfalso. eapply (Z B i); eauto; lia.
  - f_equal. apply IH; auto; try lia. destruct t; [rewrite nils_nil in H|rewrite nils_cons in H]; lia.
Qed.

Lemma merge_group_correct g :
  exists out, merge_group g = Some out /\
  (forall i j x, i < length out -> j < length out -> In x (nth i out []) -> In x (nth j out []) -> i = j) /\
  (forall i j, i < length out -> j < length out -> same (nth i out []) (nth j out []) -> i = j) /\
  (forall x y, (exists t, In t out /\ In x t /\ In y t) <->
               (exists s, In s g /\ In x s) /\ (forall s, In s g -> (In x s <-> In y s))).
Proof.
  unfold merge_group.
  destruct (mg_loop_correct g (merge_group_fuel g) g []) as (ng & -> & [D _ S V G]).
  { unfold merge_group_fuel, meas. lia. }
  { apply mg_init. }
  exists (mg_dedup ng ng). split; auto. simpl in *.
  destruct (dedup_spec ng D ng) as (A & B & C & N).
  split; [now apply pairs_nth, C|split].
  - intros i j Hi Hj Q. destruct (nth i (mg_dedup ng ng) []) as [|x t] eqn:E.
    + apply same_nil in Q. eapply nils_nth; eauto. rewrite N. lia.
    + eapply (pairs_nth _ (C D) i j x); eauto; [rewrite E; now left|apply Q; now left].
  - intros x y. split.
    + intros (t & Ht & Hx & Hy). apply B in Ht. split; [eapply S; eauto|].
      assert (Tot : forall u v s, In u t -> In v t -> In s g -> In u s -> In v s).
      { intros u v s Hu Hv Hs Hus. destruct (V s u Hs Hus) as (t' & Ht' & Hut' & Hi).
        destruct (In_nth ng t [] Ht) as (a & La & Ea). destruct (In_nth ng t' [] Ht') as (b & Lb & Eb).
        assert (a = b) by (apply (pairs_nth ng D a b u); auto; congruence). subst b.
        apply Hi. congruence. }
      intros s Hs. split; eauto.
    + intros [(s & Hs & Hx) Sg]. destruct (V s x Hs Hx) as (t & Ht & Hxt & Hi).
      exists t. split; [|split; auto].
      * apply A; auto. intros ->. destruct Hxt.
      * eapply G; eauto. intros s' Hs'. symmetry. auto.
Qed.

(** *** [merge_constraint] with the sentinel spelled out *)
Lemma sentinel_dropped cs :
  (remove_first [(-1)%Z] cs = cs /\ forall s, In s cs -> ~ (forall x, In x s <-> x = (-1)%Z)) \/
  (exists a s b, cs = a ++ s :: b /\ remove_first [(-1)%Z] cs = a ++ b /\ (forall x, In x s <-> x = (-1)%Z)).
Proof.
  induction cs as [|t cs IH]; [left; split; [reflexivity|intros s []]|].
  cbn [remove_first]. destruct (set_eqb [(-1)%Z] t) eqn:E.
  - right. exists [], t, cs. split; auto. split; auto. apply set_eqb_same in E.
    intro x. rewrite <- (E x). simpl. split; [intros [H|[]]; auto|auto].
  - destruct IH as [[-> H]|(a & s & b & -> & -> & H)].
    + left. split; auto. intros s [<-|Hs]; auto. intro Q.
      assert (set_eqb [(-1)%Z] t = true); [|congruence]. apply set_eqb_same. intro x.
      rewrite Q. simpl. split; [intros [?|[]]; auto|auto].
    + right. exists (t :: a), s, b. auto.
Qed.
Lemma merge_constraint_full (cs : list (list Z)) :
  exists base, ((base = cs /\ forall s, In s cs -> ~ (forall x, In x s <-> x = (-1)%Z)) \/
     (exists a s b, cs = a ++ s :: b /\ base = a ++ b /\ (forall x, In x s <-> x = (-1)%Z))) /\
    let out := merge_constraint cs in
    (forall i j x, i < length out -> j < length out ->
       In x (nth i out []) -> In x (nth j out []) -> i = j) /\
    (forall s, In s out -> s <> []) /\
    (forall x, (exists s, In s out /\ In x s) <-> (exists s, In s base /\ In x s)) /\
    (forall x y, (exists s, In s out /\ In x s /\ In y s) <->
       (exists s, In s base /\ In x s) /\ linked base x y).
Proof.
  exists (remove_first [(-1)%Z] cs). split; [apply sentinel_dropped|]. apply merge_constraint_correct.
Qed.
