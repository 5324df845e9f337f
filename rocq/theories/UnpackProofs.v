(** Proofs about the outputs of a graph. *)
From Coq Require Import List Arith Bool Lia.
From Verif Require Import OutTransModel UnpackModel UnpackSpec.
Import ListNotations.

Lemma mem_in t l : o_mem t l = true <-> In t l.
Proof. unfold o_mem. rewrite existsb_exists. split; [intros (x & X & E); apply Nat.eqb_eq in E; now subst|intros H; exists t; split; [exact H|apply Nat.eqb_refl]]. Qed.
Lemma upd_same {A} (f : nat -> A) k v : o_upd f k v k = v.
Proof. unfold o_upd. now rewrite Nat.eqb_refl. Qed.
Lemma upd_other {A} (f : nat -> A) k v n : n <> k -> o_upd f k v n = f n.
Proof. intros H. unfold o_upd. apply Nat.eqb_neq in H. now rewrite H. Qed.
Lemma extends_refl k g : u_extends k g g.
Proof. split; [auto|]. split; [auto|]. split; auto. Qed.
Lemma extends_trans k a b c : u_extends k a b -> u_extends k b c -> u_extends k a c.
Proof.
  intros (A1 & A2 & A3 & A4) (B1 & B2 & B3 & B4). split; [|split; [auto|split; [|auto]]].
  - intros n H. destruct (A1 n H) as [X Y]. destruct (B1 n X) as [X' Y']. split; [exact X'|congruence].
  - intros n H. destruct (B3 n H) as [X|X]; [|now right]. destruct (A3 n X) as [Y|(Y & p & t & Z)]; [now left|]. right.
    destruct (B1 n X) as [_ E]. rewrite E. split; [exact Y|]. exists p, t. auto.
Qed.
(** one name *)
Lemma add_ok k g t p : u_wf g -> (forall q, uprod g t = Some q -> In q (uids g)) -> uprod g t = Some p ->
  exists g', u_add k g t = Some g' /\ u_wf g' /\ u_extends k g g' /\ ued g' = ued g ++ [(p, unext g, t)] /\ uk (un g' (unext g)) = k /\
    (forall u q, uprod g' u = Some q -> uprod g u = Some q \/ (u = unext g /\ q = unext g /\ In q (uids g'))) /\ (forall n, n <> unext g -> un g' n = un g n).
Proof.
  intros (W1 & W2 & W3) P E. unfold u_add. rewrite E. eexists. split; [reflexivity|]. cbn [un uids ued uprod unext]. split; [|split; [|split; [reflexivity|split; [now rewrite upd_same|split]]]].
  - split; [|split].
    + cbn [un uids ued uprod unext]. intros n H. apply in_app_iff in H. destruct H as [H|[<-|[]]].
      * destruct (W1 n H) as [A B]. split; [lia|]. rewrite upd_other by lia. intros u U. destruct (B u U) as [C D]. split; [lia|]. now rewrite upd_other by lia.
      * split; [lia|]. rewrite upd_same. intros u [<-|[]]. split; [lia|]. now rewrite upd_same.
    + cbn [un uids ued uprod unext]. intros s d u H. apply in_app_iff in H. destruct H as [H|[H|[]]].
      * destruct (W2 s d u H) as (A & B & C). split; [apply in_app_iff; auto|]. split; [apply in_app_iff; auto|lia].
      * injection H as <- <- <-. split; [apply in_app_iff; left; now apply P|]. split; [apply in_app_iff; right; now left|]. specialize (W3 t p E). lia.
    + cbn [un uids ued uprod unext]. intros u q H. destruct (Nat.eq_dec u (unext g)) as [->|N]; [lia|]. rewrite upd_other in H by exact N. specialize (W3 u q H). lia.
  - split; [|split; [|split]]; cbn [un uids ued uprod unext].
    + intros n H. split; [apply in_app_iff; auto|]. destruct (W1 n H) as [A _]. apply upd_other. lia.
    + intros e H. apply in_app_iff. auto.
    + intros n H. apply in_app_iff in H. destruct H as [H|[<-|[]]]; [now left|]. right. rewrite upd_same. split; [reflexivity|]. exists p, t. apply in_app_iff. right. now left.
    + intros u q H. rewrite upd_other; [exact H|]. intros ->. specialize (W3 _ _ H). lia.
  - intros u q H. destruct (Nat.eq_dec u (unext g)) as [->|N]; [|rewrite upd_other in H by exact N; now left].
    rewrite upd_same in H. injection H as <-. right. split; [reflexivity|]. split; [reflexivity|]. apply in_app_iff. right. now left.
  - intros n N. now apply upd_other.
Qed.
Lemma out_count_app k g g' p t m x : (forall e, In e (ued g) -> snd (fst e) < m) -> (forall n, n <> m -> un g' n = un g n) -> uk (un g' m) = k -> ued g' = ued g ++ [(p, m, t)] ->
  out_count g' x = out_count g x + match k with UOut => if t =? x then 1 else 0 | _ => 0 end.
Proof.
  intros L U K E. unfold out_count. rewrite E, filter_app, app_length. f_equal.
  - f_equal. apply filter_ext_in. intros e H. specialize (L e H). rewrite U by lia. reflexivity.
  - cbn [filter fst snd]. rewrite K. destruct k; try reflexivity. now destruct (t =? x).
Qed.
(** a list of names *)
Lemma adds_ok k ts : forall g, u_wf g -> live g -> (forall t, In t ts -> exists p, uprod g t = Some p) ->
  exists g', u_adds k g ts = Some g' /\ u_wf g' /\ u_extends k g g' /\ (forall t, In t ts -> is_read g' t) /\
    (forall e, In e (ued g') -> In e (ued g) \/ (In (snd e) ts /\ uk (un g' (snd (fst e))) = k /\ ~ In (snd (fst e)) (uids g))) /\
    (forall x, out_count g' x = out_count g x + match k with UOut => count_occ Nat.eq_dec ts x | _ => 0 end).
Proof.
  induction ts as [|t ts IH]; intros g W L H.
  - exists g. split; [reflexivity|]. split; [exact W|]. split; [apply extends_refl|]. split; [intros t []|]. split; [auto|]. intros x. cbn. destruct k; lia.
  - destruct (H t (or_introl eq_refl)) as (p & E). destruct (add_ok k g t p W (L t) E) as (g1 & A & W' & X & ED & K & PR & UN).
    assert (L1 : live g1).
    { intros u q U. destruct (PR u q U) as [U'|(_ & _ & U')]; [|exact U']. destruct X as (X1 & _). exact (proj1 (X1 q (L u q U'))). }
    destruct (IH g1 W' L1) as (g2 & A2 & W2 & X2 & R2 & E2 & C2).
    { intros u U. destruct (H u (or_intror U)) as (q & Q). exists q. destruct X as (_ & _ & _ & X4). auto. }
    exists g2. cbn [u_adds]. rewrite A. split; [exact A2|]. split; [exact W2|]. split; [eapply extends_trans; eauto|]. split; [|split].
    + intros u [<-|U]; [|auto]. destruct X2 as (_ & X2 & _). exists p, (unext g). apply X2. rewrite ED. apply in_app_iff. right. now left.
    + intros e U. destruct (E2 e U) as [U'|(U1 & U2 & U3)].
      * rewrite ED in U'. apply in_app_iff in U'. destruct U' as [U'|[<-|[]]]; [now left|]. right. cbn [fst snd]. split; [now left|].
        destruct W' as (_ & W4 & _). destruct (W4 p (unext g) t) as (_ & W5 & _); [rewrite ED; apply in_app_iff; right; now left|].
        destruct X2 as (X2 & _). destruct (X2 _ W5) as [_ X3]. rewrite X3. split; [exact K|]. intros Z. destruct W as (W & _). specialize (W _ Z). lia.
      * right. split; [now right|]. split; [exact U2|]. intros Z. apply U3. destruct X as (X1 & _). exact (proj1 (X1 _ Z)).
    + intros x. rewrite C2, (out_count_app k g g1 p t (unext g) x); auto.
      * destruct k; try lia. cbn [count_occ]. destruct (Nat.eq_dec t x) as [->|N]; [rewrite Nat.eqb_refl; lia|]. apply Nat.eqb_neq in N. rewrite N. lia.
      * intros [[s d] u] U. destruct W as (W1 & W2' & _). destruct (W2' s d u U) as (_ & D & _). exact (proj1 (W1 d D)).
Qed.

(** * Lists among the outputs *)
Lemma get_items : forall im n, u_get im n = items im n.
Proof. induction im as [|[k l] im IH]; intros n; [reflexivity|]. cbn [u_get]. rewrite IH. unfold items. cbn [find fst snd]. rewrite (Nat.eqb_sym k n). now destruct (n =? k). Qed.
Lemma unpacked_flat im outs : unpacked im outs (flat_map (fun n => match u_get im n with Some l => l | None => [n] end) outs).
Proof.
  induction outs as [|n outs IH]; cbn [flat_map]; [constructor|]. destruct (u_get im n) as [l|] eqn:E; rewrite get_items in E; [now apply up_list|now apply up_one].
Qed.
Lemma listed_flat im t outs : count_occ Nat.eq_dec (flat_map (fun n => match u_get im n with Some l => l | None => [] end) outs) t = listed_in im t outs.
Proof. induction outs as [|n outs IH]; [reflexivity|]. cbn [flat_map listed_in]. rewrite count_occ_app, IH, get_items. now destruct (items im n). Qed.
Lemma unpack_lemma im outs g : u_wf g -> live g -> (forall n l t, In n outs -> items im n = Some l -> In t l -> exists p, uprod g t = Some p) ->
  exists g' outs', output_unpack im outs g = Some (g', outs') /\ unpacked im outs outs' /\ u_wf g' /\ u_extends UOut g g' /\
    (forall t, out_count g' t = out_count g t + listed_in im t outs) /\
    (forall e, In e (ued g') -> In e (ued g) \/ uk (un g' (snd (fst e))) = UOut).
Proof.
  intros W L H. unfold output_unpack.
  destruct (adds_ok UOut (flat_map (fun n => match u_get im n with Some l => l | None => [] end) outs) g W L) as (g' & A & W' & X & R & E & C).
  { intros t T. apply in_flat_map in T. destruct T as (n & N & T). destruct (u_get im n) as [l|] eqn:Q; [|destruct T]. rewrite get_items in Q. eapply H; eauto. }
  rewrite A. eexists. eexists. split; [reflexivity|]. split; [apply unpacked_flat|]. split; [exact W'|]. split; [exact X|]. split.
  - intros t. rewrite C. f_equal. apply listed_flat.
  - intros e U. destruct (E e U) as [U'|(_ & U' & _)]; auto.
Qed.

(** * Outputs that nobody reads *)
Lemma multi_iff g n : In n (filter (u_multi g) (uids g)) <-> several g n.
Proof.
  rewrite filter_In. unfold several, u_multi. split.
  - intros [H M]. split; [exact H|]. assert (X : (1 <? length (uout (un g n))) && negb (length (u_outs g n) =? 0) = true /\ (uk (un g n) = UOp \/ uk (un g n) = UReshape))
      by (destruct (uk (un g n)); try discriminate; auto). destruct X as [X K]. apply andb_true_iff in X. destruct X as [X Y]. split; [exact K|].
    apply Nat.ltb_lt in X. split; [lia|]. apply negb_true_iff, Nat.eqb_neq in Y. destruct (u_outs g n) as [|[[s d] t] l] eqn:O; [now elim Y|].
    assert (I : In (s, d, t) (u_outs g n)) by (rewrite O; now left). apply filter_In in I. destruct I as [I S]. apply Nat.eqb_eq in S. cbn in S. subst s. now exists d, t.
  - intros (H & K & L & d & t & E). split; [exact H|]. assert (X : (1 <? length (uout (un g n))) && negb (length (u_outs g n) =? 0) = true).
    { apply andb_true_iff. split; [apply Nat.ltb_lt; lia|]. apply negb_true_iff, Nat.eqb_neq. intros Z.
      assert (I : In (n, d, t) (u_outs g n)) by (apply filter_In; split; [exact E|apply Nat.eqb_refl]). destruct (u_outs g n); [destruct I|discriminate]. }
    destruct K as [-> | ->]; exact X.
Qed.
Lemma list_iff im g n : existsb (u_listed im) (uout (un g n)) = true <-> makes_list im g n.
Proof.
  rewrite existsb_exists. unfold u_listed, makes_list. split.
  - intros (t & T & L). apply mem_in, in_flat_map in L. destruct L as ([k l] & K & L). exists t, k, l. auto.
  - intros (t & k & l & T & K & L). exists t. split; [exact T|]. apply mem_in, in_flat_map. exists (k, l). auto.
Qed.
Lemma names_wants im g n t : (forall d, uk (un g d) = UReshape -> exists u, uout (un g d) = [u]) -> In t (u_names im g n) <-> wants im g n t.
Proof.
  intros R. unfold u_names, wants. destruct (existsb (u_listed im) (uout (un g n))) eqn:E.
  - apply list_iff in E. rewrite in_flat_map. split.
    + intros ([[s d] u] & I & T). right. split; [exact E|]. apply filter_In in I. destruct I as [I S]. apply Nat.eqb_eq in S. cbn [fst snd] in *. subst s.
      destruct (uk (un g d)) eqn:K; try destruct T as []. destruct (R d K) as (y & Y). rewrite Y in *. exists d, u. split; [exact I|]. split; [exact K|]. cbn in H. rewrite Y, H. reflexivity. destruct H.
    + intros [[N _]|(_ & d & u & I & K & O)]; [contradiction|]. exists (n, d, u). split; [apply filter_In; split; [exact I|apply Nat.eqb_refl]|]. cbn [fst snd]. rewrite K, O. now left.
  - assert (N : ~ makes_list im g n) by (intros M; apply list_iff in M; congruence). split; [auto|]. intros [[_ T]|[M _]]; [exact T|contradiction].
Qed.
Lemma unused_lemma im g : u_wf g -> live g -> (forall d, uk (un g d) = UReshape -> exists u, uout (un g d) = [u]) ->
  exists g', connect_unused im g = Some g' /\ u_wf g' /\ u_extends UUnused g g' /\
    (forall n t, several g n -> wants im g n t -> is_read g' t) /\
    (forall s d t, In (s, d, t) (ued g') -> In (s, d, t) (ued g) \/ (uk (un g' d) = UUnused /\ ~ is_read g t /\ exists n, several g n /\ wants im g n t)) /\
    (forall t, out_count g' t = out_count g t).
Proof.
  intros W L R. unfold connect_unused.
  set (ts := flat_map (fun n => filter (fun t => negb (o_mem t (map snd (ued g)))) (u_names im g n)) (filter (u_multi g) (uids g))).
  assert (T : forall t, In t ts <-> ~ is_read g t /\ exists n, several g n /\ wants im g n t).
  { intros t. unfold ts. rewrite in_flat_map. split.
    - intros (n & N & I). apply multi_iff in N. apply filter_In in I. destruct I as [I M]. apply names_wants in I; [|exact R]. split; [|eauto].
      intros (s & d & E). apply negb_true_iff in M. assert (X : o_mem t (map snd (ued g)) = true) by (apply mem_in, in_map_iff; exists (s, d, t); auto). congruence.
    - intros (N & n & S & Wn). exists n. split; [now apply multi_iff|]. apply filter_In. split; [now apply names_wants|]. apply negb_true_iff.
      destruct (o_mem t (map snd (ued g))) eqn:M; [|reflexivity]. apply mem_in, in_map_iff in M. destruct M as ([[s d] u] & E & I). cbn in E. subst u. elim N. now exists s, d. }
  destruct (adds_ok UUnused ts g W L) as (g' & A & W' & X & RD & E & C).
  { intros t I. apply T in I. destruct I as (_ & n & (S & _) & Wn). destruct Wn as [[_ O]|(_ & d & u & I & K & O)].
    - destruct W as (W & _). destruct (W n S) as [_ W2]. destruct (W2 t O) as [_ P]. eauto.
    - destruct W as (W & W2 & _). destruct (W2 _ _ _ I) as (_ & D & _). destruct (W d D) as [_ W3]. destruct (W3 t) as [_ P]; [rewrite O; now left|]. eauto. }
  exists g'. split; [exact A|]. split; [exact W'|]. split; [exact X|]. split; [|split].
  - intros n t S Wn. destruct (in_dec Nat.eq_dec t (map snd (ued g))) as [I|N].
    + apply in_map_iff in I. destruct I as ([[s d] u] & Q & I). cbn in Q. subst u. destruct X as (_ & X & _). exists s, d. auto.
    + apply RD, T. split; [|eauto]. intros (s & d & I). apply N. apply in_map_iff. exists (s, d, t). auto.
  - intros s d t I. destruct (E _ I) as [I'|(I1 & I2 & _)]; [now left|]. right. cbn [fst snd] in *. apply T in I1. destruct I1 as [I1 I3]. auto.
  - intros t. rewrite C. lia.
Qed.

(** * Examples *)
(** 0: input; 1: split into 1, 2, 3; 4, 5, 6: RESHAPE of them; 7: an operator with outputs 7 and 8, of which 8 is not read; 10, 11: OUTPUT *)
Definition xg_n (n : nat) : unode :=
  match n with 0 => mkUN UIn [0] | 1 => mkUN UOp [1; 2; 3] | 4 => mkUN UReshape [4] | 5 => mkUN UReshape [5] | 6 => mkUN UReshape [6] | 7 => mkUN UOp [7; 8] | 10 => mkUN UOut [10] | 11 => mkUN UOut [11] | _ => mkUN UIn [] end.
Definition xg_p (t : nat) : option nat :=
  match t with 0 => Some 0 | 1 | 2 | 3 => Some 1 | 4 => Some 4 | 5 => Some 5 | 6 => Some 6 | 7 | 8 => Some 7 | 10 => Some 10 | 11 => Some 11 | _ => None end.
Definition xg : ug := mkUG xg_n [0; 1; 4; 5; 6; 7; 10; 11] [(0,1,0);(1,4,1);(1,5,2);(1,6,3);(4,7,4);(7,10,7);(5,11,5)] xg_p 12.
Lemma xg_wf : u_wf xg /\ live xg /\ (forall d, uk (un xg d) = UReshape -> exists u, uout (un xg d) = [u]).
Proof.
  assert (P : forall t p, uprod xg t = Some p -> t < 12 /\ In p (uids xg)).
  { intros t p H. cbn in H. do 12 (destruct t as [|t]; [cbn in H; first [discriminate H|injection H as <-; split; [lia|cbn; tauto]]|]). discriminate H. }
  split; [split; [|split]|split].
  - intros n H. cbn in H. repeat (destruct H as [<-|H]; [split; [cbn; lia|]; intros t T; cbn in T; repeat (destruct T as [<-|T]; [split; [cbn; lia|reflexivity]|]); destruct T|]). destruct H.
  - intros s d t H. cbn in H. repeat (destruct H as [H|H]; [injection H as <- <- <-; cbn; split; [tauto|split; [tauto|lia]]|]). destruct H.
  - intros t p H. exact (proj1 (P t p H)).
  - intros t p H. exact (proj2 (P t p H)).
  - intros d K. cbn in K. do 12 (destruct d as [|d]; [try discriminate K; try (eexists; reflexivity)|]). discriminate K.
Qed.
(** an output that is a list of lists, or a list with a constant that is not in the graph *)
Lemma nested_lemma : exists im outs g, u_wf g /\ live g /\ (forall n, In n outs -> items im n <> None) /\
  (forall n l t, In n outs -> items im n = Some l -> In t l -> items im t <> None) /\ output_unpack im outs g = None.
Proof.
  exists [(20, [21; 22]); (21, [4]); (22, [5; 6])], [20], xg. destruct xg_wf as (A & B & _). split; [exact A|]. split; [exact B|]. split; [|split; [|reflexivity]].
  - intros n [<-|[]]. discriminate.
  - intros n l t [<-|[]] E T. injection E as <-. destruct T as [<-|[<-|[]]]; discriminate.
Qed.
(** a split whose results are all unused gets UNUSED nodes although 3417 means to leave it out *)
Definition yg_n (n : nat) : unode := match n with 0 => mkUN UIn [0] | 1 => mkUN UOp [1; 2] | 3 => mkUN UReshape [3] | 4 => mkUN UReshape [4] | _ => mkUN UIn [] end.
Definition yg_p (t : nat) : option nat := match t with 0 => Some 0 | 1 | 2 => Some 1 | 3 => Some 3 | 4 => Some 4 | _ => None end.
Definition yg : ug := mkUG yg_n [0; 1; 3; 4] [(0,1,0);(1,3,1);(1,4,2)] yg_p 5.
Lemma whole_lemma : exists im g g' n, u_wf g /\ several g n /\ makes_list im g n /\
  (forall d t e, In (n, d, t) (ued g) -> In e (ued g) -> fst (fst e) <> d) /\ connect_unused im g = Some g' /\
  exists d t, uk (un g' d) = UUnused /\ In (3, d, t) (ued g').
Proof.
  exists [(9, [1; 2])], yg. eexists. exists 1. split; [|split; [|split; [|split; [|split; [vm_compute; reflexivity|]]]]].
  - split; [|split].
    + intros n H. cbn in H. repeat (destruct H as [<-|H]; [split; [cbn; lia|]; intros t T; cbn in T; repeat (destruct T as [<-|T]; [split; [cbn; lia|reflexivity]|]); destruct T|]). destruct H.
    + intros s d t H. cbn in H. repeat (destruct H as [H|H]; [injection H as <- <- <-; cbn; split; [tauto|split; [tauto|lia]]|]). destruct H.
    + intros t p H. cbn in H. do 5 (destruct t as [|t]; [cbn; lia|]). discriminate H.
  - split; [cbn; tauto|]. split; [now left|]. split; [cbn; lia|]. exists 3, 1. cbn. tauto.
  - exists 1, 9, [1; 2]. cbn. tauto.
  - intros d t e D E. cbn in D, E. destruct D as [D|[D|[D|[]]]]; try discriminate D; injection D as <- <-; repeat (destruct E as [<-|E]; [discriminate|]); destruct E.
  - exists 5, 3. vm_compute. tauto.
Qed.
