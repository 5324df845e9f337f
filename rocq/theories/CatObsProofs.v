(** Proofs about the observers around concatenations. *)
From Coq Require Import List Arith Bool Lia.
From Verif Require Import CatObsModel CatObsSpec.
Import ListNotations.

Lemma nmem_In n l : nmem n l = true <-> In n l.
Proof.
  unfold nmem. rewrite existsb_exists. split.
  - intros (x & I & E). apply Nat.eqb_eq in E. subst. exact I.
  - intros I. exists n. split; [exact I|apply Nat.eqb_refl].
Qed.
Lemma inputs_operands g n : c_inputs g n = operands g n.
Proof. reflexivity. Qed.

(** * One traversal, with the list of the nodes it processed *)
Definition done (g : cgraph) (log : list centry) (vc : list nat) (vo : list (nat * nat)) (e : centry) : Prop :=
  cn_shape (g (fst e)) = true \/ In (fst e) vc \/ v_get vo (fst e) <= snd (snd e) \/
  exists e', In e' log /\ fst e' = fst e /\ (cn_cat (g (fst e)) = true \/ snd (snd e') <= snd (snd e)).
Record trav (g : cgraph) (q : list centry) (vc : list nat) (vo : list (nat * nat)) (col : list nat)
    (vc' col' : list nat) (log : list centry) : Prop := {
  t_col : col' = col ++ flat_map (c_slots g) log;
  t_vc : forall x, In x vc' <-> In x vc \/ exists e, In e log /\ fst e = x /\ cn_cat (g x) = true;
  t_q : forall e, In e q -> done g log vc vo e;
  t_push : forall e0 e, In e0 log -> In e (c_push g e0) -> done g log vc vo e;
  t_from : forall l1 e l2, log = l1 ++ e :: l2 -> In e q \/ exists e0, In e0 l1 /\ In e (c_push g e0);
  t_new : forall e, In e log -> cn_shape (g (fst e)) = false /\ ~ In (fst e) vc }.
Lemma done_skip g vc vo e log : c_skip g vc vo e = true -> done g log vc vo e.
Proof.
  unfold c_skip, done. rewrite !orb_true_iff, nmem_In, Nat.leb_le. tauto.
Qed.
Lemma done_step g log vc vo e0 e :
  done g log (if cn_cat (g (fst e0)) then fst e0 :: vc else vc)
    (if cn_cat (g (fst e0)) then vo else (fst e0, snd (snd e0)) :: vo) e -> done g (e0 :: log) vc vo e.
Proof.
  unfold done. intros [H|[H|[H|(e' & I & E & H)]]]; [auto| | |].
  - destruct (cn_cat (g (fst e0))) eqn:C; [|auto]. destruct H as [H|H]; [|auto].
    right. right. right. exists e0. split; [left; reflexivity|]. split; [exact H|]. left. rewrite <- H. exact C.
  - destruct (cn_cat (g (fst e0))) eqn:C; [auto|]. unfold v_get in H. cbn [find fst] in H.
    destruct (fst e0 =? fst e) eqn:E; [|auto]. apply Nat.eqb_eq in E. right. right. right.
    exists e0. split; [left; reflexivity|]. split; [exact E|]. right. exact H.
  - right. right. right. exists e'. split; [right; exact I|]. auto.
Qed.
Lemma loop_trav g : forall fuel q vc vo col vc' col', c_loop g fuel q vc vo col = Some (vc', col') ->
  exists log, trav g q vc vo col vc' col' log.
Proof.
  induction fuel as [|fuel IH]; intros q vc vo col vc' col' H; [discriminate|].
  destruct q as [|e q]; cbn [c_loop] in H.
  { injection H as <- <-. exists []. constructor; cbn [flat_map].
    - rewrite app_nil_r. reflexivity.
    - intros x. split; [auto|]. intros [I|(e & [] & _)]. exact I.
    - intros e [].
    - intros e0 e [].
    - intros l1 e l2 E. destruct l1; discriminate.
    - intros e []. }
  destruct (c_skip g vc vo e) eqn:S.
  { apply IH in H. destruct H as [log [A B C D E F]]. exists log. constructor; auto.
    - intros e' [<-|I]; [apply done_skip; exact S|auto].
    - intros l1 e' l2 L. destruct (E _ _ _ L); [left; right; assumption|auto]. }
  apply IH in H. destruct H as [log [A B C D E F]]. exists (e :: log).
  unfold c_skip in S. apply orb_false_iff in S. destruct S as [S S3]. apply orb_false_iff in S. destruct S as [S1 S2].
  assert (NV : ~ In (fst e) vc) by (intros I; apply nmem_In in I; congruence).
  constructor; cbn [flat_map].
  - rewrite A, <- app_assoc. reflexivity.
  - intros x. rewrite B. split.
    + intros [I|(e' & I & X)]; [|right; exists e'; cbn [In]; tauto].
      destruct (cn_cat (g (fst e))) eqn:K; [|auto]. destruct I as [<-|I]; [|auto].
      right. exists e. split; [left; reflexivity|auto].
    + intros [I|(e' & [<-|I] & X & K)]; [left; destruct (cn_cat _); [right|]; exact I| |right; exists e'; auto].
      left. subst x. rewrite K. left. reflexivity.
  - intros e' [<-|I].
    + right. right. right. exists e. split; [left; reflexivity|]. auto.
    + apply done_step, C, in_or_app. auto.
  - intros e0 e' [<-|I] P.
    + apply done_step, C, in_or_app. auto.
    + exact (done_step _ _ _ _ _ _ (D _ _ I P)).
  - intros l1 e' l2 L. destruct l1 as [|x l1]; cbn [app] in L; injection L as L1 L2.
    + left. left. exact L1.
    + subst x. destruct (E _ _ _ L2) as [I|(e0 & I & P)].
      * apply in_app_or in I. destruct I as [I|I]; [left; right; exact I|]. right. exists e. split; [left; reflexivity|exact I].
      * right. exists e0. split; [right; exact I|exact P].
  - intros e' [<-|I]; [auto|]. destruct (F _ I) as [F1 F2]. split; [exact F1|]. intros J. apply F2.
    destruct (cn_cat _); [right|]; exact J.
Qed.

(** * What is put into the queue *)
Section trav.
Variables (g : cgraph) (c0 : nat) (vc vc' col' : list nat) (log : list centry).
Hypothesis P : proper g.
Hypothesis C0 : cn_cat (g c0) = true.
Hypothesis T : trav g [(c0, (Both, 0))] vc [] [] vc' col' log.

Lemma push_up e m f : In (m, (Up, f)) (c_push g e) -> c_mode g e <> Down /\ f = c_up g e /\ f < 2 /\ In m (operands g (fst e)).
Proof.
  unfold c_push. intros I. apply in_app_or in I. destruct I as [I|I].
  - destruct (c_mode g e); [| |contradiction];
      (destruct (c_up g e <? 2) eqn:L; [|contradiction]; apply Nat.ltb_lt in L;
       apply in_map_iff in I; destruct I as (x & X & I); injection X as -> <-; split; [discriminate|auto]).
  - destruct (match c_mode g e with Up => c_turns g e | _ => true end); [|contradiction].
    destruct (c_down g e <? 2); [|contradiction]. apply in_map_iff in I. destruct I as (x & X & _). discriminate.
Qed.
Lemma push_down e m f : In (m, (Down, f)) (c_push g e) -> f = c_down g e /\ f < 2.
Proof.
  unfold c_push. intros I. apply in_app_or in I. destruct I as [I|I].
  - destruct (c_mode g e); [| |contradiction];
      (destruct (c_up g e <? 2) eqn:L; [|contradiction]; apply in_map_iff in I; destruct I as (x & X & _); discriminate).
  - destruct (match c_mode g e with Up => c_turns g e | _ => true end); [|contradiction].
    destruct (c_down g e <? 2) eqn:L; [|contradiction]. apply Nat.ltb_lt in L. apply in_map_iff in I.
    destruct I as (x & X & _). injection X as _ <-. auto.
Qed.
Lemma push_both e m f : ~ In (m, (Both, f)) (c_push g e).
Proof.
  unfold c_push. intros I. apply in_app_or in I. destruct I as [I|I].
  - destruct (c_mode g e); [| |contradiction];
      (destruct (c_up g e <? 2) eqn:L; [|contradiction]; apply in_map_iff in I; destruct I as (x & X & _); discriminate).
  - destruct (match c_mode g e with Up => c_turns g e | _ => true end); [|contradiction].
    destruct (c_down g e <? 2); [|contradiction]. apply in_map_iff in I. destruct I as (x & X & _). discriminate.
Qed.
Lemma push_up_intro e m : c_mode g e <> Down -> c_up g e < 2 -> In m (operands g (fst e)) -> In (m, (Up, c_up g e)) (c_push g e).
Proof.
  intros M L I. unfold c_push. apply in_or_app. left. apply Nat.ltb_lt in L. rewrite L.
  destruct (c_mode g e); [| |congruence]; apply in_map_iff; exists m; auto.
Qed.
Lemma push_down_intro e m : match c_mode g e with Up => c_turns g e | _ => true end = true -> c_down g e < 2 ->
  In m (cn_next (g (fst e))) -> In (m, (Down, c_down g e)) (c_push g e).
Proof.
  intros M L I. unfold c_push. apply in_or_app. right. apply Nat.ltb_lt in L. rewrite M, L. apply in_map_iff. exists m. auto.
Qed.
Lemma log_split e : In e log -> exists l1 l2, log = l1 ++ e :: l2.
Proof. apply in_split. Qed.
Lemma log_from e : In e log -> e = (c0, (Both, 0)) \/ exists e0, In e0 log /\ In e (c_push g e0).
Proof.
  intros I. destruct (log_split _ I) as (l1 & l2 & E). destruct (t_from _ _ _ _ _ _ _ _ T _ _ _ E) as [[H|[]]|(e0 & I0 & H)].
  - left. symmetry. exact H.
  - right. exists e0. split; [|exact H]. rewrite E. apply in_or_app. auto.
Qed.
(** induction along the order in which nodes are processed *)
Lemma log_ind (Q : centry -> Prop) :
  Q (c0, (Both, 0)) -> (forall e0 e, In e0 log -> In e log -> Q e0 -> In e (c_push g e0) -> Q e) -> forall e, In e log -> Q e.
Proof.
  intros B S. assert (K : forall l1 l2, log = l1 ++ l2 -> forall e, In e l1 -> Q e).
  { intros l1. induction l1 as [|x l1 IH] using rev_ind; intros l2 E e I; [contradiction|].
    rewrite <- app_assoc in E. cbn [app] in E. apply in_app_or in I. destruct I as [I|[<-|[]]]; [exact (IH _ E e I)|].
    destruct (t_from _ _ _ _ _ _ _ _ T _ _ _ E) as [[<-|[]]|(e0 & I0 & H)]; [exact B|].
    apply (S e0 x); [rewrite E; apply in_or_app; auto|rewrite E; apply in_or_app; right; left; reflexivity|exact (IH _ E e0 I0)|exact H]. }
  intros e I. apply (K log []); [symmetry; apply app_nil_r|exact I].
Qed.
Lemma cat_both e : cn_cat (g (fst e)) = true -> c_mode g e = Both /\ c_count g e = 0 /\ c_new g e = 1 /\ c_up g e = 0 /\ c_down g e = 1.
Proof.
  intros K. destruct (pr_cat _ P _ K) as (S & _ & U). unfold c_up, c_down, c_new, c_count, c_mode. rewrite !K, U.
  destruct (cn_slots (g (fst e))); [congruence|auto].
Qed.
(** counts are below two, counts downwards are at least one *)
Lemma log_counts e : In e log -> snd (snd e) < 2 /\ (fst (snd e) = Down -> 1 <= snd (snd e)) /\ (fst (snd e) = Both -> e = (c0, (Both, 0))).
Proof.
  revert e. apply (log_ind (fun e => snd (snd e) < 2 /\ (fst (snd e) = Down -> 1 <= snd (snd e)) /\ (fst (snd e) = Both -> e = (c0, (Both, 0)))));
    [cbn; split; [lia|split; [discriminate|auto]]|]. intros e0 [n [m f]] I0 I (H1 & H2 & H3) Pu. cbn [fst snd].
  destruct m.
  - exfalso. exact (push_both _ _ _ Pu).
  - destruct (push_up _ _ _ Pu) as (_ & _ & L & _). split; [exact L|]. split; discriminate.
  - destruct (push_down _ _ _ Pu) as (E & L). split; [exact L|]. split; [|discriminate]. intros _. subst f.
    destruct (cn_cat (g (fst e0))) eqn:K; [rewrite (proj2 (proj2 (proj2 (proj2 (cat_both e0 K))))); auto|].
    unfold c_down, c_new, c_count, c_mode. rewrite !K. destruct e0 as [n0 [m0 f0]]. cbn [fst snd] in *.
    destruct m0.
    + exfalso. pose proof (H3 eq_refl) as E0. injection E0 as -> _. congruence.
    + unfold c_push in Pu. unfold c_turns, c_mode in *. cbn [fst snd] in *. rewrite K in *.
      destruct (1 <? length (cn_next (g n0))); [lia|]. exfalso.
      apply in_app_or in Pu. destruct Pu as [Pu|[]]. destruct (c_up _ _ <? 2); [|contradiction].
      apply in_map_iff in Pu. destruct Pu as (x & X & _). discriminate.
    + specialize (H2 eq_refl). destruct (cn_stub (g n0)); [lia|]. destruct (cn_slots (g n0)); lia.
Qed.
Lemma log_cat e : In e log -> cn_cat (g (fst e)) = false -> fst (snd e) <> Both.
Proof.
  intros I K B. destruct (log_counts _ I) as (_ & _ & H). rewrite (H B) in K. cbn [fst] in K. congruence.
Qed.
Lemma mode_plain e : cn_cat (g (fst e)) = false -> c_mode g e = fst (snd e) /\ c_count g e = snd (snd e).
Proof. intros K. unfold c_mode, c_count. rewrite K. auto. Qed.

(** a node reached upwards with count zero gets to a concatenation that is processed *)
Lemma up_zero e : In e log -> fst (snd e) = Up -> snd (snd e) = 0 ->
  exists b, cn_cat (g b) = true /\ (exists e', In e' log /\ fst e' = b) /\ arrives g (fst e) b.
Proof.
  revert e. apply (log_ind (fun e => fst (snd e) = Up -> snd (snd e) = 0 -> exists b, cn_cat (g b) = true /\
    (exists e', In e' log /\ fst e' = b) /\ arrives g (fst e) b)); [discriminate|].
  intros e0 [n [m f]] I0 I H Pu Em Ef. cbn [fst snd] in *. subst m f.
  destruct (push_up _ _ _ Pu) as (M & E & _ & O). destruct (cn_cat (g (fst e0))) eqn:K.
  { exists (fst e0). split; [exact K|]. split; [exists e0; auto|]. apply arr_direct. exact O. }
  destruct (mode_plain _ K) as [EM EC]. pose proof (log_cat _ I0 K) as NB.
  unfold c_up, c_new in E. rewrite EM in *. destruct (fst (snd e0)) eqn:Q; [congruence| |congruence].
  destruct (cn_stub (g (fst e0))) eqn:St; [discriminate|]. destruct (cn_slots (g (fst e0))) eqn:Sl; [|discriminate].
  rewrite EC in E. destruct (H eq_refl (eq_sym E)) as (b & Kb & Lb & A). exists b. split; [exact Kb|]. split; [exact Lb|].
  apply arr_through with (k := fst e0); [exact O| |exact A].
  destruct (t_new _ _ _ _ _ _ _ _ T _ I0) as [Sh _]. repeat split; assumption.
Qed.
(** a node reached upwards with count one gets to a node with an observer that was reached with count zero *)
Lemma up_one e : In e log -> fst (snd e) = Up -> snd (snd e) = 1 ->
  exists x, In x log /\ fst (snd x) = Up /\ snd (snd x) = 0 /\ cn_cat (g (fst x)) = false /\ cn_slots (g (fst x)) <> [] /\
    arrives g (fst e) (fst x).
Proof.
  revert e. apply (log_ind (fun e => fst (snd e) = Up -> snd (snd e) = 1 ->
    exists x, In x log /\ fst (snd x) = Up /\ snd (snd x) = 0 /\ cn_cat (g (fst x)) = false /\ cn_slots (g (fst x)) <> [] /\
    arrives g (fst e) (fst x))); [discriminate|].
  intros e0 [n [m f]] I0 I H Pu Em Ef. cbn [fst snd] in *. subst m f.
  destruct (push_up _ _ _ Pu) as (M & E & _ & O). destruct (cn_cat (g (fst e0))) eqn:K.
  { destruct (cat_both _ K) as (_ & _ & _ & U & _). rewrite U in E. discriminate. }
  destruct (mode_plain _ K) as [EM EC]. pose proof (log_cat _ I0 K) as NB.
  unfold c_up, c_new in E. rewrite EM in *. destruct (fst (snd e0)) eqn:Q; [congruence| |congruence].
  destruct (cn_stub (g (fst e0))) eqn:St; [discriminate|]. rewrite EC in E. destruct (cn_slots (g (fst e0))) eqn:Sl.
  - destruct (H eq_refl (eq_sym E)) as (x & Ix & X1 & X2 & X3 & X4 & A). exists x. repeat (split; [assumption|]).
    apply arr_through with (k := fst e0); [exact O| |exact A].
    destruct (t_new _ _ _ _ _ _ _ _ T _ I0) as [Sh _]. repeat split; assumption.
  - exists e0. split; [exact I0|]. split; [exact Q|]. split; [lia|]. split; [exact K|]. split; [rewrite Sl; discriminate|].
    apply arr_direct. exact O.
Qed.
Definition reached (n : nat) : Prop := In n vc \/ exists e, In e log /\ fst e = n.
Lemma pushed_reached e0 m md f : In e0 log -> In (m, (md, f)) (c_push g e0) -> cn_shape (g m) = false -> f < 2 -> reached m.
Proof.
  intros I Pu Sh L. destruct (t_push _ _ _ _ _ _ _ _ T _ _ I Pu) as [H|[H|[H|(e & Ie & E & _)]]]; cbn [fst snd] in *.
  - congruence.
  - left. exact H.
  - unfold v_get in H. cbn in H. lia.
  - right. exists e. auto.
Qed.
Lemma operands_next n m : In n (operands g m) -> In m (cn_next (g n)).
Proof. apply (pr_next _ P). Qed.

Hypothesis A : apart g.
(** a plain node that is processed: what reads it on the way to a concatenation is reached *)
Lemma down_plain e b m : In e log -> plain g (fst e) -> cn_cat (g b) = true -> arrives g (fst e) b ->
  In (fst e) (operands g m) -> cn_shape (g m) = false -> reached m.
Proof.
  intros I Pl Kb Ab O Sh. destruct Pl as (K & Shn & St & Sl). destruct (mode_plain _ K) as [EM EC].
  pose proof (operands_next _ _ O) as N. destruct (log_counts _ I) as (L & LD & _).
  assert (New : c_new g e = snd (snd e)) by (unfold c_new; rewrite St, Sl; exact EC).
  destruct (fst (snd e)) eqn:Q; [exfalso; exact (log_cat _ I K Q)| |].
  - destruct (1 <? length (cn_next (g (fst e)))) eqn:Len.
    + destruct (snd (snd e)) as [|[|f]] eqn:F; [| |lia].
      * assert (D : c_down g e = 1) by (unfold c_down, c_turns; rewrite EM, Len, EC; reflexivity).
        apply (pushed_reached e m Down 1 I); [rewrite <- D; apply push_down_intro; [unfold c_turns; rewrite EM; exact Len|lia|exact N]|exact Sh|lia].
      * exfalso. destruct (up_one _ I Q F) as (x & Ix & X1 & X2 & X3 & X4 & Ax).
        destruct (up_zero _ Ix X1 X2) as (c & Kc & _ & Ac). apply Nat.ltb_lt in Len.
        destruct (t_new _ _ _ _ _ _ _ _ T _ Ix) as [Shx _].
        apply (A (fst e) b (fst x) c); try assumption; repeat split; assumption.
    + (* its only reader put it into the queue *)
      destruct (log_from _ I) as [E|(e0 & I0 & Pu)]; [rewrite E in Q; discriminate|].
      destruct e as [n [md f]]. cbn [fst snd] in *. subst md. destruct (push_up _ _ _ Pu) as (_ & _ & _ & O0).
      apply operands_next in O0. apply Nat.ltb_ge in Len. assert (fst e0 = m).
      { destruct (cn_next (g n)) as [|x [|y l]]; cbn [length] in Len; [contradiction| |lia].
        destruct N as [<-|[]]. destruct O0 as [<-|[]]. reflexivity. }
      right. exists e0. auto.
  - assert (D : c_down g e = snd (snd e)) by (unfold c_down; rewrite EM; exact New).
    apply (pushed_reached e m Down (snd (snd e)) I); [|exact Sh|exact L]. rewrite <- D at 1.
    apply push_down_intro; [rewrite EM; reflexivity|lia|exact N].
Qed.
Hypothesis V : forall x, In x vc -> cn_cat (g x) = true.
Lemma down_path n b : arrives g n b -> cn_cat (g b) = true -> plain g n -> reached n -> reached b.
Proof.
  assert (NV : forall n, plain g n -> reached n -> exists e, In e log /\ fst e = n).
  { intros x Px [R|R]; [|exact R]. apply V in R. destruct Px as [K _]. congruence. }
  induction 1 as [n m O|n k m O Pk Ar IH]; intros Kb Pn R; destruct (NV _ Pn R) as (e & I & E); subst n.
  - apply (down_plain e m m I Pn Kb (arr_direct _ _ _ O) O). apply (pr_cat _ P _ Kb).
  - apply (IH Kb Pk). apply (down_plain e m k I Pn Kb (arr_through _ _ _ _ O Pk Ar) O). apply Pk.
Qed.
(** a node with an observer that is collected: the concatenations it gets to are visited *)
Lemma source_down e b : In e log -> c_count g e = 0 -> source g (fst e) b -> cn_cat (g b) = true -> reached b.
Proof.
  intros I Cz (Sl & Sh & Ab) Kb.
  assert (R : forall m, In (fst e) (operands g m) -> cn_shape (g m) = false -> reached m).
  { intros m O Shm. pose proof (operands_next _ _ O) as N. destruct (cn_cat (g (fst e))) eqn:K.
    - destruct (cat_both e K) as (M & _ & _ & _ & D). apply (pushed_reached e m Down 1 I); [|exact Shm|lia].
      rewrite <- D. apply push_down_intro; [rewrite M; reflexivity|lia|exact N].
    - destruct (mode_plain _ K) as [EM EC]. rewrite EC in Cz. destruct (log_counts _ I) as (L & LD & _).
      destruct (fst (snd e)) eqn:Q; [exfalso; exact (log_cat _ I K Q)| |specialize (LD eq_refl); lia].
      destruct (1 <? length (cn_next (g (fst e)))) eqn:Len.
      + assert (D : c_down g e = 1) by (unfold c_down, c_turns; rewrite EM, Len, EC, Cz; reflexivity).
        apply (pushed_reached e m Down 1 I); [rewrite <- D; apply push_down_intro; [unfold c_turns; rewrite EM; exact Len|lia|exact N]|exact Shm|lia].
      + destruct (log_from _ I) as [E|(e0 & I0 & Pu)]; [rewrite E in Q; discriminate|].
        destruct e as [n [md f]]. cbn [fst snd] in *. subst md. destruct (push_up _ _ _ Pu) as (_ & _ & _ & O0).
        apply operands_next in O0. apply Nat.ltb_ge in Len. assert (fst e0 = m).
        { destruct (cn_next (g n)) as [|x [|y l]]; cbn [length] in Len; [contradiction| |lia].
          destruct N as [<-|[]]. destruct O0 as [<-|[]]. reflexivity. }
        right. exists e0. auto. }
  inversion Ab as [n m O|n k m O Pk Ar]; subst.
  - apply R; [exact O|apply (pr_cat _ P _ Kb)].
  - apply (down_path k b Ar Kb Pk). apply R; [exact O|apply Pk].
Qed.
(** upwards: the sources of a processed concatenation are collected, or were visited before *)
Lemma collected e s : In e log -> c_count g e = 0 -> In s (cn_slots (g (fst e))) -> In s col'.
Proof.
  intros I Cz Hs. rewrite (t_col _ _ _ _ _ _ _ _ T). cbn [app]. apply in_flat_map. exists e. split; [exact I|].
  unfold c_slots. rewrite Cz. exact Hs.
Qed.
Lemma pushed_zero e0 m md : In e0 log -> In (m, (md, 0)) (c_push g e0) -> cn_shape (g m) = false ->
  In m vc \/ exists e, In e log /\ fst e = m /\ c_count g e = 0 /\ (cn_cat (g m) = false -> fst (snd e) = Up /\ snd (snd e) = 0).
Proof.
  intros I Pu Sh. destruct (t_push _ _ _ _ _ _ _ _ T _ _ I Pu) as [H|[H|[H|(e & Ie & E & H)]]]; cbn [fst snd] in *.
  - congruence.
  - auto.
  - unfold v_get in H. cbn in H. lia.
  - right. exists e. split; [exact Ie|]. split; [exact E|]. destruct (cn_cat (g m)) eqn:K.
    + split; [unfold c_count; rewrite E, K; reflexivity|discriminate].
    + destruct H as [H|H]; [discriminate|]. destruct (log_counts _ Ie) as (_ & LD & _). rewrite <- E in K.
      assert (Z : snd (snd e) = 0) by lia. split; [rewrite (proj2 (mode_plain _ K)); exact Z|]. intros _. split; [|exact Z].
      destruct (fst (snd e)) eqn:Q; [exfalso; exact (log_cat _ Ie K Q)|reflexivity|specialize (LD eq_refl); lia].
Qed.
Lemma sources_zero p c : arrives g p c -> cn_shape (g p) = false -> forall e, In e log -> fst e = c ->
  (cn_cat (g c) = true \/ (plain g c /\ fst (snd e) = Up /\ snd (snd e) = 0)) ->
  In p vc \/ exists e, In e log /\ fst e = p /\ c_count g e = 0 /\ (cn_cat (g p) = false -> fst (snd e) = Up /\ snd (snd e) = 0).
Proof.
  assert (D : forall p c, In p (operands g c) -> cn_shape (g p) = false -> forall e, In e log -> fst e = c ->
    (cn_cat (g c) = true \/ (plain g c /\ fst (snd e) = Up /\ snd (snd e) = 0)) ->
    In p vc \/ exists e, In e log /\ fst e = p /\ c_count g e = 0 /\ (cn_cat (g p) = false -> fst (snd e) = Up /\ snd (snd e) = 0)).
  { intros n m O Sh e I E H. subst m. assert (U : c_up g e = 0 /\ c_mode g e <> Down).
    { destruct H as [K|((K & _ & St & Sl) & Q & Z)].
      - destruct (cat_both e K) as (M & _ & _ & U & _). rewrite M. split; [exact U|discriminate].
      - destruct (mode_plain _ K) as [EM EC]. unfold c_up, c_new. rewrite EM, Q, St, Sl, EC. split; [exact Z|discriminate]. }
    destruct U as [U M]. apply (pushed_zero e n Up I); [|exact Sh]. rewrite <- U. apply push_up_intro; [exact M|lia|exact O]. }
  induction 1 as [n m O|n k m O Pk Ar IH]; intros Sh e I E H; [eapply D; eauto|].
  destruct (IH (proj1 (proj2 Pk)) e I E H) as [R|(e' & I' & E' & Cz & Z)].
  - apply V in R. destruct Pk as [K _]. congruence.
  - apply (D n k O Sh e' I' E'). right. split; [exact Pk|]. apply Z. apply Pk.
Qed.
(** what is collected sits at a concatenation that is visited now, or at a source of one *)
Lemma collected_from s : In s col' -> exists p b, In s (cn_slots (g p)) /\ cn_cat (g b) = true /\ ~ In b vc /\ In b vc' /\ (p = b \/ source g p b).
Proof.
  rewrite (t_col _ _ _ _ _ _ _ _ T). cbn [app]. intros Hs. apply in_flat_map in Hs. destruct Hs as (e & I & Hs).
  unfold c_slots in Hs. destruct (c_count g e =? 0) eqn:Z; [|contradiction]. apply Nat.eqb_eq in Z.
  destruct (t_new _ _ _ _ _ _ _ _ T _ I) as [Sh NV]. exists (fst e). destruct (cn_cat (g (fst e))) eqn:K.
  - exists (fst e). split; [exact Hs|]. split; [exact K|]. split; [exact NV|]. split; [|auto].
    apply (t_vc _ _ _ _ _ _ _ _ T). right. exists e. auto.
  - destruct (mode_plain _ K) as [EM EC]. rewrite EC in Z. destruct (log_counts _ I) as (_ & LD & _).
    assert (Q : fst (snd e) = Up).
    { destruct (fst (snd e)) eqn:Q; [exfalso; exact (log_cat _ I K Q)|reflexivity|specialize (LD eq_refl); lia]. }
    destruct (up_zero _ I Q Z) as (b & Kb & (e' & I' & E') & Ab). subst b. exists (fst e').
    destruct (t_new _ _ _ _ _ _ _ _ T _ I') as [_ NV']. split; [exact Hs|]. split; [exact Kb|]. split; [exact NV'|]. split.
    + apply (t_vc _ _ _ _ _ _ _ _ T). right. exists e'. auto.
    + right. split; [intros E; rewrite E in Hs; contradiction|]. auto.
Qed.
End trav.

(** * The pass *)
Lemma unify_in col obs s t : In s col -> In t col -> c_unify col obs s = c_unify col obs t.
Proof.
  destruct col as [|s0 rest]; [intros []|]. cbn [c_unify]. intros Hs Ht.
  assert (K : forall x, In x (s0 :: rest) -> (if nmem x rest then obs s0 else obs x) = obs s0).
  { intros x [<-|I]; [destruct (nmem s0 rest); reflexivity|]. apply nmem_In in I. rewrite I. reflexivity. }
  rewrite (K s Hs), (K t Ht). reflexivity.
Qed.
Lemma unify_out col obs s : ~ In s col -> c_unify col obs s = obs s.
Proof.
  destruct col as [|s0 rest]; [reflexivity|]. cbn [c_unify]. intros N. destruct (nmem s rest) eqn:E; [|reflexivity].
  apply nmem_In in E. exfalso. apply N. right. exact E.
Qed.
Record closed (g : cgraph) (vc : list nat) : Prop := {
  k_cat : forall a, In a vc -> cn_cat (g a) = true;
  k_down : forall a b, In a vc -> cn_cat (g b) = true -> source g a b -> In b vc;
  k_side : forall a b p, In a vc -> cn_cat (g b) = true -> source g p a -> source g p b -> In b vc;
  k_up : forall a p, In a vc -> cn_cat (g p) = true -> source g p a -> In p vc }.
Section step.
Variables (g : cgraph) (c0 : nat) (vc vc' col' : list nat) (log : list centry).
Hypothesis P : proper g.
Hypothesis A : apart g.
Hypothesis C0 : cn_cat (g c0) = true.
Hypothesis T : trav g [(c0, (Both, 0))] vc [] [] vc' col' log.
Hypothesis K : closed g vc.

Lemma new_cat a : In a vc' -> In a vc \/ exists e, In e log /\ fst e = a /\ cn_cat (g a) = true /\ c_count g e = 0 /\ ~ In a vc.
Proof.
  intros I. apply (t_vc _ _ _ _ _ _ _ _ T) in I. destruct I as [I|(e & I & E & Ka)]; [auto|]. right. exists e.
  repeat (split; [assumption|]). split; [unfold c_count; rewrite E, Ka; reflexivity|]. rewrite <- E.
  exact (proj2 (t_new _ _ _ _ _ _ _ _ T _ I)).
Qed.
Lemma reached_cat b : cn_cat (g b) = true -> reached vc log b -> In b vc'.
Proof.
  intros Kb R. apply (t_vc _ _ _ _ _ _ _ _ T). destruct R as [R|(e & I & E)]; [auto|]. right. exists e. auto.
Qed.
Lemma source_done e p a : In e log -> fst e = a -> cn_cat (g a) = true -> ~ In a vc -> source g p a ->
  exists e', In e' log /\ fst e' = p /\ c_count g e' = 0.
Proof.
  intros I E Ka Na S. destruct (sources_zero _ _ _ _ _ _ P C0 T (k_cat _ _ K) p a (proj2 (proj2 S)) (proj1 (proj2 S)) e I E (or_introl Ka))
    as [V|(e' & I' & E' & Z & _)]; [|exists e'; auto].
  exfalso. apply Na. apply (k_down _ _ K p a V Ka S).
Qed.
Lemma step_closed : closed g vc'.
Proof.
  constructor.
  - intros a I. destruct (new_cat _ I) as [H|(e & _ & _ & H & _)]; [exact (k_cat _ _ K _ H)|exact H].
  - intros a b I Kb S. destruct (new_cat _ I) as [H|(e & Ie & E & Ka & Z & N)].
    + apply (t_vc _ _ _ _ _ _ _ _ T). left. exact (k_down _ _ K _ _ H Kb S).
    + apply (reached_cat b Kb). rewrite <- E in S. exact (source_down _ _ _ _ _ _ P C0 T A (k_cat _ _ K) e b Ie Z S Kb).
  - intros a b p I Kb Sa Sb. destruct (new_cat _ I) as [H|(e & Ie & E & Ka & Z & N)].
    + apply (t_vc _ _ _ _ _ _ _ _ T). left. exact (k_side _ _ K _ _ _ H Kb Sa Sb).
    + destruct (source_done e p a Ie E Ka N Sa) as (e' & I' & E' & Z'). apply (reached_cat b Kb). rewrite <- E' in Sb.
      exact (source_down _ _ _ _ _ _ P C0 T A (k_cat _ _ K) e' b I' Z' Sb Kb).
  - intros a p I Kp S. destruct (new_cat _ I) as [H|(e & Ie & E & Ka & Z & N)].
    + apply (t_vc _ _ _ _ _ _ _ _ T). left. exact (k_up _ _ K _ _ H Kp S).
    + destruct (source_done e p a Ie E Ka N S) as (e' & I' & E' & Z'). apply (reached_cat p Kp). right. exists e'. auto.
Qed.
Lemma step_agree obs : (forall a, In a vc -> agree g obs a) -> forall a, In a vc' -> agree g (c_unify col' obs) a.
Proof.
  intros G a I. destruct (new_cat _ I) as [H|(e & Ie & E & Ka & Z & N)].
  - destruct (G a H) as [G1 G2].
    assert (U : forall p s, p = a \/ source g p a -> In s (cn_slots (g p)) -> ~ In s col').
    { intros p s Hp Hs Hc. destruct (collected_from _ _ _ _ _ _ P C0 T s Hc) as (p0 & b & Hs0 & Kb & Nb & _ & Hb).
      assert (p0 = p) by exact (pr_slots _ P _ _ _ Hs0 Hs). subst p0. destruct Hp as [->|Hp]; destruct Hb as [->|Hb].
      - exact (Nb H).
      - exact (Nb (k_down _ _ K _ _ H Kb Hb)).
      - exact (Nb (k_up _ _ K _ _ H Kb Hp)).
      - exact (Nb (k_side _ _ K _ _ _ H Kb Hp Hb)). }
    split.
    + intros s t Hs Ht. rewrite !unify_out by (apply (U a); auto). exact (G1 s t Hs Ht).
    + intros p s t Sp Hs Ht. rewrite (unify_out _ _ s) by (apply (U p); auto). rewrite (unify_out _ _ t) by (apply (U a); auto).
      exact (G2 p s t Sp Hs Ht).
  - assert (Ca : forall t, In t (cn_slots (g a)) -> In t col').
    { intros t Ht. rewrite <- E in Ht. exact (collected _ _ _ _ _ _ T e t Ie Z Ht). }
    split.
    + intros s t Hs Ht. apply unify_in; apply Ca; assumption.
    + intros p s t Sp Hs Ht. destruct (source_done e p a Ie E Ka N Sp) as (e' & I' & E' & Z').
      apply unify_in; [rewrite <- E' in Hs; exact (collected _ _ _ _ _ _ T e' s I' Z' Hs)|apply Ca; exact Ht].
Qed.
Lemma step_start : In c0 vc'.
Proof.
  apply (t_vc _ _ _ _ _ _ _ _ T). destruct (t_q _ _ _ _ _ _ _ _ T (c0, (Both, 0)) (or_introl eq_refl)) as [H|[H|[H|(e & I & E & _)]]]; cbn [fst snd] in *.
  - rewrite (proj1 (proj2 (pr_cat _ P _ C0))) in H. discriminate.
  - auto.
  - cbn in H. lia.
  - right. exists e. auto.
Qed.
End step.

Lemma pass_agree g : proper g -> apart g -> forall fuel cats vc obs obs',
  (forall c, In c cats -> cn_cat (g c) = true) -> closed g vc -> (forall a, In a vc -> agree g obs a) ->
  c_pass g fuel cats vc obs = Some obs' -> forall a, In a cats \/ In a vc -> agree g obs' a.
Proof.
  intros P A fuel. induction cats as [|c cats IH]; intros vc obs obs' KC K G H a I; cbn [c_pass] in H.
  - injection H as <-. destruct I as [[]|I]. auto.
  - destruct (c_loop g fuel [(c, (Both, 0))] vc [] []) as [[vc' col']|] eqn:L; [|discriminate].
    destruct (loop_trav _ _ _ _ _ _ _ _ L) as [log T]. assert (C0 : cn_cat (g c) = true) by (apply KC; left; reflexivity).
    apply (IH vc' (c_unify col' obs) obs').
    + intros x Hx. apply KC. right. exact Hx.
    + exact (step_closed _ _ _ _ _ _ P A C0 T K).
    + exact (step_agree _ _ _ _ _ _ P C0 T K obs G).
    + exact H.
    + destruct I as [[<-|I]|I]; [right; exact (step_start _ _ _ _ _ _ P C0 T)|auto|].
      right. apply (t_vc _ _ _ _ _ _ _ _ T). auto.
Qed.
Lemma unify_agree g fuel cats obs obs' : proper g -> apart g -> (forall c, In c cats -> cn_cat (g c) = true) ->
  unify_cats g fuel cats obs = Some obs' -> forall c, In c cats -> agree g obs' c.
Proof.
  intros P A KC H c I. apply (pass_agree g P A fuel cats [] obs obs' KC); [|intros a []|exact H|auto].
  constructor; intros a; intros; contradiction.
Qed.
Lemma pass_changes g : proper g -> forall fuel cats vc obs obs', (forall c, In c cats -> cn_cat (g c) = true) ->
  c_pass g fuel cats vc obs = Some obs' -> forall s, obs' s <> obs s ->
  exists p c, In s (cn_slots (g p)) /\ cn_cat (g c) = true /\ (p = c \/ source g p c).
Proof.
  intros P fuel. induction cats as [|c cats IH]; intros vc obs obs' KC H s D; cbn [c_pass] in H.
  - injection H as <-. congruence.
  - destruct (c_loop g fuel [(c, (Both, 0))] vc [] []) as [[vc' col']|] eqn:L; [|discriminate].
    destruct (loop_trav _ _ _ _ _ _ _ _ L) as [log T]. assert (C0 : cn_cat (g c) = true) by (apply KC; left; reflexivity).
    destruct (in_dec Nat.eq_dec s col') as [I|N].
    + destruct (collected_from _ _ _ _ _ _ P C0 T s I) as (p & b & Hs & Kb & _ & _ & Hb). exists p, b. auto.
    + apply (IH vc' (c_unify col' obs) obs'); [intros x Hx; apply KC; right; exact Hx|exact H|].
      rewrite (unify_out _ _ _ N). exact D.
Qed.

(** * The loop ends *)
Definition credit (g : cgraph) (vc : list nat) (vo : list (nat * nat)) (n : nat) : nat :=
  if cn_cat (g n) then (if nmem n vc then 0 else 1) else v_get vo n.
Definition credits g vc vo (ns : list nat) : nat := list_sum (map (credit g vc vo) ns).
Lemma credits_less g vc vo vc' vo' ns n : NoDup ns -> In n ns -> credit g vc' vo' n < credit g vc vo n ->
  (forall m, m <> n -> credit g vc' vo' m = credit g vc vo m) -> credits g vc' vo' ns < credits g vc vo ns.
Proof.
  intros ND I L E. unfold credits. induction ND as [|x l Hx ND IH]; [contradiction|]. cbn [map list_sum fold_right].
  change (fold_right Nat.add 0) with list_sum in *. destruct I as [->|I].
  - assert (Q : map (credit g vc' vo') l = map (credit g vc vo) l) by (apply map_ext_in; intros m Hm; apply E; congruence).
    rewrite Q. lia.
  - assert (x <> n) by congruence. rewrite (E x) by assumption. specialize (IH I). lia.
Qed.
Lemma push_nodes g ns e e' : finite g ns -> In (fst e) ns -> In e' (c_push g e) -> In (fst e') ns.
Proof.
  intros F I H. destruct (F _ I) as [F1 F2]. unfold c_push in H. apply in_app_or in H. destruct H as [H|H].
  - assert (Hm : In e' (map (fun m => (m, (Up, c_up g e))) (c_inputs g (fst e)))).
    { destruct (c_mode g e); [| |contradiction]; (destruct (c_up g e <? 2); [exact H|contradiction]). }
    apply in_map_iff in Hm. destruct Hm as (m & <- & Im). cbn [fst]. apply F1. unfold c_inputs in Im.
    destruct (cn_ff (g (fst e))); [|exact Im]. destruct (cn_prev (g (fst e))); [exact Im|right; exact Im].
  - destruct (match c_mode g e with Up => c_turns g e | _ => true end); [|contradiction].
    destruct (c_down g e <? 2); [|contradiction]. apply in_map_iff in H. destruct H as (m & <- & Im). cbn [fst]. auto.
Qed.
Lemma push_length g e : length (c_push g e) <= length (cn_prev (g (fst e))) + length (cn_next (g (fst e))).
Proof.
  unfold c_push. rewrite app_length. apply Nat.add_le_mono.
  - assert (Q : length (c_inputs g (fst e)) <= length (cn_prev (g (fst e)))).
    { unfold c_inputs. destruct (cn_ff _); [|lia]. destruct (cn_prev _); cbn [tl length]; lia. }
    destruct (c_mode g e); [| |cbn; lia]; (destruct (c_up g e <? 2); [rewrite map_length; exact Q|cbn; lia]).
  - destruct (match c_mode g e with Up => c_turns g e | _ => true end); [|cbn; lia].
    destruct (c_down g e <? 2); [rewrite map_length; lia|cbn; lia].
Qed.
Lemma loop_ends g ns D : finite g ns -> NoDup ns -> (forall n, In n ns -> length (cn_prev (g n)) + length (cn_next (g n)) <= D) ->
  forall fuel q vc vo col, (forall e, In e q -> In (fst e) ns) -> credits g vc vo ns * S D + length q < fuel ->
  c_loop g fuel q vc vo col <> None.
Proof.
  intros F ND B. induction fuel as [|fuel IH]; intros q vc vo col Q L; [lia|].
  destruct q as [|e q]; cbn [c_loop]; [discriminate|]. destruct (c_skip g vc vo e) eqn:S.
  - apply IH; [intros e' I; apply Q; right; exact I|cbn [length] in L; lia].
  - assert (Ie : In (fst e) ns) by (apply Q; left; reflexivity). apply IH.
    + intros e' I. apply in_app_or in I. destruct I as [I|I]; [apply Q; right; exact I|exact (push_nodes _ _ _ _ F Ie I)].
    + unfold c_skip in S. apply orb_false_iff in S. destruct S as [S S3]. apply orb_false_iff in S. destruct S as [_ S2].
      apply Nat.leb_gt in S3. pose proof (push_length g e) as PL. specialize (B _ Ie). rewrite app_length.
      cbn [length] in L.
      assert (C : credits g (if cn_cat (g (fst e)) then fst e :: vc else vc)
                    (if cn_cat (g (fst e)) then vo else (fst e, snd (snd e)) :: vo) ns < credits g vc vo ns).
      { apply (credits_less _ _ _ _ _ _ (fst e) ND Ie).
        - unfold credit. destruct (cn_cat (g (fst e))); [|unfold v_get at 1; cbn [find fst]; rewrite Nat.eqb_refl; exact S3].
          rewrite S2. unfold nmem. cbn [existsb]. rewrite Nat.eqb_refl. cbn [orb]. lia.
        - intros m Hm. unfold credit. destruct (cn_cat (g (fst e))) eqn:Ke.
          + destruct (cn_cat (g m)); [|reflexivity]. unfold nmem. cbn [existsb].
            destruct (m =? fst e) eqn:Em; [apply Nat.eqb_eq in Em; congruence|reflexivity].
          + destruct (cn_cat (g m)); [reflexivity|]. unfold v_get. cbn [find fst].
            destruct (fst e =? m) eqn:Em; [apply Nat.eqb_eq in Em; congruence|reflexivity]. }
      pose proof (Nat.mul_le_mono_r _ _ (S D) C) as M. rewrite Nat.mul_succ_l in M. unfold centry in *. lia.
Qed.
Lemma credits_start g vc ns : credits g vc [] ns <= 2 * length ns.
Proof.
  unfold credits. induction ns as [|n ns IH]; [cbn; lia|]. cbn [map list_sum fold_right length].
  change (fold_right Nat.add 0) with list_sum. assert (credit g vc [] n <= 2); [|lia].
  unfold credit. destruct (cn_cat (g n)); [destruct (nmem n vc); lia|]. cbn. lia.
Qed.
Lemma degree_bound (g : cgraph) (ns : list nat) : exists D, forall n, In n ns -> length (cn_prev (g n)) + length (cn_next (g n)) <= D.
Proof.
  exists (list_max (map (fun n => length (cn_prev (g n)) + length (cn_next (g n))) ns)). intros n I.
  pose proof (proj1 (list_max_le (map (fun n => length (cn_prev (g n)) + length (cn_next (g n))) ns) _) (Nat.le_refl _)) as F.
  rewrite Forall_forall in F. apply F. apply in_map_iff. exists n. auto.
Qed.
Lemma unify_ends g ns cats obs : finite g ns -> (forall c, In c cats -> In c ns) ->
  exists bound, forall fuel, bound <= fuel -> unify_cats g fuel cats obs <> None.
Proof.
  intros F0 I0. assert (F : finite g (nodup Nat.eq_dec ns)).
  { intros n Hn. apply nodup_In in Hn. destruct (F0 n Hn) as [F1 F2]. split; intros m Hm; apply nodup_In; auto. }
  assert (I : forall c, In c cats -> In c (nodup Nat.eq_dec ns)) by (intros c Hc; apply nodup_In; auto).
  destruct (degree_bound g (nodup Nat.eq_dec ns)) as [D B].
  exists (2 * length (nodup Nat.eq_dec ns) * S D + 2). intros fuel L. unfold unify_cats. generalize (@nil nat) as vc.
  revert obs. induction cats as [|c cats IH]; intros obs vc; cbn [c_pass]; [discriminate|].
  destruct (c_loop g fuel [(c, (Both, 0))] vc [] []) as [[vc' col']|] eqn:E.
  - apply IH; [intros x Hx; apply I0; right; exact Hx|intros x Hx; apply I; right; exact Hx].
  - exfalso. revert E. apply (loop_ends g (nodup Nat.eq_dec ns) D F (NoDup_nodup _ _) B).
    + intros e [<-|[]]. apply I. left. reflexivity.
    + pose proof (credits_start g vc (nodup Nat.eq_dec ns)). cbn [length]. nia.
Qed.
