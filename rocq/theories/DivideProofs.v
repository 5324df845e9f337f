(** [divide_subgraph] computes the connected components of the dependency centers. *)
From Coq Require Import List Arith Bool Lia Relations.
From Verif Require Import PruneModel MergeProofs.
Import ListNotations.
Local Open Scope nat_scope.

Definition adjacent (ms : list modif) (a b : nat) : Prop :=
  exists m, In m ms /\ In a (m_inputs m) /\ In b (m_inputs m).
Definition connected (ms : list modif) : nat -> nat -> Prop := clos_refl_sym_trans nat (adjacent ms).
Definition is_center (ms : list modif) (i c : nat) : Prop :=
  exists m, nth_error ms i = Some m /\ In c (m_centers m).

Lemma dget_dset {B} k v (d : list (nat * B)) k' :
  dget k' (dset k v d) = if k' =? k then Some v else dget k' d.
Proof.
  induction d as [|[a w] d IH]; simpl; [reflexivity|].
  destruct (k =? a) eqn:E; simpl.
  - apply Nat.eqb_eq in E. subst. destruct (k' =? a); auto.
  - destruct (k' =? a) eqn:E2; auto. apply Nat.eqb_eq in E2. subst.
    rewrite Nat.eqb_sym in E. now rewrite E.
Qed.
Lemma dget_ddel {B} k (d : list (nat * B)) k' :
  dget k' (ddel k d) = if k' =? k then None else dget k' d.
Proof.
  induction d as [|[a w] d IH]; simpl; [now destruct (k' =? k)|].
  destruct (k =? a) eqn:E; simpl.
  - apply Nat.eqb_eq in E. subst. rewrite IH. destruct (k' =? a); auto.
  - destruct (k' =? a) eqn:E2; auto. apply Nat.eqb_eq in E2. subst.
    rewrite Nat.eqb_sym in E. now rewrite E.
Qed.
Lemma dget_In {B} k (d : list (nat * B)) v : dget k d = Some v -> In (k, v) d.
Proof.
  induction d as [|[a w] d IH]; simpl; [discriminate|]. destruct (k =? a) eqn:E; auto.
  apply Nat.eqb_eq in E. subst. intro H. injection H as ->. auto.
Qed.
Lemma In_dget {B} k (d : list (nat * B)) v : NoDup (map fst d) -> In (k, v) d -> dget k d = Some v.
Proof.
  induction d as [|[a w] d IH]; simpl; [tauto|]. intros N [H|H].
  - injection H as -> ->. now rewrite Nat.eqb_refl.
  - inversion N; subst. destruct (k =? a) eqn:E; auto. apply Nat.eqb_eq in E. subst.
    exfalso. apply H2. apply in_map_iff. exists (a, v). auto.
Qed.
Lemma dget_key {B} k (d : list (nat * B)) : In k (map fst d) <-> dget k d <> None.
Proof.
  induction d as [|[a w] d IH]; simpl; [tauto|]. destruct (k =? a) eqn:E.
  - apply Nat.eqb_eq in E. subst. split; [discriminate|auto].
  - apply Nat.eqb_neq in E. rewrite IH. split; [intros [H|H]; [congruence|auto]|auto].
Qed.
Lemma dset_keys {B} k v (d : list (nat * B)) : NoDup (map fst d) -> NoDup (map fst (dset k v d)).
Proof.
  induction d as [|[a w] d IH]; simpl; intro N; [repeat constructor; auto|].
  inversion N; subst. destruct (k =? a) eqn:E; simpl; auto. constructor; auto.
  rewrite dget_key, dget_dset. rewrite Nat.eqb_sym, E. now rewrite <- dget_key.
Qed.
Lemma ddel_keys {B} k (d : list (nat * B)) : NoDup (map fst d) -> NoDup (map fst (ddel k d)).
Proof.
  induction d as [|[a w] d IH]; simpl; intro N; [constructor|].
  inversion N; subst. destruct (k =? a) eqn:E; simpl; auto. constructor; auto.
  rewrite dget_key, dget_ddel, Nat.eqb_sym, E. now rewrite <- dget_key.
Qed.
Lemma dset_length {B} k v (d : list (nat * B)) : dget k d <> None -> length (dset k v d) = length d.
Proof.
  induction d as [|[a w] d IH]; simpl; [tauto|]. destruct (k =? a); simpl; auto.
Qed.
Lemma ddel_length_le {B} k (d : list (nat * B)) : length (ddel k d) <= length d.
Proof.
  unfold ddel. induction d as [|[a w] d IH]; simpl; auto. destruct (k =? a); simpl; lia.
Qed.
Lemma ddel_length {B} k (d : list (nat * B)) :
  dget k d <> None -> S (length (ddel k d)) <= length d.
Proof.
  induction d as [|[a w] d IH]; simpl; [tauto|]. intro H.
  pose proof (ddel_length_le k d) as L. unfold ddel in *.
  destruct (k =? a); simpl; [lia|]. specialize (IH H). lia.
Qed.
Lemma nunion_In a b x : In x (nunion a b) <-> In x a \/ In x b.
Proof.
  unfold nunion. rewrite in_app_iff, filter_In. split; [tauto|].
  intros [H|H]; auto. destruct (existsb (Nat.eqb x) a) eqn:E; [|now right; rewrite ?E].
  apply existsb_exists in E. destruct E as (y & Hy & E). apply Nat.eqb_eq in E. subst. auto.
Qed.

(** *** The initial groups *)
Definition init_ok (sg : list (nat * list nat)) (P : nat -> nat -> Prop) : Prop :=
  NoDup (map fst sg) /\
  (forall c, dget c sg <> None <-> exists i, P i c) /\
  (forall c s, dget c sg = Some s -> forall i, In i s <-> P i c).

Lemma init_step sg P i c :
  init_ok sg P ->
  init_ok (dset c (nunion (match dget c sg with Some s => s | None => [] end) [i]) sg)
          (fun j d => P j d \/ (j = i /\ d = c)).
Proof.
  intros (N & D & C). split; [now apply dset_keys|]. split.
  - intro d. rewrite dget_dset. destruct (d =? c) eqn:E.
    + apply Nat.eqb_eq in E. subst. split; [|discriminate]. intros _. exists i. auto.
    + apply Nat.eqb_neq in E. rewrite D. split; intros (j & H).
      * exists j. auto.
      * exists j. destruct H as [H|[_ H]]; [auto|congruence].
  - intros d s. rewrite dget_dset. destruct (d =? c) eqn:E.
    + apply Nat.eqb_eq in E. subst. intro H. injection H as <-. intro j. rewrite nunion_In. simpl.
      destruct (dget c sg) as [s0|] eqn:G.
      * rewrite (C c s0 G j). split; [intros [H|[H|[]]]|intros [H|[H _]]]; auto.
      * split; [intros [[]|[H|[]]]; auto|]. intros [H|[H _]]; auto.
        exfalso. apply (proj2 (D c)); eauto.
    + apply Nat.eqb_neq in E. intros H j. rewrite (C d s H j). split; [auto|].
      intros [H0|[_ H0]]; [auto|congruence].
Qed.
Lemma init_ok_ext sg P Q : (forall i c, P i c <-> Q i c) -> init_ok sg P -> init_ok sg Q.
Proof.
  intros E (N & D & C). split; auto. split.
  - intro c. rewrite D. split; intros (i & H); exists i; now apply E.
  - intros c s H i. rewrite (C c s H i). apply E.
Qed.
Lemma init_centers i cs : forall sg P, init_ok sg P ->
  init_ok (fold_left (fun sg c => dset c (nunion (match dget c sg with Some s => s | None => [] end) [i]) sg) cs sg)
          (fun j d => P j d \/ (j = i /\ In d cs)).
Proof.
  induction cs as [|c cs IH]; intros sg P H; simpl.
  - eapply init_ok_ext; [|exact H]. intros; tauto.
  - eapply init_ok_ext; [|apply IH, init_step, H]. intros j d. cbv beta.
    split; [intros [[?|[? ?]]|[? ?]]|intros [?|[? [?|?]]]]; subst; auto.
Qed.
Lemma init_mods l : forall sg P, init_ok sg P ->
  init_ok (fold_left (fun sg (im : nat * modif) =>
      fold_left (fun sg c => dset c (nunion (match dget c sg with Some s => s | None => [] end) [fst im]) sg)
                (m_centers (snd im)) sg) l sg)
    (fun j d => P j d \/ exists m, In (j, m) l /\ In d (m_centers m)).
Proof.
  induction l as [|[i m] l IH]; intros sg P H; simpl.
  - eapply init_ok_ext; [|exact H]. intros j d. split; [auto|]. intros [?|(m & [] & _)]; auto.
  - eapply init_ok_ext; [|apply IH, init_centers, H]. intros j d. cbv beta. split.
    + intros [[?|[-> ?]]|(m' & ? & ?)]; auto; right; [exists m|exists m']; auto.
    + intros [?|(m' & [E|?] & ?)]; auto.
      * injection E as <- <-. auto.
      * right. exists m'. auto.
Qed.
Lemma combine_seq_In (ms : list modif) j m :
  In (j, m) (combine (seq 0 (length ms)) ms) <-> nth_error ms j = Some m.
Proof.
  assert (G : forall k, In (j, m) (combine (seq k (length ms)) ms) <-> k <= j /\ nth_error ms (j - k) = Some m).
  { induction ms as [|a l IH]; intro k; simpl.
    - split; [tauto|]. intros [_ H]. destruct (j - k); discriminate.
    - rewrite IH. split.
      + intros [H|[H1 H2]].
        * inversion H; subst. rewrite Nat.sub_diag. auto.
        * split; [lia|]. replace (j - k) with (S (j - S k)) by lia. auto.
      + intros [H1 H2]. destruct (j - k) as [|d] eqn:E; simpl in H2.
        * left. injection H2 as <-. f_equal. lia.
        * right. split; [lia|]. replace (j - S k) with d by lia. auto. }
  rewrite G, Nat.sub_0_r. split; [tauto|]. intro; split; [lia|auto].
Qed.
Lemma ds_init_ok ms : init_ok (ds_init ms) (is_center ms).
Proof.
  unfold ds_init. eapply init_ok_ext; [|apply init_mods with (P := fun _ _ => False)].
  - intros j d. unfold is_center. split.
    + intros [[]|(m & H & Hd)]. exists m. split; auto. now apply combine_seq_In.
    + intros (m & H & Hd). right. exists m. split; auto. now apply combine_seq_In.
  - split; [constructor|]. simpl. split.
    + intro c. split; [tauto|]. intros (i & []).
    + discriminate.
Qed.

(** *** Following the redirections *)
Inductive repr (sg : list (nat * list nat)) (cm : list (nat * nat)) : nat -> nat -> nat -> Prop :=
| repr_here c : dget c sg <> None -> repr sg cm c c 0
| repr_next c d k n : dget c sg = None -> dget c cm = Some d -> repr sg cm d k n -> repr sg cm c k (S n).

Lemma repr_det sg cm c k n : repr sg cm c k n -> forall k' n', repr sg cm c k' n' -> k = k'.
Proof.
  induction 1; intros k' n' H'; inversion H'; subst; try congruence; eauto.
  assert (d = d0) by congruence. subst. eauto.
Qed.
Lemma repr_key sg cm c k n : repr sg cm c k n -> dget k sg <> None.
Proof. induction 1; auto. Qed.
Lemma ds_redirect_repr sg cm c k n : repr sg cm c k n -> forall f, n < f -> ds_redirect f sg cm c = Some k.
Proof.
  induction 1; intros [|f] L; try lia; simpl.
  - destruct (dget c sg); congruence.
  - rewrite H, H0. apply IHrepr. lia.
Qed.
Lemma ds_main_repr sg cm c k n : repr sg cm c k n -> forall f, n < f -> ds_main f sg cm c = Some k.
Proof.
  induction 1; intros [|f] L; try lia; simpl.
  - destruct (dget c sg); congruence.
  - rewrite H, H0. apply IHrepr. lia.
Qed.

Section Div.
  Variable ms : list modif.
  Hypothesis inputs_centers : forall m, In m ms -> incl (m_inputs m) (m_centers m).
  Let K c := exists i, is_center ms i c.
  Let N := length (ds_init ms).

  Record Inv (sg : list (nat * list nat)) (cm : list (nat * nat)) : Prop := {
    i_nd : NoDup (map fst sg);
    i_tot : forall c, K c -> exists k n, repr sg cm c k n /\ n + length sg <= N;
    i_key : forall k, dget k sg <> None -> K k;
    i_sound : forall c k n, K c -> repr sg cm c k n -> connected ms c k;
    i_cont : forall k s, dget k sg = Some s ->
        forall i, In i s <-> exists c n, is_center ms i c /\ repr sg cm c k n }.

  Lemma Inv_init : Inv (ds_init ms) [].
  Proof.
    destruct (ds_init_ok ms) as (ND & D & C). constructor; auto.
    - intros c Hc. exists c, 0. split; [|unfold N; lia]. constructor. now apply D.
    - intros k Hk. now apply D.
    - intros c k n Hc H. inversion H; subst; [apply rst_refl|discriminate].
    - intros k s Hk i. rewrite (C k s Hk i). split.
      + intro Hi. exists k, 0. split; auto. constructor. congruence.
      + intros (c & n & Hi & H). inversion H; subst; [auto|discriminate].
  Qed.

  (** absorbing [r] into [main] redirects the centers of [r] and no other *)
  Lemma repr_absorb sg cm main r v c k n :
    dget main sg <> None -> dget r sg <> None -> r <> main -> repr sg cm c k n ->
    exists n', repr (ddel r (dset main v sg)) (dset r main cm) c (if k =? r then main else k) n' /\ n' <= S n.
  Proof.
    intros Hm Hr Hne. 
    assert (Hmain : dget main (ddel r (dset main v sg)) <> None).
    { rewrite dget_ddel, dget_dset, Nat.eqb_refl. destruct (main =? r) eqn:E; [|congruence].
      apply Nat.eqb_eq in E. congruence. }
    induction 1 as [c Hc|c d k n Hc Hd H IH].
    - destruct (c =? r) eqn:E.
      + apply Nat.eqb_eq in E. subst. exists 1. split; [|lia].
        apply repr_next with main; [now rewrite dget_ddel, Nat.eqb_refl|
          now rewrite dget_dset, Nat.eqb_refl|now constructor].
      + exists 0. split; [|lia]. constructor. rewrite dget_ddel, E, dget_dset.
        destruct (c =? main); congruence.
    - destruct IH as (n' & H' & L). exists (S n'). split; [|lia].
      assert (c <> r) by congruence. assert (c <> main) by congruence.
      apply Nat.eqb_neq in H0, H1.
      apply repr_next with d; auto.
      + now rewrite dget_ddel, H0, dget_dset, H1.
      + now rewrite dget_dset, H0.
  Qed.

  Lemma absorb_ok sg cm main r :
    Inv sg cm -> dget main sg <> None -> dget r sg <> None -> r <> main -> connected ms main r ->
    exists sg' cm', ds_absorb main r sg cm = Some (sg', cm') /\ Inv sg' cm' /\
      dget main sg' <> None /\
      (forall a b k n1 n2, repr sg cm a k n1 -> repr sg cm b k n2 ->
         exists k' m1 m2, repr sg' cm' a k' m1 /\ repr sg' cm' b k' m2) /\
      (forall a n, repr sg cm a r n -> exists n', repr sg' cm' a main n') /\
      (forall a n, repr sg cm a main n -> exists n', repr sg' cm' a main n').
  Proof.
    intros [ND T KK S C] Hm Hr Hne Hc. unfold ds_absorb.
    destruct (dget main sg) as [sm|] eqn:Em; [|congruence].
    destruct (dget r sg) as [sr|] eqn:Er; [|congruence].
    set (v := nunion sm sr). set (sg' := ddel r (dset main v sg)). set (cm' := dset r main cm).
    assert (RA : forall c k n, repr sg cm c k n ->
      exists n', repr sg' cm' c (if k =? r then main else k) n' /\ n' <= Datatypes.S n).
    { intros c k n H. apply repr_absorb; auto; congruence. }
    assert (Km : K main) by (apply KK; congruence).
    assert (Back : forall c k n, K c -> repr sg' cm' c k n ->
       exists k0 n0, repr sg cm c k0 n0 /\ k = if k0 =? r then main else k0).
    { intros c k n Hk H. destruct (T c Hk) as (k0 & n0 & H0 & _).
      exists k0, n0. split; auto. destruct (RA _ _ _ H0) as (n' & H' & _).
      eapply repr_det; eauto. }
    assert (Emr : (main =? r) = false) by (apply Nat.eqb_neq; congruence).
    exists sg', cm'. split; [reflexivity|]. split; [constructor|split; [|split; [|split]]].
    - apply ddel_keys, dset_keys, ND.
    - intros c Hk. destruct (T c Hk) as (k0 & n0 & H0 & L). destruct (RA _ _ _ H0) as (n' & H' & L').
      eexists _, n'. split; [exact H'|].
      assert (G : Datatypes.S (length sg') <= length (dset main v sg)).
      { apply ddel_length. rewrite dget_dset, Nat.eqb_sym, Emr. congruence. }
      rewrite dset_length in G by congruence. lia.
    - intros k Hk. unfold sg' in Hk. rewrite dget_ddel, dget_dset in Hk.
      destruct (k =? r); [congruence|]. destruct (k =? main) eqn:E; [|now apply KK].
      apply Nat.eqb_eq in E. now subst.
    - intros c k n Hk H. destruct (Back _ _ _ Hk H) as (k0 & n0 & H0 & ->).
      pose proof (S _ _ _ Hk H0) as Q. destruct (k0 =? r) eqn:E; auto.
      apply Nat.eqb_eq in E. subst. eapply rst_trans; [exact Q|apply rst_sym, Hc].
    - intros k s Hk i. unfold sg' in Hk. rewrite dget_ddel, dget_dset in Hk.
      destruct (k =? r) eqn:E1; [discriminate|]. destruct (k =? main) eqn:E2.
      + apply Nat.eqb_eq in E2. subst. injection Hk as <-. unfold v. rewrite nunion_In.
        rewrite (C main sm Em i), (C r sr Er i). split.
        * intros [(c & n & Hi & H)|(c & n & Hi & H)]; destruct (RA _ _ _ H) as (n' & H' & _);
            exists c, n'; split; auto.
          -- now rewrite Emr in H'.
          -- now rewrite Nat.eqb_refl in H'.
        * intros (c & n & Hi & H). assert (Kc : K c) by (exists i; auto).
          destruct (Back _ _ _ Kc H) as (k0 & n0 & H0 & E). destruct (k0 =? r) eqn:E3.
          -- apply Nat.eqb_eq in E3. subst. right. eauto.
          -- subst. left. eauto.
      + rewrite (C k s Hk i). split.
        * intros (c & n & Hi & H). destruct (RA _ _ _ H) as (n' & H' & _). rewrite E1 in H'. eauto.
        * intros (c & n & Hi & H). assert (Kc : K c) by (exists i; auto).
          destruct (Back _ _ _ Kc H) as (k0 & n0 & H0 & E). destruct (k0 =? r) eqn:E3.
          -- subst. rewrite Nat.eqb_refl in E2. discriminate.
          -- subst. eauto.
    - unfold sg'. rewrite dget_ddel, dget_dset, Nat.eqb_refl. rewrite Emr. discriminate.
    - intros a b k n1 n2 H1 H2. destruct (RA _ _ _ H1) as (m1 & M1 & _).
      destruct (RA _ _ _ H2) as (m2 & M2 & _). eauto 6.
    - intros a n H. destruct (RA _ _ _ H) as (m & M & _). rewrite Nat.eqb_refl in M. eauto.
    - intros a n H. destruct (RA _ _ _ H) as (m & M & _). rewrite Emr in M. eauto.
  Qed.

  Definition joined sg cm a b := exists k n1 n2, repr sg cm a k n1 /\ repr sg cm b k n2.

  Lemma joined_trans sg cm a b c : joined sg cm a b -> joined sg cm b c -> joined sg cm a c.
  Proof.
    intros (k & n1 & n2 & H1 & H2) (k' & n3 & n4 & H3 & H4).
    assert (k = k') by (eapply repr_det; eauto). subst. exists k', n1, n4. auto.
  Qed.
  Lemma joined_sym sg cm a b : joined sg cm a b -> joined sg cm b a.
  Proof. intros (k & n1 & n2 & H1 & H2). exists k, n2, n1. auto. Qed.

  Lemma K_nonempty c sg cm : Inv sg cm -> K c -> 0 < length sg.
  Proof.
    intros I Hc. destruct (i_tot _ _ I c Hc) as (k & n & H & _). apply repr_key in H.
    destruct sg; simpl in *; [congruence|lia].
  Qed.

  Lemma ds_red_ok sg cm main r : 
    Inv sg cm -> dget main sg <> None -> K r -> connected ms main r ->
    exists sg' cm', ds_red (S N) main (Some (sg, cm)) r = Some (sg', cm') /\ Inv sg' cm' /\
      dget main sg' <> None /\
      (forall a b, joined sg cm a b -> joined sg' cm' a b) /\ joined sg' cm' main r.
  Proof.
    intros I Hm Hr Hc. unfold ds_red. destruct (r =? main) eqn:E.
    - apply Nat.eqb_eq in E. subst. exists sg, cm. split; auto. split; auto. split; auto. split; auto.
      exists main, 0, 0. split; constructor; auto.
    - apply Nat.eqb_neq in E. destruct (dget r sg) as [sr|] eqn:G.
      + destruct (absorb_ok sg cm main r) as (sg' & cm' & A & I' & M & J & R & R'); auto; [congruence|].
        exists sg', cm'. split; auto. split; auto. split; auto. split.
        * intros a b (k & n1 & n2 & H1 & H2). destruct (J _ _ _ _ _ H1 H2) as (k' & m1 & m2 & ? & ?).
          exists k', m1, m2. auto.
        * destruct (R r 0) as (n' & H'); [constructor; congruence|].
          exists main, 0, n'. split; auto. constructor; auto.
      + destruct (i_tot _ _ I r Hr) as (d & n & Hd & L).
        rewrite (ds_redirect_repr _ _ _ _ _ Hd) by lia.
        destruct (d =? main) eqn:E2.
        * apply Nat.eqb_eq in E2. subst. exists sg, cm. split; auto. split; auto. split; auto. split; auto.
          exists main, 0, n. split; auto. constructor; auto.
        * apply Nat.eqb_neq in E2.
          destruct (absorb_ok sg cm main d) as (sg' & cm' & A & I' & M & J & R & R'); auto.
          { eapply repr_key; eauto. }
          { eapply rst_trans; [exact Hc|]. eapply i_sound; eauto. }
          exists sg', cm'. split; auto. split; auto. split; auto. split.
          -- intros a b (k & n1 & n2 & H1 & H2). destruct (J _ _ _ _ _ H1 H2) as (k' & m1 & m2 & ? & ?).
             exists k', m1, m2. auto.
          -- destruct (R r n Hd) as (n' & H'). exists main, 0, n'. split; auto. constructor; auto.
  Qed.

  Lemma ds_reds_ok main rest : forall sg cm,
    Inv sg cm -> dget main sg <> None -> (forall r, In r rest -> K r /\ connected ms main r) ->
    exists sg' cm', fold_left (ds_red (S N) main) rest (Some (sg, cm)) = Some (sg', cm') /\ Inv sg' cm' /\
      (forall a b, joined sg cm a b -> joined sg' cm' a b) /\
      (forall r, In r rest -> joined sg' cm' main r).
  Proof.
    induction rest as [|r rest IH]; intros sg cm I Hm H; cbn [fold_left].
    - exists sg, cm. split; auto. split; auto. split; auto. intros r [].
    - destruct (H r (or_introl eq_refl)) as (Kr & Cr).
      destruct (ds_red_ok sg cm main r I Hm Kr Cr) as (sg1 & cm1 & E & I1 & M1 & J1 & R1). rewrite E.
      destruct (IH sg1 cm1 I1 M1) as (sg2 & cm2 & E2 & I2 & J2 & R2); [intros; apply H; now right|].
      exists sg2, cm2. split; auto. split; auto. split; auto.
      intros r' [<-|Hr']; auto.
  Qed.

  Lemma ds_mod_ok m sg cm : In m ms -> Inv sg cm ->
    exists sg' cm', ds_mod (S N) (Some (sg, cm)) m = Some (sg', cm') /\ Inv sg' cm' /\
      (forall a b, joined sg cm a b -> joined sg' cm' a b) /\
      (forall a b, In a (m_inputs m) -> In b (m_inputs m) -> joined sg' cm' a b).
  Proof.
    intros Hm I. unfold ds_mod.
    assert (KI : forall a, In a (m_inputs m) -> K a).
    { intros a Ha. destruct (In_nth_error _ _ Hm) as (i & Hi). exists i, m. split; auto.
      now apply inputs_centers. }
    assert (Self : forall sg cm a, Inv sg cm -> K a -> joined sg cm a a).
    { intros sg0 cm0 a I0 Ka. destruct (i_tot _ _ I0 a Ka) as (k & n & H & _). exists k, n, n. auto. }
    assert (SS : forall x, In x (sorted_set (m_inputs m)) <-> In x (m_inputs m)).
    { intro x. apply sorted_set_In. }
    destruct (sorted_set (m_inputs m)) as [|c0 [|c1 rest]] eqn:E.
    - exists sg, cm. split; auto. split; auto. split; auto. intros a b Ha. apply SS in Ha. destruct Ha.
    - exists sg, cm. split; auto. split; auto. split; auto. intros a b Ha Hb.
      assert (Ka : K a) by auto. apply SS in Ha, Hb.
      destruct Ha as [<-|[]], Hb as [<-|[]]. auto.
    - assert (H0 : In c0 (m_inputs m)) by (apply SS; now left).
      destruct (i_tot _ _ I c0 (KI _ H0)) as (k & n & Hk & L).
      rewrite (ds_main_repr _ _ _ _ _ Hk) by lia.
      assert (Ck : connected ms c0 k) by (eapply i_sound; eauto).
      destruct (ds_reds_ok k (c1 :: rest) sg cm I (repr_key _ _ _ _ _ Hk)) as (sg' & cm' & F & I' & J & R).
      { intros r Hr. assert (Hr' : In r (m_inputs m)) by (apply SS; now right). split; auto.
        eapply rst_trans; [apply rst_sym, Ck|]. apply rst_step. exists m. auto. }
      exists sg', cm'. split; auto. split; auto. split; auto.
      assert (All : forall a, In a (m_inputs m) -> joined sg' cm' k a).
      { intros a Ha. apply SS in Ha. destruct Ha as [<-|Ha]; [|now apply R].
        apply J. exists k, 0, n. split; auto. constructor. eapply repr_key; eauto. }
      intros a b Ha Hb. apply joined_trans with k; [apply joined_sym|]; auto.
  Qed.

  Lemma ds_mods_ok l : forall sg cm, incl l ms -> Inv sg cm ->
    exists sg' cm', fold_left (ds_mod (S N)) l (Some (sg, cm)) = Some (sg', cm') /\ Inv sg' cm' /\
      (forall a b, joined sg cm a b -> joined sg' cm' a b) /\
      (forall m a b, In m l -> In a (m_inputs m) -> In b (m_inputs m) -> joined sg' cm' a b).
  Proof.
    induction l as [|m l IH]; intros sg cm HI I; cbn [fold_left].
    - exists sg, cm. split; auto. split; auto. split; auto. intros m a b [].
    - destruct (ds_mod_ok m sg cm) as (sg1 & cm1 & E & I1 & J1 & R1); [apply HI; now left|auto|].
      rewrite E. destruct (IH sg1 cm1) as (sg2 & cm2 & E2 & I2 & J2 & R2); auto.
      { intros x Hx. apply HI. now right. }
      exists sg2, cm2. split; auto. split; auto. split; auto.
      intros m' a b [<-|Hm'] Ha Hb; eauto.
  Qed.

  Lemma divide_subgraph_correct :
    exists out, divide_subgraph ms = Some out /\ NoDup (map fst out) /\
      (forall c, K c -> exists k, In k (map fst out) /\ connected ms c k /\
                        forall k', In k' (map fst out) -> connected ms c k' -> k' = k) /\
      (forall k s, In (k, s) out ->
         forall i, In i s <-> exists c, is_center ms i c /\ connected ms c k).
  Proof.
    destruct (ds_mods_ok ms (ds_init ms) [] (incl_refl _) Inv_init) as (sg & cm & E & I & _ & R).
    exists sg. unfold divide_subgraph. fold N. rewrite E. split; auto. split; [apply (i_nd _ _ I)|].
    assert (Kin : forall m a, In m ms -> In a (m_inputs m) -> K a).
    { intros m a Hm Ha. destruct (In_nth_error _ _ Hm) as (i & Hi). exists i, m. split; auto.
      now apply inputs_centers. }
    assert (J : forall a b, connected ms a b -> K a \/ K b -> joined sg cm a b).
    { assert (JK : forall a b, connected ms a b -> a = b \/ (K a /\ K b /\ joined sg cm a b)).
      { induction 1 as [a b (m & Hm & Ha & Hb)| |a b _ IH|a b c _ IH1 _ IH2].
        - right. split; [|split]; eauto.
        - auto.
        - destruct IH as [->|(A & B & J)]; auto. right. split; auto. split; auto. now apply joined_sym.
        - destruct IH1 as [->|(A & B & J)]; auto. destruct IH2 as [->|(B' & C & J')]; auto.
          right. split; auto. split; auto. eapply joined_trans; eauto. }
      intros a b H Hk. destruct (JK a b H) as [->|(_ & _ & ?)]; auto.
      assert (Kb : K b) by tauto. destruct (i_tot _ _ I b Kb) as (k & n & Hr & _). exists k, n, n. auto. }
    assert (KJ : forall k c, dget k sg <> None -> joined sg cm c k -> exists n, repr sg cm c k n).
    { intros k c Hk (k' & n1 & n2 & H1 & H2).
      assert (k' = k) by (eapply repr_det; [exact H2|now constructor]). subst. eauto. }
    split.
    - intros c Hc. destruct (i_tot _ _ I c Hc) as (k & n & Hr & _). exists k.
      split; [apply dget_key; eapply repr_key; eauto|]. split; [eapply i_sound; eauto|].
      intros k' Hk' Hc'. apply dget_key in Hk'. destruct (KJ k' c Hk') as (n' & H'); [apply J; auto|].
      eapply repr_det; eauto.
    - intros k s Hk i. apply In_dget in Hk; [|apply (i_nd _ _ I)]. rewrite (i_cont _ _ I k s Hk i). split.
      + intros (c & n & Hi & H). exists c. split; auto. eapply i_sound; eauto. exists i; auto.
      + intros (c & Hi & H). assert (Kc : K c) by (exists i; auto).
        destruct (KJ k c) as (n & Hn); [congruence|apply J; auto|]. eauto.
  Qed.
End Div.
