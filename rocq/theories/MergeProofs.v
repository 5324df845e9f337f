(** Proofs about [merge_constraint]. *)
From Coq Require Import List Arith Bool ZArith Lia Relations.
From Verif Require Import PruneModel.
Import ListNotations.
Local Open Scope nat_scope.

(** Specification: values linked by a chain of overlapping sets. *)
Definition share (cs : list pset) (x y : Z) : Prop :=
  exists s, In s cs /\ In x s /\ In y s.
Definition linked (cs : list pset) : Z -> Z -> Prop := clos_refl_trans Z (share cs).

Lemma mem_In x s : mem x s = true <-> In x s.
Proof.
  unfold mem. rewrite existsb_exists. split.
  - intros [y [H E]]. apply Z.eqb_eq in E. now subst.
  - intro H. exists x. split; auto. apply Z.eqb_refl.
Qed.
Lemma mem_notIn x s : mem x s = false <-> ~ In x s.
Proof. rewrite <- mem_In. destruct (mem x s); split; congruence. Qed.
Lemma union_In x a b : In x (union a b) <-> In x a \/ In x b.
Proof.
  unfold union. rewrite in_app_iff, filter_In. split.
  - intuition.
  - intros [H|H]; auto. destruct (mem x a) eqn:E.
    + left. now apply mem_In.
    + right. split; auto.
Qed.

Lemma lset_length {A} i (v : A) l : length (lset i v l) = length l.
Proof. revert i. induction l; intros [|i]; simpl; auto. Qed.
Lemma lset_nth {A} i (v : A) l k d :
  i < length l -> nth k (lset i v l) d = if k =? i then v else nth k l d.
Proof.
  revert i k. induction l; intros i k H; simpl in *; [lia|].
  destruct i, k; simpl; auto. apply IHl. lia.
Qed.

Lemma fold_lset_length js (t : nat) re :
  length (fold_left (fun re j => lset j t re) js re) = length re.
Proof. revert re. induction js; simpl; intros; auto. now rewrite IHjs, lset_length. Qed.
Lemma fold_lset_nth js t re k :
  Forall (fun j => j < length re) js ->
  nth k (fold_left (fun re j => lset j t re) js re) 0 =
  if existsb (Nat.eqb k) js then t else nth k re 0.
Proof.
  revert re. induction js as [|j js IH]; simpl; intros re H; auto.
  inversion H; subst. rewrite IH by (rewrite lset_length; auto).
  rewrite lset_nth by auto. destruct (k =? j) eqn:E; simpl.
  - now destruct (existsb _ js).
  - reflexivity.
Qed.

Lemma ins_In x y l : In x (ins y l) <-> x = y \/ In x l.
Proof.
  induction l as [|z l IH]; simpl; [intuition|].
  destruct (y <=? z); simpl; rewrite ?IH; intuition.
Qed.
Lemma ins_NoDup y l : ~ In y l -> NoDup l -> NoDup (ins y l).
Proof.
  induction l as [|z l IH]; simpl; intros N D.
  - constructor; auto; constructor.
  - destruct (y <=? z). { constructor; auto. }
    inversion D; subst. constructor.
    + rewrite ins_In. intros [->|H]; intuition.
    + apply IH; intuition.
Qed.
Lemma foldins_In x l : In x (fold_right ins [] l) <-> In x l.
Proof. induction l; simpl; [tauto|]. rewrite ins_In, IHl. intuition. Qed.
Lemma foldins_NoDup l : NoDup l -> NoDup (fold_right ins [] l).
Proof.
  induction 1; simpl; constructor || apply ins_NoDup; auto.
  now rewrite foldins_In.
Qed.
Lemma sorted_set_In x l : In x (sorted_set l) <-> In x l.
Proof. unfold sorted_set. now rewrite foldins_In, nodup_In. Qed.
Lemma sorted_set_NoDup l : NoDup (sorted_set l).
Proof. apply foldins_NoDup, NoDup_nodup. Qed.

(** *** The value map *)
Lemma vm_add_In v i m w l :
  NoDup (map fst m) ->
  (In (w, l) (vm_add v i m) <->
   (w <> v /\ In (w, l) m) \/
   (w = v /\ ((exists l', In (v, l') m /\ l = l' ++ [i]) \/ (~ In v (map fst m) /\ l = [i])))).
Proof.
  induction m as [|[u k] m IH]; simpl; intro D.
  - split.
    + intros [H|[]]. inversion H; subst. right. split; auto.
    + intros [[_ []]|[-> [(l' & [] & _)|[_ ->]]]]. now left.
  - inversion D as [|? ? Hn D']; subst. destruct (Z.eqb_spec v u) as [->|N]; simpl.
    + split.
      * intros [H|H].
        -- inversion H; subst. right. split; auto. left. exists k. auto.
        -- left. split; [|auto]. intros ->. apply Hn. now apply (in_map fst) in H.
      * intros [[Hw [H|H]]|[-> [(l' & [H|H] & ->)|[Hn' _]]]].
        -- inversion H; congruence.
        -- auto.
        -- inversion H; subst; auto.
        -- exfalso. apply Hn. now apply (in_map fst) in H.
        -- tauto.
    + rewrite (IH D'). split.
      * intros [H|[[Hw H]|[-> [(l' & H & ->)|[Hv ->]]]]].
        -- inversion H; subst. left. split; auto.
        -- left; auto.
        -- right. split; auto. left. exists l'. auto.
        -- right. split; auto. right. split; auto. intros [E|E]; [congruence|auto].
      * intros [[Hw [H|H]]|[-> [(l' & [H|H] & ->)|[Hv ->]]]].
        -- auto.
        -- right. left. auto.
        -- inversion H; congruence.
        -- right. right. split; auto. left; eauto.
        -- right. right. split; auto. right. split; auto.
Qed.
Lemma vm_add_keys v i m :
  NoDup (map fst m) -> NoDup (map fst (vm_add v i m)) /\
  (forall w, In w (map fst (vm_add v i m)) <-> w = v \/ In w (map fst m)).
Proof.
  induction m as [|[u k] m IH]; simpl; intro D.
  - split. { constructor; auto; constructor. } intuition.
  - inversion D; subst. destruct (Z.eqb_spec v u) as [->|N]; simpl.
    + split; auto. intuition.
    + destruct (IH H2) as [D1 K1]. split.
      * constructor; auto. rewrite K1. intuition.
      * intro w. rewrite K1. intuition.
Qed.

(** [vm_ok cs m]: every value of [cs] has an entry, and entries list exactly
    the sets that contain the value. *)
Definition vm_ok (occ : Z -> nat -> Prop) (m : list (Z * list nat)) : Prop :=
  NoDup (map fst m) /\
  (forall w, In w (map fst m) <-> exists i, occ w i) /\
  (forall w l, In (w, l) m -> forall i, In i l <-> occ w i).

Lemma vm_add_ok occ m v i :
  vm_ok occ m -> vm_ok (fun w j => occ w j \/ (w = v /\ j = i)) (vm_add v i m).
Proof.
  intros (D & K & L). destruct (vm_add_keys v i m D) as [D1 K1]. split; [auto|split].
  - intro w. rewrite K1, K. split.
    + intros [->|[j H]]; eauto.
    + intros [j [H|[-> ->]]]; eauto.
  - intros w l H j. apply (vm_add_In v i m w l D) in H.
    destruct H as [[Hw H]|[-> [(l' & H & ->)|[Hn ->]]]].
    + rewrite (L _ _ H). intuition.
    + rewrite in_app_iff, (L _ _ H). simpl. intuition.
    + simpl. rewrite K in Hn. split.
      * intros [<-|[]]; auto.
      * intros [H|[_ ->]]; auto. exfalso. eauto.
Qed.
Lemma vm_ok_ext occ occ' m :
  (forall w i, occ w i <-> occ' w i) -> vm_ok occ m -> vm_ok occ' m.
Proof.
  intros E (D & K & L). split; [auto|split].
  - intro w. rewrite K. split; intros [i H]; exists i; now apply E.
  - intros w l H i. rewrite (L _ _ H i). apply E.
Qed.
Lemma vm_adds_ok i s occ m :
  vm_ok occ m ->
  vm_ok (fun w j => occ w j \/ (In w s /\ j = i)) (fold_left (fun m v => vm_add v i m) s m).
Proof.
  revert occ m. induction s as [|v s IH]; simpl; intros occ m H.
  - eapply vm_ok_ext; [|exact H]. intuition.
  - eapply vm_ok_ext; [|apply IH, vm_add_ok, H]. simpl. intuition.
Qed.
Lemma build_map_ok_gen cs k occ m :
  vm_ok occ m ->
  vm_ok (fun w j => occ w j \/ exists d, d < length cs /\ j = k + d /\ In w (nth d cs []))
    (fold_left (fun m p => fold_left (fun m v => vm_add v (fst p) m) (snd p) m)
       (combine (seq k (length cs)) cs) m).
Proof.
  revert k occ m. induction cs as [|s cs IH]; simpl; intros k occ m H.
  - eapply vm_ok_ext; [|exact H]. intros. split; auto. intros [?|(d & ? & _)]; [auto|lia].
  - eapply vm_ok_ext; [|apply IH, vm_adds_ok, H]. simpl. intros w j. split.
    + intros [[Ho|[Hs ->]]|(d & Hd & -> & Hw)]; auto.
      * right. exists 0. repeat split; auto; lia.
      * right. exists (S d). repeat split; auto; lia.
    + intros [Ho|(d & Hd & Ej & Hw)]; auto. destruct d as [|d].
      * left. right. split; auto; lia.
      * right. exists d. repeat split; auto; lia.
Qed.
Lemma nth_out_nil (cs : list pset) d w : In w (nth d cs []) -> d < length cs.
Proof.
  intro H. destruct (le_lt_dec (length cs) d); auto.
  rewrite nth_overflow in H by auto. destruct H.
Qed.
Lemma build_map_ok cs : vm_ok (fun w j => In w (nth j cs [])) (build_map cs).
Proof.
  unfold build_map. eapply vm_ok_ext.
  2:{ apply build_map_ok_gen with (occ := fun _ _ => False).
      split; [constructor|split].
      - intro w. split; [intros []|intros [i []]].
      - intros w l []. }
  intros w j. simpl. split.
  - intros [[]|(d & _ & -> & H)]; auto.
  - intro H. right. exists j. split; auto. eapply nth_out_nil; eauto.
Qed.

(** *** The merging loop *)
Section Loop.
  Variable cs0 : list pset.
  Let n := length cs0.

  Definition ilink (i j : nat) : Prop := exists x, In x (nth i cs0 []) /\ In x (nth j cs0 []).
  Definition conn : nat -> nat -> Prop := clos_refl_trans nat ilink.
  Lemma ilink_sym i j : ilink i j -> ilink j i.
  Proof. intros [x [H1 H2]]; exists x; auto. Qed.
  Lemma conn_sym i j : conn i j -> conn j i.
  Proof.
    induction 1; [apply rt_step; now apply ilink_sym|apply rt_refl|eapply rt_trans; eauto].
  Qed.

  Definition inv (st : mcst) : Prop :=
    length (mc_c st) = n /\ length (mc_re st) = n /\ length (mc_ho st) = n /\
    (forall i, i < n -> nth i (mc_re st) 0 < n) /\
    (forall i, i < n -> nth (nth i (mc_re st) 0) (mc_re st) 0 = nth i (mc_re st) 0) /\
    (forall r j, r < n -> (In j (nth r (mc_ho st) []) <-> j < n /\ nth j (mc_re st) 0 = r)) /\
    (forall r, r < n -> nth r (mc_re st) 0 = r -> forall x,
        In x (nth r (mc_c st) []) <-> exists j, j < n /\ nth j (mc_re st) 0 = r /\ In x (nth j cs0 [])) /\
    (forall i, i < n -> conn i (nth i (mc_re st) 0)).

  Definition coarser (st st' : mcst) : Prop :=
    forall i j, i < n -> j < n -> nth i (mc_re st) 0 = nth j (mc_re st) 0 ->
                nth i (mc_re st') 0 = nth j (mc_re st') 0.
  Lemma coarser_refl st : coarser st st. Proof. red; auto. Qed.
  Lemma coarser_trans a b c : coarser a b -> coarser b c -> coarser a c.
  Proof. unfold coarser; auto. Qed.

  Lemma inv_init : inv (mkMC cs0 (seq 0 n) (map (fun i => [i]) (seq 0 n))).
  Proof.
    unfold inv; simpl. rewrite map_length, seq_length.
    assert (S0 : forall i, i < n -> nth i (seq 0 n) 0 = i) by (intros; now rewrite seq_nth).
    repeat split; auto.
    - intros i H. now rewrite S0.
    - intros i H. rewrite (S0 i H). auto.
    - rewrite nth_indep with (d' := (fun i => [i]) 0) in H0 by (rewrite map_length, seq_length; auto).
      rewrite (map_nth (fun i => [i])), S0 in H0 by auto. destruct H0 as [<-|[]]; auto.
    - rewrite nth_indep with (d' := (fun i => [i]) 0) in H0 by (rewrite map_length, seq_length; auto).
      rewrite (map_nth (fun i => [i])), S0 in H0 by auto. destruct H0 as [<-|[]]; auto.
    - intros [Hj E]. rewrite S0 in E by auto. subst.
      rewrite nth_indep with (d' := (fun i => [i]) 0) by (rewrite map_length, seq_length; auto).
      rewrite (map_nth (fun i => [i])), S0 by auto. now left.
    - intro H1. exists r. auto.
    - intros (j & Hj & E & Hx). rewrite S0 in E by auto. now subst.
    - intros i H. rewrite S0 by auto. apply rt_refl.
  Qed.

  Lemma step_inv st target i :
    inv st -> i < n -> target < n -> nth target (mc_re st) 0 = target ->
    conn target (nth i (mc_re st) 0) ->
    let st' := mc_step target st i in
    inv st' /\ coarser st st' /\ nth target (mc_re st') 0 = target /\ nth i (mc_re st') 0 = target.
  Proof.
    intros I Hi Ht Et Hc. unfold mc_step.
    destruct (Nat.eqb_spec (nth i (mc_re st) 0) target) as [E|N]; simpl.
    { split; [exact I|split; [apply coarser_refl|auto]]. }
    destruct I as (L1 & L2 & L3 & B & P & H & C & K).
    set (src := nth i (mc_re st) 0) in *.
    assert (Hs : src < n) by (apply B; auto).
    assert (Es : nth src (mc_re st) 0 = src) by (apply P; auto).
    set (js := nth src (mc_ho st) []).
    assert (FJ : Forall (fun j => j < length (mc_re st)) js).
    { apply Forall_forall. intros j Hj. rewrite L2. now apply (H src j Hs). }
    assert (RE : forall k, k < n -> nth k (fold_left (fun re j => lset j target re) js (mc_re st)) 0 =
                 if nth k (mc_re st) 0 =? src then target else nth k (mc_re st) 0).
    { intros k Hk. rewrite fold_lset_nth by auto.
      destruct (Nat.eqb_spec (nth k (mc_re st) 0) src) as [E|E].
      - replace (existsb (Nat.eqb k) js) with true; auto. symmetry. apply existsb_exists.
        exists k. split; [|apply Nat.eqb_refl]. apply H; auto.
      - replace (existsb (Nat.eqb k) js) with false; auto. symmetry.
        apply Bool.not_true_is_false. intro X. apply existsb_exists in X.
        destruct X as [j [Hj Ej]]. apply Nat.eqb_eq in Ej. subst j.
        apply (H src k Hs) in Hj. tauto. }
    assert (Rt : nth target (fold_left (fun re j => lset j target re) js (mc_re st)) 0 = target).
    { rewrite RE by auto. rewrite Et. destruct (target =? src); auto. }
    split; [|split; [|split]]; auto.
    - unfold inv; simpl. rewrite !lset_length, fold_lset_length. repeat split; auto.
      + intros k Hk. rewrite RE by auto. destruct (_ =? _); auto.
      + intros k Hk. rewrite (RE k) by auto.
        destruct (Nat.eqb_spec (nth k (mc_re st) 0) src) as [E|E]; auto.
        rewrite RE by auto. rewrite P by auto.
        destruct (Nat.eqb_spec (nth k (mc_re st) 0) src); congruence.
      + rename H0 into Hr, H1 into HI. rewrite !lset_nth in HI by (rewrite ?lset_length; congruence || lia).
        destruct (Nat.eqb_spec r src) as [->|Nr]; [destruct HI|].
        destruct (Nat.eqb_spec r target) as [->|Nt].
        * apply in_app_iff in HI. destruct HI as [HI|HI]; [apply (H target j Ht) in HI|apply (H src j Hs) in HI]; tauto.
        * apply (H r j Hr) in HI; tauto.
      + rename H0 into Hr, H1 into HI. rewrite !lset_nth in HI by (rewrite ?lset_length; congruence || lia).
        destruct (Nat.eqb_spec r src) as [->|Nr]; [destruct HI|].
        destruct (Nat.eqb_spec r target) as [->|Nt].
        * apply in_app_iff in HI. destruct HI as [HI|HI].
          -- apply (H target j Ht) in HI. destruct HI as [Hj Ej]. rewrite RE, Ej by auto.
             now destruct (target =? src).
          -- apply (H src j Hs) in HI. destruct HI as [Hj Ej]. rewrite RE, Ej by auto.
             now rewrite Nat.eqb_refl.
        * apply (H r j Hr) in HI. destruct HI as [Hj Ej]. rewrite RE, Ej by auto.
          apply Nat.eqb_neq in Nr. now rewrite Nr.
      + intros [Hj Ej]. rename H0 into Hr. rewrite RE in Ej by auto.
        rewrite !lset_nth by (rewrite ?lset_length; congruence || lia).
        destruct (Nat.eqb_spec (nth j (mc_re st) 0) src) as [E|E].
        * subst r. destruct (Nat.eqb_spec target src); [congruence|].
          rewrite Nat.eqb_refl. apply in_app_iff. right. apply H; auto.
        * destruct (Nat.eqb_spec r src); [congruence|].
          destruct (Nat.eqb_spec r target) as [->|].
          -- apply in_app_iff. left. apply H; auto.
          -- apply H; auto.
      + rename H0 into Hr, H1 into Er. intro HI. rewrite RE in Er by auto.
        rewrite lset_nth in HI by congruence.
        destruct (Nat.eqb_spec (nth r (mc_re st) 0) src) as [E|E].
        { subst r. congruence. }
        destruct (Nat.eqb_spec r target) as [->|Nt].
        * apply union_In in HI. destruct HI as [HI|HI].
          -- apply (C target) in HI; auto. destruct HI as (j & Hj & Ej & Hx). exists j. repeat split; auto.
             rewrite RE, Ej by auto. now destruct (target =? src).
          -- apply (C src) in HI; auto. destruct HI as (j & Hj & Ej & Hx). exists j. repeat split; auto.
             rewrite RE, Ej by auto. now rewrite Nat.eqb_refl.
        * apply (C r) in HI; auto. destruct HI as (j & Hj & Ej & Hx). exists j. repeat split; auto.
          rewrite RE, Ej by auto. destruct (Nat.eqb_spec r src); congruence.
      + rename H0 into Hr, H1 into Er. intros (j & Hj & Ej & Hx). rewrite RE in Er, Ej by auto.
        rewrite lset_nth by congruence.
        destruct (Nat.eqb_spec (nth r (mc_re st) 0) src) as [E|E].
        { subst r. congruence. }
        destruct (Nat.eqb_spec (nth j (mc_re st) 0) src) as [E'|E'].
        * rewrite <- Ej. rewrite Nat.eqb_refl. apply union_In. right. apply (C src); auto. eauto.
        * destruct (Nat.eqb_spec r target) as [->|].
          -- apply union_In. left. apply (C target); auto. eauto.
          -- apply (C r); auto. eauto.
      + intros k Hk. rewrite RE by auto.
        destruct (Nat.eqb_spec (nth k (mc_re st) 0) src) as [E|E]; [|now apply K].
        eapply rt_trans; [apply K; auto|]. rewrite E. now apply conn_sym.
    - intros a b Ha Hb E. simpl. rewrite !RE by auto. now rewrite E.
    - simpl. rewrite RE by auto. fold src. now rewrite Nat.eqb_refl.
  Qed.

  Lemma steps_inv idxs st target :
    inv st -> Forall (fun i => i < n) idxs -> target < n -> nth target (mc_re st) 0 = target ->
    Forall (fun i => conn target i) idxs ->
    let st' := fold_left (mc_step target) idxs st in
    inv st' /\ coarser st st' /\ nth target (mc_re st') 0 = target /\
    (forall i, In i idxs -> nth i (mc_re st') 0 = target).
  Proof.
    revert st. induction idxs as [|i idxs IH]; simpl; intros st I F Ht Et Fc.
    - split; [exact I|split; [apply coarser_refl|split; [auto|intros i []]]].
    - inversion F; subst. inversion Fc; subst.
      destruct (step_inv st target i) as (I1 & C1 & T1 & E1); auto.
      { eapply rt_trans; [eassumption|]. apply I; auto. }
      destruct (IH (mc_step target st i)) as (I2 & C2 & T2 & E2); auto.
      split; [auto|split; [eapply coarser_trans; eauto|split; [auto|]]].
      intros k [<-|Hk]; auto.
      transitivity (nth target (mc_re (fold_left (mc_step target) idxs (mc_step target st i))) 0); auto.
      apply C2; auto. now rewrite E1, T1.
  Qed.

  Lemma value_inv st v l :
    inv st -> (forall i, In i l <-> In v (nth i cs0 [])) ->
    let st' := mc_value st (v, l) in
    inv st' /\ coarser st st' /\
    (forall i j, In v (nth i cs0 []) -> In v (nth j cs0 []) -> nth i (mc_re st') 0 = nth j (mc_re st') 0).
  Proof.
    intros I Hl. unfold mc_value; simpl.
    assert (Triv : length l <= 1 -> forall i j, In v (nth i cs0 []) -> In v (nth j cs0 []) -> i = j).
    { intros Hlen i j A B. apply Hl in A. apply Hl in B.
      destruct l as [|a [|b l]]; simpl in *; [tauto| |lia]. intuition congruence. }
    destruct l as [|i0 l'].
    { split; auto. split; [apply coarser_refl|]. intros i j A B. now rewrite (Triv ltac:(simpl;lia) i j A B). }
    destruct l' as [|i1 l''].
    { split; auto. split; [apply coarser_refl|]. intros i j A B. now rewrite (Triv ltac:(simpl;lia) i j A B). }
    assert (B : Forall (fun i => i < n) (i0 :: i1 :: l'')).
    { apply Forall_forall. intros i Hi. apply Hl in Hi. eapply nth_out_nil; eauto. }
    assert (H0 : i0 < n) by (inversion B; auto).
    pose proof I as (_ & _ & _ & IB & IP & _ & _ & IK).
    destruct (steps_inv (i0 :: i1 :: l'') st (nth i0 (mc_re st) 0)) as (I1 & C1 & T1 & E1); auto.
    - apply Forall_forall. intros i Hi.
      eapply rt_trans; [apply conn_sym; apply IK; auto|].
      apply rt_step. exists v. split; apply Hl; simpl; auto.
    - split; auto. split; auto. intros i j A C. rewrite !E1; auto; now apply Hl.
  Qed.

  Lemma values_inv m st :
    inv st -> (forall v l, In (v, l) m -> forall i, In i l <-> In v (nth i cs0 [])) ->
    let st' := fold_left mc_value m st in
    inv st' /\ coarser st st' /\
    (forall v, In v (map fst m) -> forall i j, In v (nth i cs0 []) -> In v (nth j cs0 []) ->
               nth i (mc_re st') 0 = nth j (mc_re st') 0).
  Proof.
    revert st. induction m as [|[v l] m IH]; simpl; intros st I H.
    - split; auto. split; [apply coarser_refl|]. intros v [].
    - destruct (value_inv st v l I) as (I1 & C1 & E1); [apply H; auto|].
      destruct (IH (mc_value st (v, l)) I1) as (I2 & C2 & E2); [intros; eapply H; eauto|].
      split; auto. split; [eapply coarser_trans; eauto|].
      intros w [<-|Hw] i j A B; [|eauto].
      apply C2; [eapply nth_out_nil; eauto|eapply nth_out_nil; eauto|auto].
  Qed.
End Loop.

(** *** Main result *)
Lemma merge_final cs0 :
  exists re c, length re = length (clean cs0) /\
    merge_constraint cs0 = map (fun i => nth i c []) (sorted_set re) /\
    (forall i, i < length re -> nth i re 0 < length re /\ nth (nth i re 0) re 0 = nth i re 0) /\
    (forall r x, r < length re -> nth r re 0 = r ->
       (In x (nth r c []) <-> exists j, nth j re 0 = r /\ In x (nth j (clean cs0) []))) /\
    (forall i, i < length re -> conn (clean cs0) i (nth i re 0)) /\
    (forall x i j, In x (nth i (clean cs0) []) -> In x (nth j (clean cs0) []) -> nth i re 0 = nth j re 0).
Proof.
  set (cs := clean cs0).
  destruct (build_map_ok cs) as (D & K & L).
  destruct (values_inv cs (build_map cs) _ (inv_init cs)) as (I & _ & E).
  { intros v l H i. now apply L. }
  set (st := fold_left mc_value _ _) in *.
  exists (mc_re st), (mc_c st).
  destruct I as (L1 & L2 & L3 & B & P & H & C & Kn).
  split; auto. split; [reflexivity|]. rewrite L2. repeat split; auto.
  - intro HI. apply (C r) in HI; auto. destruct HI as (j & Hj & Ej & Hx). eauto.
  - intros (j & Ej & Hx). apply (C r); auto. exists j. split; auto. eapply nth_out_nil; eauto.
  - intros x i j A A'. apply (E x); auto. apply K. eauto.
Qed.

Lemma conn_linked cs i j x y :
  conn cs i j -> In x (nth i cs []) -> In y (nth j cs []) -> linked cs x y.
Proof.
  intro H. apply clos_rt_rt1n in H. revert x. induction H; intros a Hx Hy.
  - apply rt_step. exists (nth x cs []). repeat split; auto.
    apply nth_In. eapply nth_out_nil; eauto.
  - destruct H as [v [H1 H2]]. eapply rt_trans; [|apply (IHclos_refl_trans_1n v); auto].
    apply rt_step. exists (nth x cs []). repeat split; auto.
    apply nth_In. eapply nth_out_nil; eauto.
Qed.

(** What is left after the placeholder set has been dropped. *)
Lemma In_nth_set (cs : list pset) s : In s cs -> exists k, k < length cs /\ nth k cs [] = s.
Proof. intro H. destruct (In_nth cs s [] H) as (k & Hk & E). eauto. Qed.

Lemma clean_share cs x y : share (clean cs) x y <-> share (remove_first [(-1)%Z] cs) x y.
Proof.
  unfold share, clean. split; intros (s & Hs & Hx & Hy); exists s.
  - apply filter_In in Hs. tauto.
  - repeat split; auto. apply filter_In. split; auto. destruct s; [destruct Hx|auto].
Qed.
Lemma clean_linked cs x y : linked (clean cs) x y <-> linked (remove_first [(-1)%Z] cs) x y.
Proof.
  unfold linked. split; induction 1; try (apply rt_refl) ; try (eapply rt_trans; eassumption);
    apply rt_step; now apply clean_share.
Qed.

Lemma merge_constraint_correct cs :
  let base := remove_first [(-1)%Z] cs in
  let out := merge_constraint cs in
  (forall i j x, i < length out -> j < length out -> In x (nth i out []) -> In x (nth j out []) -> i = j) /\
  (forall s, In s out -> s <> []) /\
  (forall x, (exists s, In s out /\ In x s) <-> (exists s, In s base /\ In x s)) /\
  (forall x y, (exists s, In s out /\ In x s /\ In y s) <->
               (exists s, In s base /\ In x s) /\ linked base x y).
Proof.
  intros base out. unfold base, out.
  destruct (merge_final cs) as (re & c & Lre & Eo & R & C & Kn & E).
  rewrite Eo. set (cl := clean cs) in *. set (f := fun i => nth i c []).
  assert (Rep : forall r, In r (sorted_set re) -> r < length re /\ nth r re 0 = r).
  { intros r Hr. apply (proj1 (sorted_set_In _ _)) in Hr. destruct (In_nth re r 0 Hr) as (k & Hk & Ek).
    rewrite <- Ek. split; apply R; auto. }
  assert (RepI : forall j, j < length re -> In (nth j re 0) (sorted_set re)).
  { intros j Hj. apply sorted_set_In, nth_In, Hj. }
  assert (Base : forall x, (exists s, In s (remove_first [(-1)%Z] cs) /\ In x s) <-> exists j, j < length re /\ In x (nth j cl [])).
  { intro x. rewrite Lre. split.
    - intros (s & Hs & Hx). destruct (In_nth_set cl s) as (k & Hk & Ek).
      { apply filter_In. split; auto. destruct s; [destruct Hx|auto]. }
      exists k. rewrite Ek. auto.
    - intros (j & Hj & Hx). exists (nth j cl []). split; auto.
      assert (In (nth j cl []) cl) by (apply nth_In; auto).
      apply filter_In in H. tauto. }
  assert (Cls : forall r x, In r (sorted_set re) ->
            (In x (f r) <-> exists j, nth j re 0 = r /\ In x (nth j cl []))).
  { intros r x Hr. destruct (Rep r Hr). apply C; auto. }
  split; [|split; [|split]].
  - intros i j x Hi Hj. rewrite map_length in Hi, Hj.
    assert (NM : forall k, k < length (sorted_set re) -> nth k (map f (sorted_set re)) [] = f (nth k (sorted_set re) 0)).
    { intros k Hk. rewrite (nth_indep (map f _) [] (f 0)) by (rewrite map_length; auto). apply map_nth. }
    rewrite !NM by auto. intros A B.
    apply Cls in A; [|apply nth_In; auto]. apply Cls in B; [|apply nth_In; auto].
    destruct A as (a & Ea & Ha). destruct B as (b & Eb & Hb).
    assert (nth i (sorted_set re) 0 = nth j (sorted_set re) 0).
    { rewrite <- Ea, <- Eb. eapply E; eauto. }
    eapply NoDup_nth with (l := sorted_set re); eauto. apply sorted_set_NoDup.
  - intros s Hs. apply in_map_iff in Hs. destruct Hs as (r & <- & Hr).
    destruct (Rep r Hr) as [Hl Hrr].
    assert (Hne : nth r cl [] <> []).
    { assert (In (nth r cl []) cl) by (apply nth_In; rewrite <- Lre; auto).
      apply filter_In in H. destruct H as [_ H]. intro Q. rewrite Q in H. discriminate. }
    destruct (nth r cl []) as [|x l] eqn:En; [congruence|].
    intro Q. assert (HI : In x (f r)). { apply Cls; auto. exists r. split; auto. rewrite En. now left. }
    unfold f in HI, Q. rewrite Q in HI. destruct HI.
  - intro x. rewrite Base. split.
    + intros (s & Hs & Hx). apply in_map_iff in Hs. destruct Hs as (r & <- & Hr).
      apply Cls in Hx; auto. destruct Hx as (j & _ & Hx). exists j. split; auto.
      rewrite Lre. eapply nth_out_nil; eauto.
    + intros (j & Hj & Hx). exists (f (nth j re 0)). split.
      * apply in_map, RepI, Hj.
      * apply Cls; [apply RepI, Hj|]. eauto.
  - intros x y. rewrite Base. rewrite <- clean_linked. fold cl. split.
    + intros (s & Hs & Hx & Hy). apply in_map_iff in Hs. destruct Hs as (r & <- & Hr).
      apply Cls in Hx; auto. apply Cls in Hy; auto.
      destruct Hx as (a & Ea & Ha). destruct Hy as (b & Eb & Hb).
      assert (a < length re) by (rewrite Lre; eapply nth_out_nil; eauto).
      assert (b < length re) by (rewrite Lre; eapply nth_out_nil; eauto).
      split; [eauto|]. eapply (conn_linked cl a b); auto.
      eapply rt_trans; [apply Kn; auto|]. rewrite Ea, <- Eb. apply conn_sym. apply Kn; auto.
    + intros [(j & Hj & Hx) Hl]. exists (f (nth j re 0)).
      split; [apply in_map, RepI, Hj|].
      split; [apply Cls; [apply RepI, Hj|eauto]|].
      apply clos_rt_rt1n in Hl. revert j Hj Hx. induction Hl as [x|x z y H Hl IH]; intros j Hj Hx.
      * apply Cls; [apply RepI, Hj|eauto].
      * destruct H as (s & Hs & Hxs & Hzs). destruct (In_nth_set cl s Hs) as (k & Hk & Ek). subst s.
        rewrite (E x j k) by auto. apply IH; auto. rewrite Lre. auto.
Qed.
