(** Proofs about the shape comparison helpers [is_simple_reshape] and [reshape_mapping]. *)
From Coq Require Import List Arith Lia Permutation Bool Sorted.
From Verif Require Import Tensor ChainModel ChainProofs.
Import ListNotations.

(* ------------------------------------------------------------------ *)
(** ** is_simple_reshape *)

Definition ne1 (x : nat) : bool := negb (x =? 1).

(** A derivation of "same shape up to unit dimensions". *)
Inductive walk : list nat -> list nat -> nat -> nat -> list (nat * nat) -> Prop :=
| W_nil i j : walk [] [] i j []
| W_match x a b i j m : walk a b (S i) (S j) m -> walk (x :: a) (x :: b) i j ((i, j) :: m)
| W_l a b i j m : walk a b (S i) j m -> walk (1 :: a) b i j m
| W_r a b i j m : walk a b i (S j) m -> walk a (1 :: b) i j m.

Lemma scan_eq x a y b i j :
  simple_scan (x :: a) (y :: b) i j =
  if x =? y then option_map (cons (i, j)) (simple_scan a b (S i) (S j))
  else if x =? 1 then simple_scan a (y :: b) (S i) j
  else if y =? 1 then simple_scan (x :: a) b i (S j)
  else None.
Proof. reflexivity. Qed.

Lemma scan_walk a : forall b i j m, simple_scan a b i j = Some m -> walk a b i j m.
Proof.
  induction a as [|x a IHa].
  - induction b as [|y b IHb]; intros i j m H; simpl in H.
    + inversion H; constructor.
    + destruct (Nat.eqb_spec y 1); [|discriminate]. subst. apply W_r. apply IHb. exact H.
  - induction b as [|y b IHb]; intros i j m H.
    + simpl in H. destruct (Nat.eqb_spec x 1); [|discriminate]. subst. apply W_l. apply IHa. exact H.
    + rewrite scan_eq in H. destruct (Nat.eqb_spec x y).
      * subst y. destruct (simple_scan a b (S i) (S j)) eqn:E; simpl in H; [|discriminate].
        inversion H; subst. apply W_match. apply IHa. exact E.
      * destruct (Nat.eqb_spec x 1); [subst; apply W_l; apply IHa; exact H|].
        destruct (Nat.eqb_spec y 1); [subst; apply W_r; apply IHb; exact H|discriminate].
Qed.

Lemma walk_refl a : forall i, walk a a i i (map (fun k => (k, k)) (seq i (length a))).
Proof. induction a; intros i; simpl; constructor. apply IHa. Qed.

Lemma is_simple_walk a b m : is_simple_reshape a b = Some m -> walk a b 0 0 m.
Proof.
  unfold is_simple_reshape. destruct (list_eqb a b) eqn:E.
  - apply list_eqb_spec in E. subst b. intros H; inversion H. apply walk_refl.
  - apply scan_walk.
Qed.

Lemma walk_filter a b i j m : walk a b i j m -> filter ne1 a = filter ne1 b.
Proof.
  intros H; induction H; simpl; auto. rewrite IHwalk. reflexivity.
Qed.

Lemma walk_prod a b i j m : walk a b i j m -> prod a = prod b.
Proof. intros H; induction H; simpl; auto; lia. Qed.

Lemma scan_complete a : forall b i j, filter ne1 a = filter ne1 b -> exists m, simple_scan a b i j = Some m.
Proof.
  induction a as [|x a IHa].
  - induction b as [|y b IHb]; intros i j H; simpl in *; eauto.
    unfold ne1 in H at 1. destruct (Nat.eqb_spec y 1); simpl in H; [|discriminate]. apply IHb; exact H.
  - induction b as [|y b IHb]; intros i j H.
    + simpl in *. unfold ne1 in H at 1. destruct (Nat.eqb_spec x 1); simpl in H; [|discriminate].
      apply IHa. exact H.
    + rewrite scan_eq. destruct (Nat.eqb_spec x y).
      * subst y. simpl in H. destruct (IHa b (S i) (S j)) as [m E].
        { destruct (ne1 x); [inversion H; auto|exact H]. }
        rewrite E. simpl. eauto.
      * destruct (Nat.eqb_spec x 1).
        { subst. apply IHa. simpl in H. exact H. }
        destruct (Nat.eqb_spec y 1).
        { subst. apply IHb. exact H. }
        exfalso. cbn [filter] in H.
        assert (N0 : ne1 x = true) by (unfold ne1; destruct (Nat.eqb_spec x 1); auto; contradiction).
        assert (N1 : ne1 y = true) by (unfold ne1; destruct (Nat.eqb_spec y 1); auto; contradiction).
        rewrite N0, N1 in H. inversion H. contradiction.
Qed.

(** What the returned mapping promises, stated on the shapes only. *)
Definition axis_pairing (a b : list nat) (m : list (nat * nat)) : Prop :=
  (forall x y, In (x, y) m -> x < length a /\ y < length b /\ nth x a 0 = nth y b 0) /\
  StronglySorted (fun p q => fst p < fst q /\ snd p < snd q) m /\
  (forall x, x < length a -> nth x a 0 <> 1 -> In x (map fst m)) /\
  (forall y, y < length b -> nth y b 0 <> 1 -> In y (map snd m)).

Lemma walk_pairs a b i j m : walk a b i j m ->
  (forall x y, In (x, y) m ->
     i <= x /\ x < i + length a /\ j <= y /\ y < j + length b /\ nth (x - i) a 0 = nth (y - j) b 0) /\
  StronglySorted (fun p q => fst p < fst q /\ snd p < snd q) m /\
  (forall x, x < length a -> nth x a 0 <> 1 -> In (i + x) (map fst m)) /\
  (forall y, y < length b -> nth y b 0 <> 1 -> In (j + y) (map snd m)).
Proof.
  intros H; induction H; simpl.
  - repeat split; try tauto; try lia. constructor.
  - destruct IHwalk as [H1 [H2 [H3 H4]]]. repeat split.
    all: try (destruct H0 as [E|E]; [inversion E; subst; lia | apply H1 in E; lia]).
    + destruct H0 as [E|E]; [inversion E; subst; rewrite !Nat.sub_diag; auto|].
      apply H1 in E. replace (x0 - i) with (S (x0 - S i)) by lia.
      replace (y - j) with (S (y - S j)) by lia. simpl. apply E.
    + constructor; auto. apply Forall_forall. intros [p q] Hp. apply H1 in Hp. simpl. lia.
    + intros p Hp Hn. destruct p; [left; lia|right].
      replace (i + S p) with (S i + p) by lia. apply H3; auto; lia.
    + intros p Hp Hn. destruct p; [left; lia|right].
      replace (j + S p) with (S j + p) by lia. apply H4; auto; lia.
  - destruct IHwalk as [H1 [H2 [H3 H4]]]. repeat split; auto;
      try (apply H1 in H0; lia).
    + apply H1 in H0. replace (x - i) with (S (x - S i)) by lia. simpl. apply H0.
    + intros p Hp Hn. destruct p; [congruence|].
      replace (i + S p) with (S i + p) by lia. apply H3; auto; lia.
  - destruct IHwalk as [H1 [H2 [H3 H4]]]. repeat split; auto;
      try (apply H1 in H0; lia).
    + apply H1 in H0. replace (y - j) with (S (y - S j)) by lia. simpl. apply H0.
    + intros p Hp Hn. destruct p; [congruence|].
      replace (j + S p) with (S j + p) by lia. apply H4; auto; lia.
Qed.

(** The index after the reshape: paired axes keep their coordinate, the others are 0. *)
Definition remap_index (m : list (nat * nat)) (j n i : nat) (idx : list nat) : list nat :=
  map (fun y => match find (fun p => snd p =? y) m with
                | Some p => nth (fst p - i) idx 0
                | None => 0
                end) (seq j n).

Lemma walk_ravel a b i j m : walk a b i j m -> forall idx, valid a idx ->
  valid b (remap_index m j (length b) i idx) /\
  ravel b (remap_index m j (length b) i idx) = ravel a idx.
Proof.
  intros H; induction H as [|x a b i j m H IH|a b i j m H IH|a b i j m H IH]; intros idx V.
  - split; [constructor|reflexivity].
  - inversion V as [|v ? idxt ? Hv HV]; subst.
    destruct (IH _ HV) as [IV IR].
    assert (E : remap_index ((i, j) :: m) j (length (x :: b)) i (v :: idxt)
                = v :: remap_index m (S j) (length b) (S i) idxt).
    { unfold remap_index. simpl. rewrite Nat.eqb_refl. simpl. rewrite Nat.sub_diag. simpl. f_equal.
      apply map_ext_in. intros y Hy. apply in_seq in Hy.
      destruct (Nat.eqb_spec j y); [lia|].
      destruct (find _ m) as [p|] eqn:F; auto.
      apply find_some in F. destruct F as [F _]. destruct p as [p q].
      apply walk_pairs in H. destruct H as [H1 _]. apply H1 in F. simpl.
      replace (p - i) with (S (p - S i)) by lia. reflexivity. }
    rewrite E. split; [constructor; auto|]. simpl. rewrite IR. rewrite (walk_prod _ _ _ _ _ H). reflexivity.
  - inversion V as [|v ? idxt ? Hv HV]; subst. assert (v = 0) by lia. subst v.
    destruct (IH _ HV) as [IV IR].
    assert (E : remap_index m j (length b) i (0 :: idxt) = remap_index m j (length b) (S i) idxt).
    { unfold remap_index. apply map_ext_in. intros y Hy.
      destruct (find _ m) as [p|] eqn:F; auto.
      apply find_some in F. destruct F as [F _]. destruct p as [p q].
      apply walk_pairs in H. destruct H as [H1 _]. apply H1 in F. simpl.
      replace (p - i) with (S (p - S i)) by lia. reflexivity. }
    rewrite E. split; auto.
  - destruct (IH _ V) as [IV IR].
    assert (E : remap_index m j (length (1 :: b)) i idx = 0 :: remap_index m (S j) (length b) i idx).
    { unfold remap_index. simpl. f_equal.
      destruct (find _ m) as [p|] eqn:F; auto. exfalso.
      apply find_some in F. destruct F as [F F2]. destruct p as [p q].
      apply walk_pairs in H. destruct H as [H1 _]. apply H1 in F. simpl in F2.
      apply Nat.eqb_eq in F2. lia. }
    rewrite E. split; [constructor; auto; lia|]. simpl. exact IR.
Qed.

Lemma simple_reshape_correct a b :
  ((exists m, is_simple_reshape a b = Some m) <->
   filter (fun d => negb (d =? 1)) a = filter (fun d => negb (d =? 1)) b) /\
  (forall m, is_simple_reshape a b = Some m ->
     axis_pairing a b m /\
     (forall idx, valid a idx ->
        valid b (remap_index m 0 (length b) 0 idx) /\
        forall A (t : tensor A), tshape t = a ->
          tget (reshape b t) (remap_index m 0 (length b) 0 idx) = tget t idx)).
Proof.
  split; [split|].
  - intros [m H]. apply is_simple_walk in H. apply (walk_filter _ _ _ _ _ H).
  - intros H. unfold is_simple_reshape. destruct (list_eqb a b); [eauto|].
    apply scan_complete. exact H.
  - intros m H. apply is_simple_walk in H. split.
    + apply walk_pairs in H. destruct H as [H1 [H2 [H3 H4]]].
      repeat split; auto; try (apply H1 in H; lia).
      apply H1 in H. rewrite !Nat.sub_0_r in H. apply H.
    + intros idx V. destruct (walk_ravel _ _ _ _ _ H idx V) as [IV IR]. split; auto.
      intros A t HS. simpl. rewrite IR, HS, unravel_ravel; auto.
Qed.

(* ------------------------------------------------------------------ *)
(** ** reshape_mapping *)

(** Product of the sizes of the axes [a .. b-1]. *)
Definition pr (s : list nat) (a b : nat) : nat := prod (sel s (range a b)).

Lemma range_refl a : range a a = [].
Proof. unfold range. rewrite Nat.sub_diag. reflexivity. Qed.

Lemma range_S a b : a <= b -> range a (S b) = range a b ++ [b].
Proof.
  intros H. unfold range. replace (S b - a) with (S (b - a)) by lia.
  rewrite seq_S. f_equal. f_equal. lia.
Qed.

Lemma prod_app l m : prod (l ++ m) = prod l * prod m.
Proof. induction l; simpl; [lia|]. rewrite IHl. lia. Qed.

Lemma sel_app l p q : sel l (p ++ q) = sel l p ++ sel l q.
Proof. apply map_app. Qed.

Lemma pr_refl s a : pr s a a = 1.
Proof. unfold pr. rewrite range_refl. reflexivity. Qed.

Lemma pr_S s a b : a <= b -> pr s a (S b) = pr s a b * nth b s 0.
Proof. intros H. unfold pr. rewrite range_S by exact H. rewrite sel_app, prod_app. simpl. lia. Qed.

Lemma range_app a b c : a <= b -> b <= c -> range a b ++ range b c = range a c.
Proof.
  intros H1 H2. unfold range. replace b with (a + (b - a)) at 2 by lia.
  rewrite <- seq_app. f_equal. lia.
Qed.

Lemma pr_trans s a b c : a <= b -> b <= c -> pr s a b * pr s b c = pr s a c.
Proof. intros. unfold pr. rewrite <- (range_app a b c) by lia. rewrite sel_app, prod_app. reflexivity. Qed.

Lemma pr_full s : pr s 0 (length s) = prod s.
Proof. unfold pr, range. rewrite Nat.sub_0_r, sel_seq. reflexivity. Qed.

Lemma prod_pos s : Forall (fun d => 0 < d) s -> 0 < prod s.
Proof. intros H; induction H; simpl; [lia|nia]. Qed.

Lemma pr_pos s a b : Forall (fun d => 0 < d) s -> b <= length s -> 0 < pr s a b.
Proof.
  intros H Hb. unfold pr. apply prod_pos. apply Forall_forall. intros d Hd.
  unfold sel in Hd. apply in_map_iff in Hd. destruct Hd as [k [<- Hk]].
  unfold range in Hk. apply in_seq in Hk. rewrite Forall_forall in H. apply H. apply nth_In. lia.
Qed.

Section RM.
  Variables s1 s2 : list nat.
  Hypothesis P1 : Forall (fun d => 0 < d) s1.
  Hypothesis P2 : Forall (fun d => 0 < d) s2.
  Hypothesis EQ : prod s1 = prod s2.

  Let n1 := length s1.
  Let n2 := length s2.

  Definition groups_ok (ml mr : list (list nat)) : Prop :=
    Forall2 (fun g h => g <> [] /\ h <> [] /\ prod (sel s1 g) = prod (sel s2 h)) ml mr.

  Definition final_ok (ml mr : list (list nat)) : Prop :=
    concat ml = seq 0 n1 /\ concat mr = seq 0 n2 /\ groups_ok ml mr.

  Lemma concat_rev_append_last g l i :
    append_last (g :: l) i = Some ((g ++ [i]) :: l) /\
    concat (rev ((g ++ [i]) :: l)) = concat (rev (g :: l)) ++ [i].
  Proof.
    split; auto. simpl. rewrite !concat_app. simpl. rewrite !app_nil_r, app_assoc. reflexivity.
  Qed.

  Lemma groups_rev ml mr : groups_ok ml mr -> groups_ok (rev ml) (rev mr).
  Proof.
    unfold groups_ok. intros H; induction H; simpl; auto.
    apply Forall2_app; auto.
  Qed.

  (** The trailing phase on the left: only unit axes remain. *)
  Lemma trail_l k : forall fuel i acc_l sl acc_r sr g ml mr sign,
    n1 - i = k -> i <= n1 -> k < fuel ->
    pr s1 i n1 = 1 ->
    concat (rev (g :: ml)) = seq 0 i -> concat (rev mr) = seq 0 n2 -> groups_ok (g :: ml) mr ->
    exists ml' mr', rm_loop fuel s1 s2 i n2 acc_l sl acc_r sr (g :: ml) mr sign = Some (ml', mr') /\
                    final_ok ml' mr'.
  Proof.
    induction k as [|k IH]; intros fuel i acc_l sl acc_r sr g ml mr sign Hk Hi Hf HP C1 C2 HG;
      destruct fuel as [|fuel]; try lia; cbn [rm_loop]; fold n1; fold n2.
    - assert (i = n1) by lia. subst i. rewrite !Nat.ltb_irrefl. simpl orb.
      exists (rev (g :: ml)), (rev mr). split; auto. repeat split; auto. apply groups_rev; auto.
    - assert (Hlt : i < n1) by lia. apply Nat.ltb_lt in Hlt. rewrite Hlt, Nat.ltb_irrefl.
      apply Nat.ltb_lt in Hlt. simpl orb; simpl andb. cbv iota.
      assert (HS : pr s1 i n1 = nth i s1 0 * pr s1 (S i) n1).
      { rewrite <- (pr_trans s1 i (S i) n1) by lia. rewrite pr_S by lia. rewrite pr_refl. lia. }
      rewrite HP in HS. symmetry in HS. apply Nat.eq_mul_1 in HS. destruct HS as [HA HB].
      rewrite HA. rewrite Nat.eqb_refl.
      destruct (concat_rev_append_last g ml i) as [E1 E2]. rewrite E1.
      apply IH; auto; try lia.
      + rewrite E2, C1. rewrite seq_S. reflexivity.
      + inversion HG as [|? ? ? ? HX HY]; subst. constructor; auto. destruct HX as [G1 [G2 G3]].
        split; [destruct g; discriminate|]. split; auto.
        rewrite sel_app, prod_app. simpl. rewrite HA. lia.
  Qed.

  Lemma trail_r k : forall fuel j acc_l sl acc_r sr h ml mr sign,
    n2 - j = k -> j <= n2 -> k < fuel ->
    pr s2 j n2 = 1 ->
    concat (rev ml) = seq 0 n1 -> concat (rev (h :: mr)) = seq 0 j -> groups_ok ml (h :: mr) ->
    exists ml' mr', rm_loop fuel s1 s2 n1 j acc_l sl acc_r sr ml (h :: mr) sign = Some (ml', mr') /\
                    final_ok ml' mr'.
  Proof.
    induction k as [|k IH]; intros fuel j acc_l sl acc_r sr h ml mr sign Hk Hi Hf HP C1 C2 HG;
      destruct fuel as [|fuel]; try lia; cbn [rm_loop]; fold n1; fold n2.
    - assert (j = n2) by lia. subst j. rewrite !Nat.ltb_irrefl. simpl orb.
      exists (rev ml), (rev (h :: mr)). split; auto. repeat split; auto. apply groups_rev; auto.
    - assert (Hlt : j < n2) by lia. apply Nat.ltb_lt in Hlt. rewrite Hlt, Nat.ltb_irrefl.
      apply Nat.ltb_lt in Hlt. simpl orb; simpl andb. cbv iota.
      assert (HS : pr s2 j n2 = nth j s2 0 * pr s2 (S j) n2).
      { rewrite <- (pr_trans s2 j (S j) n2) by lia. rewrite pr_S by lia. rewrite pr_refl. lia. }
      rewrite HP in HS. symmetry in HS. apply Nat.eq_mul_1 in HS. destruct HS as [HA HB].
      rewrite HA. rewrite Nat.eqb_refl.
      destruct (concat_rev_append_last h mr j) as [E1 E2]. rewrite E1.
      apply IH; auto; try lia.
      + rewrite E2, C2. rewrite seq_S. reflexivity.
      + inversion HG as [|? ? ? ? HX HY]; subst. constructor; auto. destruct HX as [G1 [G2 G3]].
        split; auto. split; [destruct h; discriminate|].
        rewrite sel_app, prod_app. simpl. rewrite HA. lia.
  Qed.

  Definition sign_inv (i j acc_l start_l acc_r start_r : nat) (sign : sgn) : Prop :=
    match sign with
    | SNone => start_l = i /\ start_r = j /\ acc_l = 1 /\ acc_r = 1
    | SL => start_l < i /\ start_r <= j /\ j < n2 /\ acc_l = pr s1 start_l i /\
            acc_r = pr s2 start_r (S j) /\ acc_l < acc_r
    | SR => start_l <= i /\ start_r < j /\ i < n1 /\ acc_l = pr s1 start_l (S i) /\
            acc_r = pr s2 start_r j /\ acc_r < acc_l
    end.

  Lemma rm_main k : forall fuel i j acc_l start_l acc_r start_r ml mr sign,
    (n1 - i) + (n2 - j) = k -> k < fuel -> i <= n1 -> j <= n2 ->
    start_l <= n1 -> start_r <= n2 ->
    sign_inv i j acc_l start_l acc_r start_r sign ->
    concat (rev ml) = seq 0 start_l -> concat (rev mr) = seq 0 start_r -> groups_ok ml mr ->
    pr s1 0 start_l = pr s2 0 start_r ->
    (ml <> [] \/ (0 < n1 /\ 0 < n2) \/ (n1 = 0 /\ n2 = 0)) ->
    exists ml' mr', rm_loop fuel s1 s2 i j acc_l start_l acc_r start_r ml mr sign = Some (ml', mr') /\
                    final_ok ml' mr'.
  Proof.
    induction k as [k IH] using lt_wf_ind.
    intros fuel i j acc_l start_l acc_r start_r ml mr sign Hk Hf Hi Hj Hsl Hsr HS C1 C2 HG HP HNE.
    destruct fuel as [|fuel]; [lia|].
    assert (REST : pr s1 start_l n1 = pr s2 start_r n2).
    { pose proof (pr_trans s1 0 start_l n1) as T1. pose proof (pr_trans s2 0 start_r n2) as T2.
      unfold n1, n2 in T1, T2. rewrite pr_full in T1, T2. fold n1 in T1. fold n2 in T2.
      pose proof (pr_pos s1 0 start_l P1 Hsl). pose proof (pr_pos s2 0 start_r P2 Hsr).
      specialize (T1 ltac:(lia) ltac:(lia)). specialize (T2 ltac:(lia) ltac:(lia)).
      rewrite EQ, <- T2, HP in T1. apply Nat.mul_cancel_l in T1; lia. }
    destruct (Nat.ltb_spec i n1) as [Li|Li]; destruct (Nat.ltb_spec j n2) as [Lj|Lj].
    - (* both in range *)
      cbn [rm_loop]. fold n1. fold n2. apply Nat.ltb_lt in Li as Li'. apply Nat.ltb_lt in Lj as Lj'.
      rewrite Li', Lj'. simpl orb; simpl andb. cbv iota.
      destruct ((start_l =? i) && (start_r =? j) && (nth i s1 0 =? nth j s2 0)) eqn:E0.
      + apply andb_true_iff in E0. destruct E0 as [E0 E3]. apply andb_true_iff in E0.
        destruct E0 as [E1 E2]. apply Nat.eqb_eq in E1. apply Nat.eqb_eq in E2. apply Nat.eqb_eq in E3.
        subst start_l start_r.
        apply (IH ((n1 - S i) + (n2 - S j))); auto; try lia.
        * simpl. auto.
        * cbn [rev]. rewrite concat_app, C1. rewrite seq_S. reflexivity.
        * cbn [rev]. rewrite concat_app, C2. rewrite seq_S. reflexivity.
        * constructor; auto. repeat split; try discriminate. simpl. lia.
        * rewrite !pr_S by lia. rewrite HP, E3. reflexivity.
      + set (al := match sign with SR => acc_l | _ => nth i s1 0 * acc_l end).
        set (ar := match sign with SL => acc_r | _ => nth j s2 0 * acc_r end).
        assert (AL : al = pr s1 start_l (S i) /\ start_l <= i).
        { unfold al. destruct sign; simpl in HS.
          - destruct HS as [-> [-> [-> ->]]]. rewrite pr_S, pr_refl by lia. lia.
          - destruct HS as [S1 [S2 [S3 [-> S5]]]]. rewrite pr_S by lia. lia.
          - destruct HS as [S1 [S2 [S3 [-> S5]]]]. lia. }
        assert (AR : ar = pr s2 start_r (S j) /\ start_r <= j).
        { unfold ar. destruct sign; simpl in HS.
          - destruct HS as [-> [-> [-> ->]]]. rewrite pr_S, pr_refl by lia. lia.
          - destruct HS as [S1 [S2 [S3 [S4 [-> S5]]]]]. lia.
          - destruct HS as [S1 [S2 [S3 [S4 [-> S5]]]]]. rewrite pr_S by lia. lia. }
        destruct AL as [AL BL]. destruct AR as [AR BR].
        destruct (Nat.eqb_spec al ar) as [Ea|Ea].
        * apply (IH ((n1 - S i) + (n2 - S j))); auto; try lia.
          -- simpl; auto.
          -- simpl. rewrite concat_app, C1. simpl. rewrite app_nil_r.
             replace (i + 1) with (S i) by lia. replace (seq 0 start_l) with (range 0 start_l).
             2: { unfold range. rewrite Nat.sub_0_r. reflexivity. }
             rewrite range_app by lia. unfold range. rewrite Nat.sub_0_r. reflexivity.
          -- simpl. rewrite concat_app, C2. simpl. rewrite app_nil_r.
             replace (j + 1) with (S j) by lia. replace (seq 0 start_r) with (range 0 start_r).
             2: { unfold range. rewrite Nat.sub_0_r. reflexivity. }
             rewrite range_app by lia. unfold range. rewrite Nat.sub_0_r. reflexivity.
          -- constructor; auto.
             replace (i + 1) with (S i) by lia. replace (j + 1) with (S j) by lia.
             repeat split.
             ++ rewrite range_S by lia. destruct (range start_l i); discriminate.
             ++ rewrite range_S by lia. destruct (range start_r j); discriminate.
             ++ change (pr s1 start_l (S i) = pr s2 start_r (S j)). congruence.
          -- rewrite <- (pr_trans s1 0 start_l (S i)) by lia.
             rewrite <- (pr_trans s2 0 start_r (S j)) by lia. congruence.
        * destruct (Nat.ltb_spec al ar) as [Lt|Lt].
          -- apply (IH ((n1 - S i) + (n2 - j))); auto; try lia.
             simpl. repeat split; auto; lia.
          -- apply (IH ((n1 - i) + (n2 - S j))); auto; try lia.
             simpl. repeat split; auto; lia.
    - (* right exhausted *)
      assert (j = n2) by lia. subst j.
      assert (HSN : start_l = i /\ start_r = n2).
      { destruct sign; simpl in HS; try lia. exfalso.
        destruct HS as [S1 [S2 [S3 [S4 [S5 S6]]]]].
        assert (pr s1 start_l (S i) <= pr s1 start_l n1).
        { rewrite <- (pr_trans s1 start_l (S i) n1) by lia.
          pose proof (pr_pos s1 (S i) n1 P1 ltac:(lia)). nia. }
        lia. }
      destruct HSN as [-> ->]. rewrite pr_refl in REST.
      destruct ml as [|g ml].
      { exfalso. destruct HNE as [HNE|HNE]; [congruence|].
        simpl in C1. destruct i; [|discriminate]. inversion HG; subst. simpl in C2.
        destruct n2; [lia|discriminate]. }
      apply trail_l with (k := n1 - i); auto; lia.
    - (* left exhausted *)
      assert (i = n1) by lia. subst i.
      assert (HSN : start_l = n1 /\ start_r = j).
      { destruct sign; simpl in HS; try lia. exfalso.
        destruct HS as [S1 [S2 [S3 [S4 [S5 S6]]]]].
        assert (pr s2 start_r (S j) <= pr s2 start_r n2).
        { rewrite <- (pr_trans s2 start_r (S j) n2) by lia.
          pose proof (pr_pos s2 (S j) n2 P2 ltac:(lia)). nia. }
        lia. }
      destruct HSN as [-> ->]. rewrite pr_refl in REST.
      destruct mr as [|h mr].
      { exfalso. inversion HG; subst. destruct HNE as [HNE|HNE]; [congruence|].
        simpl in C1. destruct n1; [lia|discriminate]. }
      apply trail_r with (k := n2 - j); auto; lia.
    - assert (i = n1) by lia. assert (j = n2) by lia. subst i j.
      assert (HSN : start_l = n1 /\ start_r = n2) by (destruct sign; simpl in HS; lia).
      destruct HSN as [-> ->].
      cbn [rm_loop]. fold n1. fold n2. rewrite !Nat.ltb_irrefl. simpl orb.
      exists (rev ml), (rev mr). split; auto. repeat split; auto. apply groups_rev; auto.
  Qed.

  Lemma non_one_prod s g : prod (sel s (non_one s g)) = prod (sel s g).
  Proof.
    induction g as [|k g IH]; simpl; auto. destruct (Nat.eqb_spec (nth k s 0) 1) as [E|E]; simpl.
    - rewrite IH. rewrite E. lia.
    - rewrite IH. reflexivity.
  Qed.

  Lemma non_one_nil s g : Forall (fun d => 0 < d) s -> Forall (fun k => k < length s) g ->
    (non_one s g = [] <-> prod (sel s g) = 1).
  Proof.
    intros HP HF. split; intros H.
    - rewrite <- non_one_prod, H. reflexivity.
    - induction HF as [|k g Hk HF IH]; simpl in *; auto.
      apply Nat.eq_mul_1 in H. destruct H as [H1 H2]. rewrite H1. simpl. auto.
  Qed.

  Lemma filter_concat {A} (f : A -> bool) ll : filter f (concat ll) = concat (map (filter f) ll).
  Proof. induction ll; simpl; auto. rewrite filter_app, IHll. reflexivity. Qed.

  Lemma non_one_groups_ok ml mr nl nr :
    Forall (fun g => Forall (fun k => k < n1) g) ml -> Forall (fun g => Forall (fun k => k < n2) g) mr ->
    groups_ok ml mr -> non_one_groups s1 s2 ml mr = (nl, nr) ->
    groups_ok nl nr /\
    concat nl = filter (fun k => negb (nth k s1 0 =? 1)) (concat ml) /\
    concat nr = filter (fun k => negb (nth k s2 0 =? 1)) (concat mr).
  Proof.
    intros F1 F2 HG. revert nl nr F1 F2. unfold non_one_groups.
    induction HG as [|g h ml mr [G1 [G2 G3]] HG IH]; intros nl nr F1 F2 E; simpl in *.
    - inversion E; subst. repeat split; auto. constructor.
    - inversion F1; subst. inversion F2; subst.
      pose proof (non_one_nil s1 g P1 H1) as N1. pose proof (non_one_nil s2 h P2 H3) as N2.
      pose proof (non_one_prod s1 g) as Q1. pose proof (non_one_prod s2 h) as Q2.
      rewrite !filter_app. fold (non_one s1 g). fold (non_one s2 h).
      destruct (non_one s1 g) as [|a ga] eqn:Eg; destruct (non_one s2 h) as [|b hb] eqn:Eh; simpl in E.
      + simpl. apply IH; auto.
      + exfalso. assert (prod (sel s2 h) = 1) by (rewrite <- G3; apply N1; auto).
        apply N2 in H. discriminate.
      + exfalso. assert (prod (sel s1 g) = 1) by (rewrite G3; apply N2; auto).
        apply N1 in H. discriminate.
      + destruct (split _) as [nl' nr'] eqn:ES in E. inversion E; subst.
        destruct (IH nl' nr' H2 H4 ES) as [I1 [I2 I3]].
        repeat split; simpl.
        * constructor; auto. repeat split; try discriminate. congruence.
        * rewrite I2. reflexivity.
        * rewrite I3. reflexivity.
  Qed.

  Lemma concat_seq_Forall n ll : concat ll = seq 0 n -> Forall (fun g => Forall (fun k => k < n) g) ll.
  Proof.
    intros H. apply Forall_forall. intros g Hg. apply Forall_forall. intros k Hk.
    assert (In k (seq 0 n)) by (rewrite <- H; apply in_concat; eauto).
    apply in_seq in H0. lia.
  Qed.

  Lemma reshape_mapping_correct :
    (s1 = [] <-> s2 = []) ->
    exists ml mr nl nr, reshape_mapping s1 s2 = Some (ml, mr, nl, nr) /\
      concat ml = seq 0 (length s1) /\ concat mr = seq 0 (length s2) /\
      Forall2 (fun g h => g <> [] /\ h <> [] /\ prod (sel s1 g) = prod (sel s2 h)) ml mr /\
      concat nl = filter (fun k => negb (nth k s1 0 =? 1)) (seq 0 (length s1)) /\
      concat nr = filter (fun k => negb (nth k s2 0 =? 1)) (seq 0 (length s2)) /\
      Forall2 (fun g h => g <> [] /\ h <> [] /\ prod (sel s1 g) = prod (sel s2 h)) nl nr.
  Proof.
    intros HE. unfold reshape_mapping.
    destruct (rm_main (n1 + n2) (S (length s1 + length s2)) 0 0 1 0 1 0 [] [] SNone)
      as [ml [mr [E [C1 [C2 HG]]]]]; auto; try (unfold n1, n2; lia).
    - simpl; auto.
    - constructor.
    - right. unfold n1, n2. destruct s1; destruct s2; simpl; auto; try lia.
      + destruct HE as [HE _]. specialize (HE eq_refl). discriminate.
      + destruct HE as [_ HE]. specialize (HE eq_refl). discriminate.
    - rewrite E. destruct (non_one_groups s1 s2 ml mr) as [nl nr] eqn:EN.
      destruct (non_one_groups_ok ml mr nl nr) as [N1 [N2 N3]]; auto.
      { apply concat_seq_Forall; auto. } { apply concat_seq_Forall; auto. }
      exists ml, mr, nl, nr. rewrite C1 in N2. rewrite C2 in N3. unfold n1, n2 in *.
      repeat split; auto.
  Qed.
End RM.
