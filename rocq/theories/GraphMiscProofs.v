(** Fresh names, constant sharing, boundary folding, requantize splitting. *)
From Coq Require Import List Arith Bool ZArith Lia Permutation String DecimalString DecimalNat.
From Verif Require Import GraphModel GraphProofs GraphTableProofs.
Import ListNotations.
Local Open Scope nat_scope.

(** * Names *)
Lemma str_append_inj (a x y : string) : (a ++ x = a ++ y)%string -> x = y.
Proof. induction a; cbn; intro H; auto. injection H. auto. Qed.
Lemma str_append_assoc (a b c : string) : ((a ++ b) ++ c = a ++ (b ++ c))%string.
Proof. induction a; cbn; congruence. Qed.
Lemma str_of_nat_inj i j : str_of_nat i = str_of_nat j -> i = j.
Proof.
  unfold str_of_nat. intro H. apply (f_equal NilEmpty.uint_of_string) in H. rewrite !NilEmpty.usu in H.
  injection H as H. apply (f_equal Nat.of_uint) in H. now rewrite !Unsigned.of_to in H.
Qed.
Lemma suffixed_inj b s i j : suffixed b s i = suffixed b s j -> i = j.
Proof.
  unfold suffixed. intro H. apply str_append_inj, str_append_inj in H. cbn in H. injection H as H.
  now apply str_of_nat_inj.
Qed.
Lemma smemb_In s l : smemb s l = true <-> In s l.
Proof.
  unfold smemb. rewrite existsb_exists. split.
  - intros (y & H & E). apply String.eqb_eq in E. now subst.
  - intro H. exists s. split; auto. apply String.eqb_refl.
Qed.
Lemma smemb_nIn s l : smemb s l = false <-> ~ In s l.
Proof. rewrite <- smemb_In. destruct (smemb s l); split; congruence. Qed.

Lemma fresh_loop_spec base keys : forall fuel i,
  (exists k, i <= k /\ fresh_loop base keys fuel i = Some (suffixed base "_output" k) /\
             ~ In (suffixed base "_output" k) keys) \/
  (fresh_loop base keys fuel i = None /\ forall k, i <= k < i + fuel -> In (suffixed base "_output" k) keys).
Proof.
  induction fuel as [|fuel IH]; intro i; cbn [fresh_loop].
  - right. split; auto. intros k Hk. lia.
  - cbv zeta. destruct (smemb (suffixed base "_output" i) keys) eqn:E.
    + destruct (IH (i + 1)) as [(k & H1 & H2 & H3)|(H1 & H2)].
      * left. exists k. repeat split; auto. lia.
      * right. split; auto. intros k Hk. destruct (Nat.eq_dec k i) as [->|].
        -- now apply smemb_In.
        -- apply H2. lia.
    + left. exists i. repeat split; auto. now apply smemb_nIn.
Qed.
Lemma fresh_loop_ok base keys : exists k,
  fresh_loop base keys (S (List.length keys)) 1 = Some (suffixed base "_output" k) /\
  ~ In (suffixed base "_output" k) keys.
Proof.
  destruct (fresh_loop_spec base keys (S (List.length keys)) 1) as [(k & _ & H)|(_ & H)]; [eauto|].
  exfalso. assert (L := NoDup_incl_length (l := map (suffixed base "_output") (seq 1 (S (List.length keys)))) (l' := keys)).
  rewrite map_length, seq_length in L. apply (Nat.nle_succ_diag_l (List.length keys)), L.
  - assert (G : forall n s, NoDup (map (suffixed base "_output") (seq s n))).
    { induction n as [|n IH]; intro s; cbn; constructor; auto. intro Hi. apply in_map_iff in Hi as (x & E & Hx).
      apply suffixed_inj in E. subst. apply in_seq in Hx. lia. }
    apply G.
  - intros x Hx. apply in_map_iff in Hx as (k & <- & Hk). apply in_seq in Hk. apply H. lia.
Qed.
Lemma output_name_ok base keys : exists suffix,
  output_name base keys = Some (base ++ "_output" ++ suffix)%string /\
  ~ In (base ++ "_output" ++ suffix)%string keys.
Proof.
  unfold output_name. destruct (smemb (base ++ "_output") keys) eqn:E.
  - destruct (fresh_loop_ok base keys) as (k & H1 & H2). rewrite H1. exists ("_" ++ str_of_nat k)%string. auto.
  - exists EmptyString. assert (("_output" ++ "")%string = "_output"%string) as -> by reflexivity.
    apply smemb_nIn in E. auto.
Qed.
Theorem add_output_names_ok tensors : forall keys, exists r,
  add_output_names keys tensors = Some (r, keys ++ r) /\ NoDup r /\ (forall s, In s r -> ~ In s keys) /\
  Forall2 (fun t s => exists suffix, s = (t ++ "_output" ++ suffix)%string) tensors r.
Proof.
  induction tensors as [|t ts IH]; intro keys; cbn [add_output_names].
  - exists []. rewrite app_nil_r. repeat split; auto; constructor.
  - destruct (output_name_ok t keys) as (x & -> & Hx).
    destruct (IH (keys ++ [(t ++ "_output" ++ x)%string])) as (r & E & N & D & F). rewrite E.
    exists ((t ++ "_output" ++ x)%string :: r). split; [|split; [|split]].
    + rewrite <- app_assoc. reflexivity.
    + constructor; auto. intro H. apply (D _ H). apply in_or_app. right. now left.
    + intros s [<-|H]; auto. intro Hk. apply (D s H). apply in_or_app. auto.
    + constructor; eauto.
Qed.
Theorem counter_name_inj base suffix i j : counter_name base suffix i = counter_name base suffix j -> i = j.
Proof.
  unfold counter_name. destruct i as [|i], j as [|j]; auto; intro H.
  - exfalso. unfold suffixed in H. apply str_append_inj in H.
    revert H. generalize (S j). intros n H. apply (f_equal String.length) in H.
    assert (L : forall a b, String.length (a ++ b) = String.length a + String.length b).
    { induction a; cbn; intros; auto. } rewrite L in H. cbn in H. lia.
  - exfalso. unfold suffixed in H. apply str_append_inj in H.
    revert H. generalize (S i). intros n H. apply (f_equal String.length) in H.
    assert (L : forall a b, String.length (a ++ b) = String.length a + String.length b).
    { induction a; cbn; intros; auto. } rewrite L in H. cbn in H. lia.
  - now apply suffixed_inj in H.
Qed.
Theorem counter_name_kinds base i j : counter_name base "_attr" i <> counter_name base "_transform" j.
Proof.
  unfold counter_name, suffixed. intro H.
  destruct i, j; apply str_append_inj in H; cbn in H; discriminate.
Qed.

(** * Constant sharing *)
Lemma qval_eqb_eq a b : qval_eqb a b = true <-> a = b.
Proof.
  destruct a, b; cbn; try (split; congruence).
  - rewrite Z.eqb_eq. split; congruence.
  - destruct (list_eq_dec Z.eq_dec l l0); split; congruence.
Qed.
Lemma key_eqb_eq a b : key_eqb a b = true <-> a = b.
Proof.
  destruct a as [b1 d1 s1 q1], b as [b2 d2 s2 q2]. unfold key_eqb. cbn [k_buf k_dtype k_shape k_quant].
  rewrite !andb_true_iff, Nat.eqb_eq.
  assert (E1 : (match b1, b2 with
   | Some x, Some y => if list_eq_dec Z.eq_dec x y then true else false
   | None, None => true
   | _, _ => false end) = true <-> b1 = b2).
  { destruct b1 as [x|], b2 as [y|]; try (split; congruence). destruct (list_eq_dec Z.eq_dec x y); split; congruence. }
  assert (E2 : (if list_eq_dec Nat.eq_dec s1 s2 then true else false) = true <-> s1 = s2).
  { destruct (list_eq_dec Nat.eq_dec s1 s2); split; congruence. }
  rewrite E1, E2. clear E1 E2.
  assert (E3 : match q1, q2 with
  | None, None => true
  | Some (s, z, d), Some (s', z', d') =>
      qval_eqb s s' && qval_eqb z z' &&
      match d, d' with None, None => true | Some x, Some y => x =? y | _, _ => false end
  | _, _ => false
  end = true <-> q1 = q2).
  { destruct q1 as [((s, z), d)|], q2 as [((s', z'), d')|]; try (split; congruence).
    rewrite !andb_true_iff, !qval_eqb_eq.
    destruct d as [x|], d' as [y|]; try rewrite Nat.eqb_eq; split; try (intros ((-> & ->) & H)); try congruence;
      intro H; injection H; intros; subst; repeat split; auto; congruence. }
  rewrite E3. split; [intros (((-> & ->) & ->) & ->); auto|]. intro H. injection H. auto.
Qed.

(** Specification: the first constant with the same contents. *)
Definition same_key (info : nat -> tinfo) (c r : nat) : bool := key_eqb (info r) (info c).
Definition rep (info : nat -> tinfo) (consts : list nat) (c : nat) : nat :=
  match find (same_key info c) consts with Some r => r | None => c end.
Lemma find_app {A} (f : A -> bool) l l' :
  find f (l ++ l') = match find f l with Some x => Some x | None => find f l' end.
Proof. induction l as [|a l IH]; cbn; auto. destruct (f a); auto. Qed.
Lemma find_key_ext info l c c' : info c = info c' -> find (same_key info c) l = find (same_key info c') l.
Proof. intro E. unfold same_key. rewrite E. reflexivity. Qed.

Lemma positions_In n l i : In i (positions n l) <-> nth_error l i = Some n.
Proof.
  unfold positions. rewrite filter_In, in_seq. split.
  - intros (_ & H). destruct (nth_error l i) as [m|]; [|discriminate]. apply Nat.eqb_eq in H. now subst.
  - intro H. rewrite H, Nat.eqb_refl. assert (i < List.length l) by (apply nth_error_Some; congruence). split; auto. lia.
Qed.

Lemma group_loop_spec info targets ops consts : NoDup consts ->
  forall todo dn tmap acts r, consts = dn ++ todo ->
  (forall c, find (same_key info c) tmap = find (same_key info c) dn) ->
  (forall o i x, In (o, i, x) acts <->
     exists c, In c dn /\ x = rep info consts c /\ x <> c /\ In o (targets c) /\ nth_error (o_in (ops o)) i = Some c) ->
  group_loop info targets ops todo tmap acts = Some r ->
  forall o i x, In (o, i, x) r <->
     exists c, In c consts /\ x = rep info consts c /\ x <> c /\ In o (targets c) /\ nth_error (o_in (ops o)) i = Some c.
Proof.
  intros ND. induction todo as [|c todo IH]; intros dn tmap acts r E Ht Ha H; cbn [group_loop] in H.
  - injection H as <-. intros o i x. rewrite Ha, E, app_nil_r. reflexivity.
  - assert (Nc : ~ In c dn).
    { rewrite E in ND. apply NoDup_remove_2 in ND. rewrite in_app_iff in ND. tauto. }
    destruct (k_buf (info c)) as [bb|]; [|discriminate].
    change (fun r => key_eqb (info r) (info c)) with (same_key info c) in H.
    rewrite (Ht c) in H. destruct (find (same_key info c) dn) as [x0|] eqn:Ef.
    + assert (Hr : rep info consts c = x0) by (unfold rep; rewrite E, find_app, Ef; auto).
      assert (Hne : x0 <> c) by (intros ->; apply find_some in Ef as (Hi & _); contradiction).
      revert H. apply (IH (dn ++ [c])).
      * now rewrite <- app_assoc.
      * intro c'. rewrite (Ht c'), find_app. destruct (find (same_key info c') dn) eqn:E'; auto.
        cbn. destruct (same_key info c' c) eqn:Ek; auto. apply key_eqb_eq in Ek.
        rewrite (find_key_ext info dn c c' Ek) in Ef. congruence.
      * intros o' i' x'. rewrite in_app_iff, Ha, in_flat_map. split.
        -- intros [(c' & Hc & R)|(o'' & Ho & Hm)].
           ++ exists c'. rewrite in_app_iff. tauto.
           ++ apply in_map_iff in Hm as (i'' & Em & Hp). injection Em as -> -> <-. apply positions_In in Hp.
              exists c. rewrite in_app_iff. cbn. repeat split; auto.
        -- intros (c' & Hc & -> & Hn & Ho & Hi). apply in_app_iff in Hc as [Hc|[<-|[]]].
           ++ left. exists c'. auto.
           ++ right. exists o'. split; auto. apply in_map_iff. exists i'. rewrite Hr. split; auto. now apply positions_In.
    + assert (Hr : rep info consts c = c).
      { unfold rep. rewrite E, find_app, Ef. cbn. assert (same_key info c c = true) as -> by (apply key_eqb_eq; auto). auto. }
      revert H. apply (IH (dn ++ [c])).
      * now rewrite <- app_assoc.
      * intro c'. rewrite !find_app, Ht. reflexivity.
      * intros o' i' x'. rewrite Ha. split.
        -- intros (c' & Hc & R). exists c'. rewrite in_app_iff. tauto.
        -- intros (c' & Hc & -> & Hn & Ho & Hi). apply in_app_iff in Hc as [Hc|[<-|[]]]; [|congruence].
           exists c'. auto.
Qed.

Lemma set_nth_length i x l : List.length (set_nth i x l) = List.length l.
Proof. revert i. induction l; destruct i; cbn; auto. Qed.
Lemma set_nth_same i x l : i < List.length l -> nth_error (set_nth i x l) i = Some x.
Proof. revert i. induction l; destruct i; cbn; intros; try lia; auto. apply IHl. lia. Qed.
Lemma set_nth_other i j x l : i <> j -> nth_error (set_nth i x l) j = nth_error l j.
Proof. revert i j. induction l; destruct i, j; cbn; intros; auto; try congruence. Qed.
Lemma remove_one_perm x l : In x l -> Permutation l (x :: remove_one x l).
Proof.
  induction l as [|a l IH]; cbn; intros []; [subst; rewrite Nat.eqb_refl; auto|].
  destruct (a =? x) eqn:E; [apply Nat.eqb_eq in E; subst; auto|].
  rewrite (IH H) at 1. constructor.
Qed.
Lemma set_nth_perm i x old l : nth_error l i = Some old -> Permutation (old :: set_nth i x l) (x :: l).
Proof.
  revert i. induction l as [|a l IH]; destruct i; cbn; try discriminate; intro H.
  - injection H as ->. constructor.
  - specialize (IH i H). rewrite perm_swap, IH. constructor.
Qed.
Lemma replace_perm o i new : Permutation (o_edges o) (o_in o) ->
  Permutation (o_edges (replace_operator_input o i new)) (o_in (replace_operator_input o i new)).
Proof.
  intro P. unfold replace_operator_input. destruct (nth_error (o_in o) i) as [old|] eqn:E; auto. cbn [o_in o_edges].
  assert (In old (o_edges o)) as Hi by (apply (Permutation_in _ (Permutation_sym P)); eapply nth_error_In; eauto).
  apply (Permutation_cons_inv (a := old)). rewrite (set_nth_perm i new old _ E), <- P.
  rewrite (remove_one_perm old _ Hi) at 2. rewrite <- Permutation_cons_append. apply perm_swap.
Qed.

(** effect of the actions on one operand *)
Lemma apply_actions_spec (acts : list (nat * nat * nat)) : forall ops o i n,
  nth_error (o_in (ops o)) i = Some n ->
  exists n', nth_error (o_in (fold_left apply_action acts ops o)) i = Some n' /\
    ((n' = n /\ forall x, ~ In (o, i, x) acts) \/ In (o, i, n') acts).
Proof.
  induction acts as [|((o1, i1), x1) acts IH]; intros ops o i n H; cbn [fold_left].
  - exists n. split; auto.
  - set (ops1 := apply_action ops (o1, i1, x1)).
    assert (L : exists n1, nth_error (o_in (ops1 o)) i = Some n1 /\
              ((o1, i1) = (o, i) /\ n1 = x1 \/ (o1, i1) <> (o, i) /\ n1 = n)).
    { unfold ops1, apply_action. destruct (Nat.eq_dec o o1) as [->|D].
      - rewrite upd_same. unfold replace_operator_input. destruct (Nat.eq_dec i i1) as [->|Di].
        + rewrite H. cbn. exists x1. split; [apply set_nth_same, nth_error_Some; congruence|]. auto.
        + exists n. split; [|right; split; congruence]. destruct (nth_error (o_in (ops o1)) i1); auto.
          cbn. rewrite set_nth_other by congruence. auto.
      - rewrite upd_other by auto. exists n. split; auto. right. split; congruence. }
    destruct L as (n1 & L1 & L2). destruct (IH ops1 o i n1 L1) as (n' & A & B). exists n'. split; auto.
    destruct B as [(-> & B)|B]; [|right; now right].
    destruct L2 as [(L & ->)|(L & ->)].
    + right. left. congruence.
    + left. split; auto. intros x [Hx|Hx]; [|now apply (B x)]. apply L. congruence.
Qed.
Lemma apply_actions_len (acts : list (nat * nat * nat)) : forall ops o,
  List.length (o_in (fold_left apply_action acts ops o)) = List.length (o_in (ops o)).
Proof.
  induction acts as [|((o1, i1), x1) acts IH]; intros; cbn [fold_left]; auto. rewrite IH. unfold apply_action.
  destruct (Nat.eq_dec o o1) as [->|D]; [rewrite upd_same|now rewrite upd_other].
  unfold replace_operator_input. destruct (nth_error (o_in (ops o1)) i1); auto. apply set_nth_length.
Qed.
Lemma apply_actions_perm (acts : list (nat * nat * nat)) : forall ops,
  (forall o, Permutation (o_edges (ops o)) (o_in (ops o))) ->
  forall o, Permutation (o_edges (fold_left apply_action acts ops o)) (o_in (fold_left apply_action acts ops o)).
Proof.
  induction acts as [|((o1, i1), x1) acts IH]; intros ops H o; cbn [fold_left]; auto. apply IH. intro o'.
  unfold apply_action. destruct (Nat.eq_dec o' o1) as [->|D]; [rewrite upd_same|now rewrite upd_other].
  now apply replace_perm.
Qed.

Lemma rep_info info consts c : info (rep info consts c) = info c.
Proof.
  unfold rep. destruct (find (same_key info c) consts) eqn:E; auto. apply find_some in E as (_ & E).
  now apply key_eqb_eq.
Qed.
Theorem group_tensors_ok info targets consts ops ops' : NoDup consts ->
  group_tensors info targets consts ops = Some ops' ->
  (forall o, List.length (o_in (ops' o)) = List.length (o_in (ops o))) /\
  (forall o i n, nth_error (o_in (ops o)) i = Some n -> exists n',
     nth_error (o_in (ops' o)) i = Some n' /\ info n' = info n /\ (~ In n consts -> n' = n) /\
     (In n consts -> In o (targets n) -> n' = rep info consts n)) /\
  ((forall o, Permutation (o_edges (ops o)) (o_in (ops o))) ->
   forall o, Permutation (o_edges (ops' o)) (o_in (ops' o))).
Proof.
  intros ND E. unfold group_tensors in E. destruct (group_loop info targets ops consts [] []) as [acts|] eqn:Eg; [|discriminate].
  injection E as <-.
  assert (S := group_loop_spec info targets ops consts ND consts [] [] [] acts eq_refl (fun _ => eq_refl)).
  assert (S' := fun H => S H Eg). clear S.
  assert (S : forall o i x, In (o, i, x) acts <-> exists c, In c consts /\ x = rep info consts c /\ x <> c /\
             In o (targets c) /\ nth_error (o_in (ops o)) i = Some c).
  { apply S'. intros o i x. split; [intros []|intros (c & [] & _)]. }
  clear S'. split; [|split].
  - intro o. apply apply_actions_len.
  - intros o i n H. destruct (apply_actions_spec acts ops o i n H) as (n' & A & B). exists n'. split; auto.
    destruct B as [(-> & B)|B].
    + repeat split; auto. intros Hc Ho. destruct (Nat.eq_dec (rep info consts n) n) as [|D]; auto.
      exfalso. apply (B (rep info consts n)). apply S. exists n. auto.
    + apply S in B as (c & Hc & -> & Hn & Ho & Hi). rewrite H in Hi. injection Hi as <-.
      rewrite rep_info. repeat split; auto. tauto.
  - intro P. now apply apply_actions_perm.
Qed.
Theorem group_tensors_total info targets consts ops :
  (forall c, In c consts -> k_buf (info c) <> None) -> exists ops', group_tensors info targets consts ops = Some ops'.
Proof.
  intro H. unfold group_tensors.
  assert (G : forall consts tmap acts, (forall c, In c consts -> k_buf (info c) <> None) ->
            exists r, group_loop info targets ops consts tmap acts = Some r).
  { clear. induction consts as [|c cs IH]; intros tmap acts H; cbn [group_loop]; [eauto|].
    specialize (H c (or_introl eq_refl)) as Hc. destruct (k_buf (info c)); [|congruence].
    assert (Hn : forall c, In c cs -> k_buf (info c) <> None) by (intros; apply H; now right).
    destruct (find _ tmap); apply IH; auto. }
  destruct (G consts [] [] H) as (r & ->). eauto.
Qed.
