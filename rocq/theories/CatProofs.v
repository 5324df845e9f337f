(** Proofs about splitting wide concatenations (RewriteModel.v). *)
From Coq Require Import List Arith Bool Lia.
From Verif Require Import Tensor CatSpec RewriteModel.
Import ListNotations.

(** Running the emitted operators in order, on the operands [ts] of the original one.
    [d] is an arbitrary element for references out of range (excluded by [ops_ok]). *)
Definition deref {A} (d : A) (ts vals : list (tensor A)) (r : cref) : tensor A :=
  match r with
  | CIn i => nth i ts (mkT [] (fun _ => d))
  | COut k => nth k vals (mkT [] (fun _ => d))
  end.
Definition run_cats {A} (d : A) (ax : nat) (ts : list (tensor A)) (ops : list cop) : list (tensor A) :=
  fold_left (fun vals op => vals ++ [concatenation d ax (map (deref d ts vals) (fst op))]) ops [].
(** every operand is an original operand or the output of an earlier operator *)
Definition ref_ok (n j : nat) (r : cref) : Prop := match r with CIn i => i < n | COut k => k < j end.
Definition ops_ok (n : nat) (ops : list cop) : Prop :=
  forall j op, nth_error ops j = Some op -> 1 <= length (fst op) <= 10 /\ Forall (ref_ok n j) (fst op).

Lemma run_cats_snoc {A} (d : A) ax ts ops op :
  run_cats d ax ts (ops ++ [op]) =
  run_cats d ax ts ops ++ [concatenation d ax (map (deref d ts (run_cats d ax ts ops)) (fst op))].
Proof. unfold run_cats. now rewrite fold_left_app. Qed.
Lemma run_cats_length {A} (d : A) ax ts ops : length (run_cats d ax ts ops) = length ops.
Proof.
  induction ops as [|op ops IH] using rev_ind; [reflexivity|]. rewrite run_cats_snoc, !app_length, IH. reflexivity.
Qed.

Lemma upd_valid_gen sh sh' idx ax i : valid sh idx -> upd sh' ax 0 = upd sh ax 0 -> i < nth ax sh' 0 -> ax < length sh ->
  valid sh' (upd idx ax i).
Proof.
  intro V. revert sh' ax. induction V as [|x y idx sh Hx V IH]; intros sh' ax E Hi Hax; [simpl in Hax; lia|].
  destruct sh' as [|z sh']; [destruct ax; discriminate|]. destruct ax as [|ax]; simpl in *.
  - injection E as E. subst. constructor; auto.
  - injection E as -> E. constructor; auto. apply IH; auto. lia.
Qed.

(** the operands may be replaced by equal ones *)
Lemma concatenation_teq {A} (d : A) ax sh l l' : ax < length sh ->
  Forall (fun t => upd (tshape t) ax 0 = upd sh ax 0) l ->
  Forall2 teq l l' -> teq (concatenation d ax l) (concatenation d ax l').
Proof.
  intros Hax Hc H.
  assert (sizes_sum ax l = sizes_sum ax l') as Hs.
  { clear Hc. induction H; [reflexivity|]. unfold sizes_sum, axis_size in *. simpl. rewrite IHForall2. now destruct H as [-> _]. }
  split.
  - unfold concatenation. cbn [tshape]. rewrite Hs. destruct H as [|t t' l l' Ht H]; [reflexivity|]. destruct Ht as [-> _]. reflexivity.
  - intros idx V. unfold concatenation. cbn [tget].
    destruct l as [|t0 l0]; [inversion H; reflexivity|].
    assert (valid (upd sh ax (sizes_sum ax (t0 :: l0))) idx) as V'.
    { unfold concatenation in V. cbn [tshape] in V. inversion Hc; subst. erewrite upd_eq_any in V by eassumption. exact V. }
    clear V. revert V'. generalize (sizes_sum ax (t0 :: l0)). clear Hs. generalize dependent (t0 :: l0). clear t0 l0.
    intros l Hc H m V. generalize (nth ax idx 0). induction H as [|t t' l l' Ht H IH]; intro i; [reflexivity|].
    cbn [cat_at]. inversion Hc; subst. destruct Ht as [Es Eg]. unfold axis_size. rewrite <- Es.
    destruct (Nat.ltb_spec i (nth ax (tshape t) 0)) as [L|L].
    + apply Eg. eapply upd_valid_gen; [exact V| |auto|rewrite upd_length; auto]. now rewrite upd_upd.
    + apply IH. auto.
Qed.

Lemma cat_at_cons_single {A} (d : A) ax t idx : valid (tshape t) idx -> ax < length (tshape t) ->
  cat_at d ax [t] idx (nth ax idx 0) = tget t idx.
Proof.
  intros V Hax. cbn [cat_at]. unfold axis_size. pose proof (valid_nth _ _ ax V Hax) as L.
  rewrite (proj2 (Nat.ltb_lt _ _) L). rewrite upd_same; auto. now rewrite (valid_length _ _ V).
Qed.

Lemma Forall2_firstn {A B} (P : A -> B -> Prop) n l m : Forall2 P l m -> Forall2 P (firstn n l) (firstn n m).
Proof. intro H. revert n. induction H; intros [|n]; simpl; auto. Qed.
Lemma Forall2_skipn {A B} (P : A -> B -> Prop) n l m : Forall2 P l m -> Forall2 P (skipn n l) (skipn n m).
Proof. intro H. revert n. induction H; intros [|n]; simpl; auto. Qed.

Section Loop.
  Context {A : Type} (d : A) (ax : nat) (ts : list (tensor A)) (sh : list nat).
  Hypothesis Hax : ax < length sh.
  Let fits (t : tensor A) := upd (tshape t) ax 0 = upd sh ax 0.

  (** reference [r] holds the concatenation of the original operands [c] *)
  Definition repr (vals : list (tensor A)) (r : cref) (c : list (tensor A)) : Prop :=
    ref_ok (length ts) (length vals) r /\ c <> [] /\ Forall fits c /\ teq (deref d ts vals r) (concatenation d ax c).

  Lemma fits_concatenation c : c <> [] -> Forall fits c -> fits (concatenation d ax c).
  Proof. destruct c as [|t c]; [congruence|]. intros _ H. inversion H; subst. unfold fits, concatenation. cbn [tshape]. now rewrite upd_upd. Qed.

  Lemma repr_fits vals r c : repr vals r c -> fits (deref d ts vals r).
  Proof.
    intros (_ & Hn & Hf & [E _]). unfold fits. rewrite E. now apply fits_concatenation.
  Qed.

  Lemma repr_snoc vals v r c : repr vals r c -> repr (vals ++ [v]) r c.
  Proof.
    intros (Hr & Hn & Hf & E). split; [|split; [auto|split; [auto|]]].
    - destruct r; simpl in *; auto. rewrite app_length. simpl. lia.
    - destruct r; simpl in *; auto. now rewrite app_nth1.
  Qed.

  Lemma teq_trans' (t u v : tensor A) : teq t u -> teq u v -> teq t v.
  Proof. intros [E1 H1] [E2 H2]. split; [congruence|]. intros idx V. rewrite H1 by auto. apply H2. now rewrite <- E1. Qed.

  Lemma repr_step vals rs cs : rs <> [] -> Forall2 (repr vals) rs cs ->
    repr (vals ++ [concatenation d ax (map (deref d ts vals) rs)]) (COut (length vals)) (concat cs).
  Proof.
    intros Hrs H.
    assert (Forall (fun c => c <> []) cs) as Hne by (clear Hrs; induction H; constructor; auto; apply H).
    assert (Forall fits (concat cs)) as Hfit.
    { clear Hrs Hne. induction H; simpl; [constructor|]. apply Forall_app. split; auto. apply H. }
    assert (cs <> []) as Hcs by (intros ->; inversion H; congruence).
    split; [simpl; rewrite app_length; simpl; lia|]. split.
    { destruct cs as [|c cs]; [congruence|]. inversion Hne; subst. simpl. destruct c; [congruence|discriminate]. }
    split; [auto|]. cbn [deref]. rewrite app_nth2, Nat.sub_diag by lia. cbn [nth].
    apply teq_trans' with (concatenation d ax (map (concatenation d ax) cs)).
    - apply concatenation_teq with (sh := sh); auto.
      + apply Forall_map, Forall_forall. intros r Hr. clear Hrs.
        induction H; [destruct Hr|]. destruct Hr as [<-|Hr]; [eapply repr_fits; eauto|].
        apply IHForall2; auto; [now inversion Hne| |]. 
        * simpl in Hfit. apply Forall_app in Hfit. tauto.
        * intros ->. inversion H0; subst. destruct Hr.
      + clear -H. induction H; simpl; constructor; auto. apply H.
    - apply concatenation_flat; auto. exists sh. split; auto.
  Qed.

  Lemma cat_layer_spec : forall fuel inputs ops outs so si,
    length inputs <= fuel -> ops_ok (length ts) ops ->
    Forall2 (repr (run_cats d ax ts ops)) outs so -> Forall2 (repr (run_cats d ax ts ops)) inputs si ->
    exists new outs' s',
      cat_layer fuel false ops inputs outs = Some (ops ++ new, outs') /\ ops_ok (length ts) (ops ++ new) /\
      Forall (fun op => snd op = false) new /\
      Forall2 (repr (run_cats d ax ts (ops ++ new))) outs' s' /\ concat s' = concat so ++ concat si /\
      length outs' = length outs + (length inputs + 9) / 10.
  Proof.
    induction fuel as [|fuel IH]; intros inputs ops outs so si Hl Hok Ho Hi.
    - destruct inputs; [|simpl in Hl; lia]. inversion Hi; subst. exists [], outs, so. cbn [concat length]. rewrite !app_nil_r.
      split; [reflexivity|]. do 4 (split; [auto|]). cbn. lia.
    - destruct inputs as [|r0 inputs0] eqn:E.
      + inversion Hi; subst. exists [], outs, so. cbn [concat length]. rewrite !app_nil_r.
        split; [reflexivity|]. do 4 (split; [auto|]). cbn. lia.
      + rewrite <- E in *. assert (inputs <> []) as Hne by (rewrite E; discriminate).
        assert (cat_layer (S fuel) false ops inputs outs =
                cat_layer fuel false (ops ++ [(firstn 10 inputs, false)]) (skipn 10 inputs) (outs ++ [COut (length ops)])) as ->
          by (rewrite E; reflexivity).
        clear E r0 inputs0.
        set (op := (firstn 10 inputs, false)).
        set (v := concatenation d ax (map (deref d ts (run_cats d ax ts ops)) (firstn 10 inputs))).
        assert (firstn 10 inputs <> []) as Hf by (destruct inputs; [congruence|discriminate]).
        pose proof (repr_step _ _ _ Hf (Forall2_firstn _ 10 _ _ Hi)) as Hnew.
        rewrite run_cats_length in Hnew. fold v in Hnew.
        assert (run_cats d ax ts (ops ++ [op]) = run_cats d ax ts ops ++ [v]) as Er by apply run_cats_snoc.
        destruct (IH (skipn 10 inputs) (ops ++ [op]) (outs ++ [COut (length ops)]) (so ++ [concat (firstn 10 si)]) (skipn 10 si))
          as (new & outs' & s' & E & Hok' & Hfl & Hr & Hc & Hlen).
        * rewrite skipn_length. destruct inputs; [congruence|]. simpl in *. lia.
        * intros j o Hj. destruct (Nat.lt_ge_cases j (length ops)) as [L|L].
          -- rewrite nth_error_app1 in Hj by auto. exact (Hok _ _ Hj).
          -- rewrite nth_error_app2 in Hj by auto. destruct (j - length ops) as [|k] eqn:Ek; [|destruct k; discriminate].
             injection Hj as <-. replace j with (length ops) by lia. unfold op. cbn [fst]. split.
             ++ split; [destruct (firstn 10 inputs); [congruence|simpl; lia]|apply firstn_le_length].
             ++ apply Forall_forall. intros r Hin. assert (In r inputs) as Hin' by (rewrite <- (firstn_skipn 10 inputs); apply in_or_app; now left).
                clear -Hi Hin'. rewrite <- (run_cats_length d ax ts ops). induction Hi; [destruct Hin'|].
                destruct Hin' as [<-|Hin']; auto. apply H.
        * rewrite Er. apply Forall2_app; [|constructor; auto].
          clearbody v. clear -Ho Hax. induction Ho; constructor; [now apply repr_snoc|auto].
        * rewrite Er. apply Forall2_skipn. clearbody v. clear -Hi Hax. induction Hi; constructor; [now apply repr_snoc|auto].
        * exists (op :: new), outs', s'. rewrite <- app_assoc in *. cbn [app] in E, Hok', Hr.
          do 2 (split; [auto|]). split; [constructor; auto|]. split; [auto|]. split.
          -- rewrite Hc, concat_app. cbn [concat]. rewrite app_nil_r, <- app_assoc. f_equal. rewrite <- concat_app. now rewrite firstn_skipn.
          -- rewrite Hlen, app_length, skipn_length. simpl length.
             destruct (Nat.le_gt_cases (length inputs) 10) as [L|L].
             ++ replace (length inputs - 10) with 0 by lia. 
                assert (0 < length inputs) by (destruct inputs; [congruence|simpl; lia]).
                replace ((length inputs + 9) / 10) with 1; [change ((0 + 9) / 10) with 0; lia|].
                apply Nat.div_unique with (length inputs - 1); lia.
             ++ replace (length inputs + 9) with ((length inputs - 10 + 9) + 1 * 10) by lia.
                rewrite Nat.div_add by lia. lia.
  Qed.

  Lemma cat_loop_last fuel ops inputs si : 1 <= fuel -> 1 <= length inputs <= 10 -> ops_ok (length ts) ops ->
    Forall (fun op => snd op = false) ops -> Forall2 (repr (run_cats d ax ts ops)) inputs si -> concat si = ts ->
    exists op, cat_loop fuel true ops inputs = Some (ops ++ [(op, true)]) /\ ops_ok (length ts) (ops ++ [(op, true)]) /\
      teq (last (run_cats d ax ts (ops ++ [(op, true)])) (mkT [] (fun _ => d))) (concatenation d ax ts).
  Proof.
    intros Hf Hl Hok Hfl Hi Hc. destruct fuel as [|fuel]; [lia|]. exists inputs.
    assert (firstn 10 inputs = inputs) as Ef by (apply firstn_all2; lia).
    assert (skipn 10 inputs = []) as Es by (apply skipn_all2; lia).
    assert (inputs <> []) as Hne by (intros ->; simpl in Hl; lia).
    split; [|split].
    - cbn [cat_loop]. assert (cat_layer (length inputs) true ops inputs [] = Some (ops ++ [(inputs, true)], [])) as ->; [|reflexivity].
      assert (exists m, length inputs = S m) as [m ->] by (exists (length inputs - 1); lia).
      destruct inputs; [congruence|]. cbn [cat_layer]. rewrite Ef, Es. destruct m; reflexivity.
    - intros j o Hj. destruct (Nat.lt_ge_cases j (length ops)) as [L|L].
      + rewrite nth_error_app1 in Hj by auto. exact (Hok _ _ Hj).
      + rewrite nth_error_app2 in Hj by auto. destruct (j - length ops) as [|k] eqn:Ek; [|destruct k; discriminate].
        injection Hj as <-. replace j with (length ops) by lia. cbn [fst]. split; [lia|].
        apply Forall_forall. intros r Hin. 
        clear -Hi Hin. rewrite <- (run_cats_length d ax ts ops). induction Hi; [destruct Hin|].
        destruct Hin as [<-|Hin]; auto. apply H.
    - rewrite run_cats_snoc, last_last. pose proof (repr_step _ _ _ Hne Hi) as (_ & _ & _ & E).
      cbn [deref] in E. rewrite app_nth2, Nat.sub_diag in E by lia. cbn [nth] in E. now rewrite Hc in E.
  Qed.

  Lemma cat_loop_spec : forall fuel ops inputs si, length inputs <= fuel -> 10 < length inputs -> ops_ok (length ts) ops ->
    Forall (fun op => snd op = false) ops -> Forall2 (repr (run_cats d ax ts ops)) inputs si -> concat si = ts ->
    exists ops' op, cat_loop fuel false ops inputs = Some (ops' ++ [(op, true)]) /\
      Forall (fun op => snd op = false) ops' /\ ops_ok (length ts) (ops' ++ [(op, true)]) /\
      teq (last (run_cats d ax ts (ops' ++ [(op, true)])) (mkT [] (fun _ => d))) (concatenation d ax ts).
  Proof.
    induction fuel as [|fuel IH]; intros ops inputs si Hf Hl Hok Hfl Hi Hc; [lia|].
    destruct (cat_layer_spec (length inputs) inputs ops [] [] si (le_n _) Hok (Forall2_nil _) Hi)
      as (new & outs & s' & E & Hok' & Hfl' & Hr & Hc' & Hlen).
    cbn [cat_loop]. rewrite E. cbn [length] in Hlen.
    assert (length outs < length inputs /\ 2 <= length outs) as [B1 B2].
    { rewrite Hlen. split.
      - rewrite Nat.add_0_l. apply Nat.div_lt_upper_bound; lia.
      - rewrite Nat.add_0_l. apply Nat.div_le_lower_bound; lia. }
    assert (Forall (fun op => snd op = false) (ops ++ new)) as Hfl2 by (apply Forall_app; auto).
    rewrite (proj2 (Nat.eqb_neq _ _)) by lia. cbn [orb]. destruct (Nat.leb_spec (length outs) 10) as [L|L].
    - destruct (cat_loop_last fuel (ops ++ new) outs s') as (op & E2 & Ho2 & T); auto; try lia.
      { rewrite Hc'. simpl. auto. }
      exists (ops ++ new), op. auto.
    - apply (IH (ops ++ new) outs s'); auto; try lia. rewrite Hc'. simpl. auto.
  Qed.
End Loop.

Lemma cat_split_correct {A} (d : A) ax (ts : list (tensor A)) : 10 < length ts -> cat_compat ax ts ->
  exists ops op, cat_split (length ts) = Some (ops ++ [(op, true)]) /\ Forall (fun o => snd o = false) ops /\
    ops_ok (length ts) (ops ++ [(op, true)]) /\
    teq (last (run_cats d ax ts (ops ++ [(op, true)])) (mkT [] (fun _ => d))) (concatenation d ax ts).
Proof.
  intros Hn (sh & Hax & Hc). unfold cat_split, is_large_cat_node. rewrite map_length, seq_length.
  rewrite (proj2 (Nat.ltb_lt _ _) Hn).
  apply cat_loop_spec with (sh := sh) (si := map (fun t => [t]) ts); auto.
  - rewrite map_length, seq_length. auto.
  - now rewrite map_length, seq_length.
  - intros j op H. destruct j; discriminate.
  - assert (forall k l, k + length l = length ts -> (forall i, i < length l -> nth (k + i) ts (mkT [] (fun _ => d)) = nth i l (mkT [] (fun _ => d))) ->
      Forall2 (repr d ax ts sh (run_cats d ax ts [])) (map CIn (seq k (length l))) (map (fun t => [t]) l)) as H.
    { intros k l. revert k. induction l as [|t l IH]; intros k Hk Hnth; [constructor|]. cbn [length seq map].
      assert (nth k ts (mkT [] (fun _ => d)) = t) as Et.
      { specialize (Hnth 0 ltac:(simpl; lia)). now rewrite Nat.add_0_r in Hnth. }
      constructor.
      - assert (upd (tshape t) ax 0 = upd sh ax 0) as Hft.
        { rewrite Forall_forall in Hc. apply Hc. rewrite <- Et. apply nth_In. simpl in Hk. lia. }
        split; [simpl in *; lia|]. split; [discriminate|]. split; [auto|]. cbn [deref]. rewrite Et.
        assert (ax < length (tshape t)) as Hat by (apply upd_len_eq in Hft; lia).
        split.
        + unfold concatenation, sizes_sum, axis_size. cbn. rewrite Nat.add_0_r. symmetry. now apply upd_same.
        + intros idx V. symmetry. now apply cat_at_cons_single.
      - apply IH; [simpl in Hk; lia|]. intros i Hi. specialize (Hnth (S i) ltac:(simpl; lia)). cbn [nth] in Hnth.
        rewrite <- Hnth. f_equal. lia. }
    apply (H 0 ts); auto.
  - clear. induction ts; simpl; congruence.
Qed.
