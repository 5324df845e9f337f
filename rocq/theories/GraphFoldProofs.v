(** Boundary folding ([fuse_quant_dequant_nodes]) and requantize splitting ([split_requantize]). *)
From Coq Require Import List Arith Bool ZArith Lia Permutation.
From Verif Require Import GraphModel GraphProofs GraphTableProofs.
Import ListNotations.
Local Open Scope nat_scope.

(** Specification side. *)
Definition producer (vs : nat -> vtx) (u : nat) : Prop :=
  v_ty (vs u) = t_input \/ v_ty (vs u) = t_const \/ v_op (vs u) <> None.
Definition consumer (vs : nat -> vtx) (w : nat) : Prop :=
  v_ty (vs w) = t_output \/ v_op (vs w) <> None.

Definition bnd_in (vs : nat -> vtx) (e : nat * nat) : Prop :=
  v_ty (vs (fst e)) = t_input /\ v_ty (vs (snd e)) = t_quantize /\
  exists n os o, v_outs (vs (fst e)) = n :: os /\ v_op (vs (snd e)) = Some (n, o).
Definition bnd_out (vs : nat -> vtx) (e : nat * nat) : Prop :=
  v_ty (vs (fst e)) = t_dequantize /\ v_ty (vs (snd e)) = t_output.
Lemma qdq_edge_spec vs e : qdq_edge vs e = true <-> bnd_in vs e \/ bnd_out vs e.
Proof.
  unfold qdq_edge, bnd_in, bnd_out. rewrite orb_true_iff, !andb_true_iff, !Z.eqb_eq. split.
  - intros [((H1 & H2) & H3)|H]; auto. left. repeat split; auto.
    destruct (v_outs (vs (fst e))) as [|n os]; [discriminate|]. destruct (v_op (vs (snd e))) as [(i, o)|]; [|discriminate].
    apply Nat.eqb_eq in H3. subst. eauto.
  - intros [(H1 & H2 & n & os & o & H3 & H4)|H]; auto. left. repeat split; auto. now rewrite H3, H4, Nat.eqb_refl.
Qed.

(** Folding decision of a source vertex. *)
Definition sel (vs : nat -> vtx) (inputs outputs : list nat) (fin fout : option (list nat)) (p : nat) : Prop :=
  (v_ty (vs p) = t_input /\ exists n os, v_outs (vs p) = n :: os /\ skip_fuse inputs fin n = Some false) \/
  (v_ty (vs p) = t_dequantize /\ exists i o, v_op (vs p) = Some (i, o) /\ skip_fuse outputs fout o = Some false).

Record finv (vs : nat -> vtx) (inputs outputs : list nat) (fin fout : option (list nat)) (dn : list (nat * nat))
    (st : qdq_state) : Prop := {
  f_vs : forall x, q_vs st x = vs x \/
      (exists e, In e dn /\ bnd_in vs e /\ x = snd e /\ sel vs inputs outputs fin fout (fst e) /\
         v_ty (q_vs st x) = t_input /\ v_op (q_vs st x) = None) \/
      (exists e, In e dn /\ bnd_out vs e /\ x = fst e /\ sel vs inputs outputs fin fout x /\
         v_ty (q_vs st x) = t_output /\ v_op (q_vs st x) = None);
  f_rm : forall x, In x (q_rm st) ->
      (v_ty (vs x) = t_input /\ sel vs inputs outputs fin fout x /\ exists e, In e dn /\ bnd_in vs e /\ x = fst e) \/
      v_ty (vs x) = t_output;
  f_in : forall e, In e dn -> bnd_in vs e -> sel vs inputs outputs fin fout (fst e) ->
      v_ty (q_vs st (snd e)) = t_input /\ v_op (q_vs st (snd e)) = None;
  f_out : forall e, In e dn -> bnd_out vs e -> sel vs inputs outputs fin fout (fst e) ->
      In (snd e) (q_rm st) /\ v_op (q_vs st (fst e)) = None }.

Lemma ty_facts : t_input <> t_quantize /\ t_input <> t_dequantize /\ t_input <> t_output /\
  t_quantize <> t_dequantize /\ t_quantize <> t_output /\ t_dequantize <> t_output /\
  t_const <> t_quantize /\ t_const <> t_dequantize.
Proof. repeat split; discriminate. Qed.

Lemma finv_skip vs inputs outputs fin fout dn st e :
  (bnd_in vs e \/ bnd_out vs e) -> ~ sel vs inputs outputs fin fout (fst e) ->
  finv vs inputs outputs fin fout dn st -> finv vs inputs outputs fin fout (dn ++ [e]) st.
Proof.
  intros B N [F1 F2 F3 F4]. split.
  - intro x. destruct (F1 x) as [H|[(e' & H & R)|(e' & H & R)]]; auto.
    + right. left. exists e'. split; auto. apply in_or_app. auto.
    + right. right. exists e'. split; auto. apply in_or_app. auto.
  - intros x H. destruct (F2 x H) as [(H1 & H2 & e' & H3 & R)|]; auto. left. repeat split; auto.
    exists e'. split; auto. apply in_or_app. auto.
  - intros e' H. apply in_app_iff in H as [H|[<-|[]]]; auto. intros; contradiction.
  - intros e' H. apply in_app_iff in H as [H|[<-|[]]]; auto. intros; contradiction.
Qed.

Lemma qdq_step_ok vs inputs outputs fin fout dn st e st' :
  (bnd_in vs e \/ bnd_out vs e) ->
  (forall x, v_ty (vs x) = t_dequantize -> v_op (vs x) <> None) ->
  finv vs inputs outputs fin fout dn st -> qdq_step inputs outputs fin fout st e = Some st' ->
  finv vs inputs outputs fin fout (dn ++ [e]) st'.
Proof.
  intros B Hd I E. pose proof I as [F1 F2 F3 F4]. destruct ty_facts as (T1 & T2 & T3 & T4 & T5 & T6 & T7 & T8).
  unfold qdq_step in E. destruct B as [B|B].
  - pose proof B as (B1 & B2 & n & os & o & B3 & B4).
    assert (Ep : q_vs st (fst e) = vs (fst e)).
    { destruct (F1 (fst e)) as [|[(e' & _ & (_ & Q & _) & Hx & _)|(e' & _ & (Q & _) & Hx & _)]]; auto;
        rewrite <- Hx in Q; congruence. }
    rewrite Ep, B1, Z.eqb_refl, B3 in E.
    destruct (skip_fuse inputs fin n) as [[]|] eqn:Es; [| |discriminate].
    + injection E as <-. apply finv_skip; auto. intros [(_ & n' & os' & H1 & H2)|(H1 & _)]; congruence.
    + assert (S : sel vs inputs outputs fin fout (fst e)) by (left; split; auto; exists n, os; auto).
      injection E as <-. split; cbn [q_vs q_rm q_in q_out].
      * intro x. destruct (Nat.eq_dec x (snd e)) as [->|D].
        -- right. left. exists e. rewrite upd_same. split; [apply in_or_app; cbn; auto|]. split; [exact B|]. split; auto.
        -- rewrite upd_other by auto. destruct (F1 x) as [H|[(e' & H & R)|(e' & H & R)]]; auto.
           ++ right. left. exists e'. split; auto. apply in_or_app. auto.
           ++ right. right. exists e'. split; auto. apply in_or_app. auto.
      * intros x H. apply in_app_iff in H as [H|[<-|[]]].
        -- destruct (F2 x H) as [(H1 & H2 & e' & H3 & R)|]; auto. left. repeat split; auto.
           exists e'. split; auto. apply in_or_app. auto.
        -- left. split; auto. split; auto. exists e. split; [apply in_or_app; cbn; auto|]. auto.
      * intros e' H B' S'. destruct (Nat.eq_dec (snd e') (snd e)) as [Q|D].
        -- rewrite Q, upd_same. auto.
        -- rewrite upd_other by auto. apply in_app_iff in H as [H|[<-|[]]]; [|congruence]. auto.
      * intros e' H B' S'. apply in_app_iff in H as [H|[<-|[]]].
        -- destruct (F4 e' H B' S') as (G1 & G2). split; [apply in_or_app; auto|].
           rewrite upd_other; auto. intros Q. destruct B' as (B' & _). congruence.
        -- destruct B' as (B' & _). congruence.
  - pose proof B as (B1 & B2).
    assert (En : q_vs st (snd e) = vs (snd e)).
    { destruct (F1 (snd e)) as [|[(e' & _ & (_ & Q & _) & Hx & _)|(e' & _ & (Q & _) & Hx & _)]]; auto;
        rewrite <- Hx in Q; congruence. }
    destruct (F1 (fst e)) as [Ep|[(e' & _ & (_ & Q & _) & Hx & _)|(e' & He' & Be' & Hx & S & Q1 & Q2)]].
    + rewrite Ep, En, B1 in E. cbn [t_dequantize t_input Z.eqb] in E.
      destruct (v_op (vs (fst e))) as [(i, o)|] eqn:Eo; [|exfalso; apply (Hd (fst e)); auto].
      destruct (skip_fuse outputs fout o) as [[]|] eqn:Es; [| |discriminate].
      * injection E as <-. apply finv_skip; auto. intros [(H1 & _)|(_ & i' & o' & H1 & H2)]; congruence.
      * assert (S : sel vs inputs outputs fin fout (fst e)) by (right; split; auto; exists i, o; auto).
        injection E as <-. split; cbn [q_vs q_rm q_in q_out].
        -- intro x. destruct (Nat.eq_dec x (fst e)) as [->|D].
           ++ right. right. exists e. rewrite upd_same. split; [apply in_or_app; cbn; auto|]. split; [exact B|]. split; auto.
           ++ rewrite upd_other by auto. destruct (F1 x) as [H|[(e' & H & R)|(e' & H & R)]]; auto.
              ** right. left. exists e'. split; auto. apply in_or_app. auto.
              ** right. right. exists e'. split; auto. apply in_or_app. auto.
        -- intros x H. apply in_app_iff in H as [H|[<-|[]]]; auto.
           destruct (F2 x H) as [(H1 & H2 & e' & H3 & R)|]; auto. left. repeat split; auto.
           exists e'. split; auto. apply in_or_app. auto.
        -- intros e' H B' S'. apply in_app_iff in H as [H|[<-|[]]].
           ++ rewrite upd_other; auto. intros Q. destruct B' as (_ & B' & _). congruence.
           ++ destruct B' as (B' & _). congruence.
        -- intros e' H B' S'. split.
           ++ apply in_or_app. apply in_app_iff in H as [H|[<-|[]]]; [|cbn; auto]. left. now apply (F4 e').
           ++ destruct (Nat.eq_dec (fst e') (fst e)) as [Q|D].
              ** rewrite Q, upd_same. auto.
              ** rewrite upd_other by auto. apply in_app_iff in H as [H|[<-|[]]]; [|congruence]. now apply (F4 e').
    + rewrite <- Hx in Q. congruence.
    + rewrite Q1 in E. cbn [t_output t_input Z.eqb Pos.eqb] in E. rewrite Q2 in E. injection E as <-.
      split; cbn [q_vs q_rm q_in q_out].
      * intro x. destruct (F1 x) as [H|[(e1 & H & R)|(e1 & H & R)]]; auto.
        -- right. left. exists e1. split; auto. apply in_or_app. auto.
        -- right. right. exists e1. split; auto. apply in_or_app. auto.
      * intros x H. apply in_app_iff in H as [H|[<-|[]]]; auto.
        destruct (F2 x H) as [(H1 & H2 & e1 & H3 & R)|]; auto. left. repeat split; auto.
        exists e1. split; auto. apply in_or_app. auto.
      * intros e1 H B' S'. apply in_app_iff in H as [H|[<-|[]]]; auto. destruct B' as (B' & _). congruence.
      * intros e1 H B' S'. split.
        -- apply in_or_app. apply in_app_iff in H as [H|[<-|[]]]; [|cbn; auto]. left. now apply (F4 e1).
        -- apply in_app_iff in H as [H|[<-|[]]]; auto. now apply (F4 e1).
Qed.

Lemma qdq_loop_ok vs inputs outputs fin fout :
  (forall x, v_ty (vs x) = t_dequantize -> v_op (vs x) <> None) ->
  forall es dn st st', (forall e, In e es -> bnd_in vs e \/ bnd_out vs e) ->
  finv vs inputs outputs fin fout dn st -> qdq_loop inputs outputs fin fout es st = Some st' ->
  finv vs inputs outputs fin fout (dn ++ es) st'.
Proof.
  intros Hd. induction es as [|e es IH]; intros dn st st' B I H; cbn in H.
  - injection H as <-. now rewrite app_nil_r.
  - destruct (qdq_step inputs outputs fin fout st e) as [s|] eqn:E; [|discriminate].
    replace (dn ++ e :: es) with ((dn ++ [e]) ++ es) by now rewrite <- app_assoc.
    apply (IH (dn ++ [e]) s st'); auto.
    + intros e' H'. apply B. now right.
    + eapply qdq_step_ok; eauto. apply B. now left.
Qed.

(** Kept: when the boundary tensors have boundary consumers only, every consumer that is left
    keeps all its edges and their sources still produce. *)
Theorem fuse_qdq_ok inputs outputs fin fout vs edges vs' rm edges' ins' outs' :
  (forall x, v_ty (vs x) = t_dequantize -> v_op (vs x) <> None) ->
  (forall u w, In (u, w) edges -> v_ty (vs u) <> t_output) ->
  (forall e e', In e edges -> In e' edges -> fst e = fst e' -> qdq_edge vs e = true -> qdq_edge vs e' = true) ->
  fuse_quant_dequant inputs outputs fin fout vs edges = Some (vs', rm, edges', ins', outs') ->
  forall u w, In (u, w) edges -> producer vs u -> ~ In w rm -> consumer vs' w ->
    In (u, w) edges' /\ ~ In u rm /\ producer vs' u.
Proof.
  intros Hd Ho Hq E u w He Hp Hw Hc. unfold fuse_quant_dequant in E.
  match type of E with context [qdq_loop _ _ _ _ ?l ?s] => set (es := l) in E; set (st0 := s) in E end.
  destruct (qdq_loop inputs outputs fin fout es st0) as [st|] eqn:El; [|discriminate].
  injection E as <- <- <- _ _.
  assert (Bes : forall e, In e es -> bnd_in vs e \/ bnd_out vs e).
  { intros e H. apply qdq_edge_spec. unfold es in H. apply filter_In in H. tauto. }
  assert (I : finv vs inputs outputs fin fout es st).
  { change es with ([] ++ es). apply (qdq_loop_ok vs inputs outputs fin fout Hd es [] st0 st); auto.
    split; cbn; auto; try (intros; contradiction). }
  destruct I as [F1 F2 F3 F4]. destruct ty_facts as (T1 & T2 & T3 & T4 & T5 & T6 & T7 & T8).
  assert (Hu : ~ In u (q_rm st)).
  { intro H. destruct (F2 u H) as [(U1 & U2 & e & U3 & U4 & U5)|U]; [|now apply (Ho u w)].
    assert (Q : qdq_edge vs (u, w) = true).
    { apply (Hq e (u, w)); auto; [unfold es in U3; apply filter_In in U3; tauto|]. apply qdq_edge_spec. auto. }
    assert (In (u, w) es) as Hi by (apply filter_In; auto).
    apply qdq_edge_spec in Q as [Q|(Q & _)]; [|cbn in Q; congruence].
    destruct (F3 _ Hi Q U2) as (G1 & G2). cbn in G1, G2. destruct Hc as [Hc|Hc]; congruence. }
  assert (Hmem : forall x, ~ In x (q_rm st) -> negb (memb x (q_rm st)) = true)
    by (intros x Hx; apply negb_true_iff, memb_nIn; auto).
  split; [|split; auto].
  - apply filter_In. split; auto. cbn. now rewrite (Hmem u Hu), (Hmem w Hw).
  - destruct (F1 u) as [G|[(e & _ & _ & _ & _ & G & _)|(e & G1 & G2 & G3 & G4 & G5 & G6)]].
    + unfold producer. now rewrite G.
    + now left.
    + exfalso. assert (Q : qdq_edge vs (u, w) = true).
      { apply (Hq e (u, w)); auto; [unfold es in G1; apply filter_In in G1; tauto|]. apply qdq_edge_spec. auto. }
      assert (In (u, w) es) as Hi by (apply filter_In; auto).
      apply qdq_edge_spec in Q as [(Q & _)|Q]; [destruct G2 as (G2 & _); cbn in Q; congruence|].
      destruct (F4 _ Hi Q G4) as (G7 & _). cbn in G7. contradiction.
Qed.

(** * The boundary names and the selection *)

(** [n] is not excluded by a list of positions; the first position of a name counts *)
Definition chosen (names : list nat) (sel : option (list nat)) (n : nat) : Prop :=
  match sel with
  | None => True
  | Some s => exists k, nth_error names k = Some n /\ (forall j, j < k -> nth_error names j <> Some n) /\ In k s
  end.
Lemma index_of_spec n l : match index_of n l with
  | Some k => nth_error l k = Some n /\ forall j, j < k -> nth_error l j <> Some n
  | None => ~ In n l
  end.
Proof.
  induction l as [|y l IH]; cbn [index_of]; [cbn; auto|]. destruct (Nat.eqb_spec y n) as [->|D]; [split; [reflexivity|intros; lia]|].
  destruct (index_of n l) as [k|]; cbn [option_map].
  - destruct IH as [A B]. split; [exact A|]. intros [|j] Hj; cbn; [congruence|]. apply B. lia.
  - intros [?|?]; auto.
Qed.
Lemma skip_fuse_spec names sel n b : skip_fuse names sel n = Some b -> (b = false <-> chosen names sel n).
Proof.
  unfold skip_fuse, chosen. destruct sel as [s|]; [|intro H; injection H as <-; tauto].
  pose proof (index_of_spec n names) as I. destruct (index_of n names) as [k|]; [|discriminate]. destruct I as [I1 I2].
  intro H. injection H as <-. split.
  - intro H. apply negb_false_iff in H. apply memb_In in H. eauto.
  - intros (k' & K1 & K2 & K3). apply negb_false_iff, memb_In.
    destruct (Nat.lt_trichotomy k k') as [L|[->|L]]; auto; [destruct (K2 k L I1) | destruct (I2 k' L K1)].
Qed.

(** lookups in the maps *)
Definition entry (n : nat) (m : list (nat * list nat)) : option (list nat) := option_map snd (find (fun p => fst p =? n) m).
Lemma entry_extend n n' l m : entry n' (map_extend n l m) =
  if n =? n' then Some (match entry n m with Some x => x ++ l | None => l end) else entry n' m.
Proof.
  unfold entry. induction m as [|(k, x) m IH]; cbn [map_extend find fst].
  - destruct (n =? n'); reflexivity.
  - destruct (Nat.eqb_spec k n) as [->|D]; cbn [find fst].
    + destruct (Nat.eqb_spec n n') as [->|D']; reflexivity.
    + destruct (Nat.eqb_spec k n') as [->|D']; cbn; [|exact IH]. destruct (Nat.eqb_spec n n'); [congruence|reflexivity].
Qed.
Lemma remap_entry m names : remap m names = flat_map (fun n => match entry n m with Some l => l | None => [n] end) names.
Proof. unfold remap, entry. apply flat_map_ext. intro n. destruct (find _ m) as [(k, l)|]; reflexivity. Qed.

Definition skips (o : option bool) : bool := match o with Some false => true | _ => false end.
Definition folds_in (vs : nat -> vtx) (inputs : list nat) (fin : option (list nat)) (n : nat) (e : nat * nat) : bool :=
  (v_ty (vs (fst e)) =? t_input)%Z && match v_outs (vs (fst e)) with m :: _ => m =? n | [] => false end && skips (skip_fuse inputs fin n).
Definition in_names (vs : nat -> vtx) (es : list (nat * nat)) : list nat := flat_map (fun e => v_outs (vs (snd e))) es.
Definition op_in (vs : nat -> vtx) (u : nat) : nat := match v_op (vs u) with Some (i, _) => i | None => 0 end.
Record ninv (vs : nat -> vtx) (inputs outputs : list nat) (fin fout : option (list nat)) (dn : list (nat * nat)) (st : qdq_state) : Prop := {
  n_outs : forall x, v_outs (q_vs st x) = v_outs (vs x);
  n_in : forall n, entry n (q_in st) =
      match filter (folds_in vs inputs fin n) dn with [] => None | es => Some (in_names vs es) end;
  n_out : forall o, exists us, NoDup us /\
      (forall u, In u us <-> exists w, In (u, w) dn /\ bnd_out vs (u, w) /\ (exists i, v_op (vs u) = Some (i, o)) /\ skip_fuse outputs fout o = Some false) /\
      entry o (q_out st) = match us with [] => None | _ => Some (map (op_in vs) us) end;
  n_chk : forall e, In e dn -> (bnd_in vs e -> forall n os, v_outs (vs (fst e)) = n :: os -> skip_fuse inputs fin n <> None) /\
      (bnd_out vs e -> forall i o, v_op (vs (fst e)) = Some (i, o) -> skip_fuse outputs fout o <> None);
  n_rm : forall e, In e dn -> sel vs inputs outputs fin fout (fst e) ->
      (bnd_in vs e -> In (fst e) (q_rm st)) /\ (bnd_out vs e -> In (snd e) (q_rm st) /\ v_ty (q_vs st (fst e)) = t_output) }.

Lemma NoDup_snoc (l : list nat) a : NoDup l -> ~ In a l -> NoDup (l ++ [a]).
Proof.
  induction l as [|b l IH]; intros N H; cbn; [repeat constructor; intros []|]. inversion N as [|? ? N1 N2]; subst. constructor.
  - rewrite in_app_iff. intros [?|[->|[]]]; auto. apply H. now left.
  - apply IH; auto. intro Q. apply H. now right.
Qed.
Lemma filter_one {A} (p : A -> bool) l e : filter p (l ++ [e]) = filter p l ++ (if p e then [e] else []).
Proof. rewrite filter_app. cbn. destruct (p e); reflexivity. Qed.
Lemma some_ext {A B} (f : list A -> B) l l' : l' <> [] -> match l ++ l' with [] => None | x => Some (f x) end = Some (f (l ++ l')).
Proof. intro H. destruct l; [destruct l'; [congruence|reflexivity]|reflexivity]. Qed.

Lemma ninv_step vs inputs outputs fin fout dn st e st' :
  (bnd_in vs e \/ bnd_out vs e) ->
  (forall x, v_ty (vs x) = t_dequantize -> v_op (vs x) <> None) ->
  finv vs inputs outputs fin fout dn st -> ninv vs inputs outputs fin fout dn st -> qdq_step inputs outputs fin fout st e = Some st' ->
  ninv vs inputs outputs fin fout (dn ++ [e]) st'.
Proof.
  intros B Hd I J E. pose proof I as [F1 F2 F3 F4]. pose proof J as [N1 N2 N3 N4 N5]. destruct ty_facts as (T1 & T2 & T3 & T4 & T5 & T6 & T7 & T8).
  assert (Hin : forall a : nat * nat, In a (dn ++ [e]) <-> In a dn \/ e = a) by (intro a; rewrite in_app_iff; cbn; tauto).
  unfold qdq_step in E. destruct B as [B|B].
  - pose proof B as (B1 & B2 & n & os & o & B3 & B4).
    assert (Ep : q_vs st (fst e) = vs (fst e)).
    { destruct (F1 (fst e)) as [|[(e' & _ & (_ & Q & _) & Hx & _)|(e' & _ & (Q & _) & Hx & _)]]; auto;
        rewrite <- Hx in Q; congruence. }
    assert (Hout : forall o', exists us, NoDup us /\
      (forall u, In u us <-> exists w, In (u, w) (dn ++ [e]) /\ bnd_out vs (u, w) /\ (exists i, v_op (vs u) = Some (i, o')) /\ skip_fuse outputs fout o' = Some false) /\
      entry o' (q_out st) = match us with [] => None | _ => Some (map (op_in vs) us) end).
    { intro o'. destruct (N3 o') as (us & U1 & U2 & U3). exists us. split; [exact U1|]. split; [|exact U3]. intro u. rewrite U2. split.
      - intros (w & W & R). exists w. split; [apply Hin; auto|exact R].
      - intros (w & W & R1 & R2). apply Hin in W as [W|W]; [exists w; auto|]. destruct R1 as [R1 _]. rewrite W in B1. cbn in B1, R1. congruence. }
    assert (Hc : forall s, skip_fuse inputs fin n = Some s -> forall e', In e' (dn ++ [e]) ->
      (bnd_in vs e' -> forall n os, v_outs (vs (fst e')) = n :: os -> skip_fuse inputs fin n <> None) /\
      (bnd_out vs e' -> forall i o, v_op (vs (fst e')) = Some (i, o) -> skip_fuse outputs fout o <> None)).
    { intros s Es e' He'. apply Hin in He' as [He'|<-]; [auto|]. split; [intros _ n' os' H; congruence|intros [H _]; congruence]. }
    rewrite Ep, B1, Z.eqb_refl, B3 in E.
    assert (Hf : forall n', folds_in vs inputs fin n' e = (n =? n') && skips (skip_fuse inputs fin n')) by (intro n'; unfold folds_in; rewrite B1, B3, Z.eqb_refl; reflexivity).
    destruct (skip_fuse inputs fin n) as [[]|] eqn:Es; [| |discriminate].
    + injection E as <-. split; auto.
      * intro n'. rewrite filter_one, Hf. destruct (Nat.eqb_spec n n') as [<-|D]; cbn [andb]; rewrite ?Es; cbn [skips]; rewrite app_nil_r; apply N2.
      * now apply (Hc true).
      * intros e' He' S'. apply Hin in He' as [He'|<-]; [auto|]. exfalso. destruct S' as [(_ & n' & os' & H1 & H2)|(H1 & _)]; congruence.
    + injection E as <-. split; cbn [q_vs q_rm q_in q_out]; auto.
      * intro x. destruct (Nat.eq_dec x (snd e)) as [->|D]; [rewrite upd_same; cbn; auto|rewrite upd_other by auto; auto].
      * intro n'. rewrite entry_extend, filter_one, Hf. destruct (Nat.eqb_spec n n') as [<-|D]; cbn [andb].
        -- rewrite Es. cbn [skips]. rewrite (some_ext (in_names vs)) by discriminate. rewrite N2. unfold in_names. rewrite flat_map_app. cbn [flat_map].
           rewrite app_nil_r, N1. destruct (filter _ dn); reflexivity.
        -- rewrite app_nil_r. apply N2.
      * now apply (Hc false).
      * intros e' He' S'. apply Hin in He' as [He'|<-].
        -- destruct (N5 e' He' S') as [M1 M2]. split; [intro Q; apply in_or_app; auto|]. intro Q. destruct (M2 Q) as [M3 M4]. split; [apply in_or_app; auto|].
           rewrite upd_other; auto. intro Hx. destruct Q as [Q _]. congruence.
        -- split; [intros _; apply in_or_app; cbn; auto|]. intros [Q _]. congruence.
  - pose proof B as (B1 & B2).
    assert (Hf : forall n', folds_in vs inputs fin n' e = false) by (intro n'; unfold folds_in; rewrite B1; reflexivity).
    assert (Hi : forall n, entry n (q_in st) = match filter (folds_in vs inputs fin n) (dn ++ [e]) with [] => None | es => Some (in_names vs es) end)
      by (intro n'; rewrite filter_one, Hf, app_nil_r; apply N2).
    assert (Ee : e = (fst e, snd e)) by now destruct e.
    destruct (v_op (vs (fst e))) as [(i, o)|] eqn:Eo; [|exfalso; now apply (Hd (fst e))].
    destruct (F1 (fst e)) as [Ep|[(e' & _ & (_ & Q & _) & Hx & _)|(e' & He' & Be' & Hx & Hsel & Q1 & Q2)]].
    + rewrite Ep, B1 in E. cbn [t_dequantize t_input Z.eqb] in E. rewrite Eo in E.
      assert (Hc : forall s, skip_fuse outputs fout o = Some s -> forall e', In e' (dn ++ [e]) ->
        (bnd_in vs e' -> forall n os, v_outs (vs (fst e')) = n :: os -> skip_fuse inputs fin n <> None) /\
        (bnd_out vs e' -> forall i o, v_op (vs (fst e')) = Some (i, o) -> skip_fuse outputs fout o <> None)).
      { intros s Es e' He'. apply Hin in He' as [He'|<-]; [auto|]. split; [intros [H _]; congruence|intros _ i' o' H; congruence]. }
      destruct (skip_fuse outputs fout o) as [[]|] eqn:Es; [| |discriminate].
      * injection E as <-. split; auto.
        -- intro o'. destruct (N3 o') as (us & U1 & U2 & U3). exists us. split; [exact U1|]. split; [|exact U3]. intro u. rewrite U2. split.
           ++ intros (w & W & R). exists w. split; [apply Hin; auto|exact R].
           ++ intros (w & W & R1 & (i' & R2) & R3). apply Hin in W as [W|W]; [exists w; eauto|]. rewrite W in Eo. cbn in Eo. congruence.
        -- now apply (Hc true).
        -- intros e' He' S'. apply Hin in He' as [He'|<-]; [auto|]. exfalso. destruct S' as [(H1 & _)|(_ & i' & o' & H1 & H2)]; congruence.
      * assert (Hs : sel vs inputs outputs fin fout (fst e)) by (right; split; auto; exists i, o; auto).
        injection E as <-. split; cbn [q_vs q_rm q_in q_out]; auto.
        -- intro x. destruct (Nat.eq_dec x (fst e)) as [->|D]; [rewrite upd_same; cbn; auto|rewrite upd_other by auto; auto].
        -- intro o'. destruct (N3 o') as (us & U1 & U2 & U3). rewrite entry_extend. destruct (Nat.eqb_spec o o') as [<-|D].
           ++ exists (us ++ [fst e]). assert (~ In (fst e) us) as Hn.
              { intro H. apply U2 in H as (w & W & R1 & _). destruct (F4 (fst e, w) W R1 Hs) as [_ G]. cbn in G. rewrite Ep in G. congruence. }
              split; [apply NoDup_snoc; auto|]. split.
              ** intro u. rewrite in_app_iff, U2. cbn. split.
                 --- intros [(w & W & R)|[<-|[]]]; [exists w; split; [apply Hin; auto|exact R]|].
                     exists (snd e). split; [apply Hin; right; exact Ee|]. rewrite <- Ee. split; [exact B|]. split; [eauto|exact Es].
                 --- intros (w & W & R1 & (i' & R2) & R3). apply Hin in W as [W|W]; [left; exists w; eauto|]. right. left. now rewrite W.
              ** assert (op_in vs (fst e) = i) as <- by (unfold op_in; now rewrite Eo). rewrite U3. destruct us; cbn [app map]; [reflexivity|now rewrite map_app].
           ++ exists us. split; [exact U1|]. split; [|exact U3]. intro u. rewrite U2. split.
              ** intros (w & W & R). exists w. split; [apply Hin; auto|exact R].
              ** intros (w & W & R1 & (i' & R2) & R3). apply Hin in W as [W|W]; [exists w; eauto|]. rewrite W in Eo. cbn in Eo. congruence.
        -- now apply (Hc false).
        -- intros e' He' S'. apply Hin in He' as [He'|<-].
           ++ destruct (N5 e' He' S') as [M1 M2]. split; [intro Q; apply in_or_app; auto|]. intro Q. destruct (M2 Q) as [M3 M4]. split; [apply in_or_app; auto|].
              destruct (Nat.eq_dec (fst e') (fst e)) as [Q1|D].
              ** rewrite Q1, upd_same. cbn. destruct (F1 (snd e)) as [->|[(e2 & _ & (_ & Q2 & _) & Hx & _)|(e2 & _ & (Q2 & _) & Hx & _)]]; auto; rewrite <- Hx in Q2; congruence.
              ** rewrite upd_other; auto.
           ++ split; [intros [Q _]; congruence|]. intros _. split; [apply in_or_app; cbn; auto|]. rewrite upd_same. cbn.
              destruct (F1 (snd e)) as [->|[(e2 & _ & (_ & Q2 & _) & Hx & _)|(e2 & _ & (Q2 & _) & Hx & _)]]; auto; rewrite <- Hx in Q2; congruence.
    + rewrite <- Hx in Q. congruence.
    + rewrite Q1 in E. cbn [t_output t_input Z.eqb Pos.eqb] in E. rewrite Q2 in E. injection E as <-.
      assert (Eo' : skip_fuse outputs fout o = Some false) by (destruct Hsel as [(H1 & _)|(_ & i' & o' & H1 & H2)]; congruence).
      split; cbn [q_vs q_rm q_in q_out]; auto.
      * intro o'. destruct (N3 o') as (us & U1 & U2 & U3). exists us. split; [exact U1|]. split; [|exact U3]. intro u. rewrite U2. split.
        -- intros (w & W & R). exists w. split; [apply Hin; auto|exact R].
        -- intros (w & W & R1 & R2). apply Hin in W as [W|W]; [exists w; auto|]. assert (u = fst e') as -> by (rewrite W in Hx; exact Hx).
           exists (snd e'). replace (fst e', snd e') with e' by now destruct e'. split; [exact He'|]. split; [exact Be'|exact R2].
      * intros e1 He1. apply Hin in He1 as [He1|<-]; [auto|]. split; [intros [H _]; congruence|intros _ i' o' H; congruence].
      * intros e1 He1 S'. apply Hin in He1 as [He1|<-].
        -- destruct (N5 e1 He1 S') as [M1 M2]. split; [intro Q; apply in_or_app; auto|]. intro Q. destruct (M2 Q) as [M3 M4]. split; [apply in_or_app; auto|exact M4].
        -- split; [intros [Q _]; congruence|]. intros _. split; [apply in_or_app; cbn; auto|exact Q1].
Qed.
Lemma ninv_loop vs inputs outputs fin fout :
  (forall x, v_ty (vs x) = t_dequantize -> v_op (vs x) <> None) ->
  forall es dn st st', (forall e, In e es -> bnd_in vs e \/ bnd_out vs e) ->
  finv vs inputs outputs fin fout dn st -> ninv vs inputs outputs fin fout dn st -> qdq_loop inputs outputs fin fout es st = Some st' ->
  finv vs inputs outputs fin fout (dn ++ es) st' /\ ninv vs inputs outputs fin fout (dn ++ es) st'.
Proof.
  intros Hd. induction es as [|e es IH]; intros dn st st' B I J H; cbn in H.
  - injection H as <-. rewrite app_nil_r. auto.
  - destruct (qdq_step inputs outputs fin fout st e) as [s|] eqn:E; [|discriminate].
    replace (dn ++ e :: es) with ((dn ++ [e]) ++ es) by now rewrite <- app_assoc.
    apply (IH (dn ++ [e]) s st'); auto.
    + intros e' H'. apply B. now right.
    + eapply qdq_step_ok; eauto. apply B. now left.
    + eapply ninv_step; eauto. apply B. now left.
Qed.

(** an input gives way to the outputs of the quantize vertices that read it, an output to the inputs of the dequantize
    vertices that write it, exactly when they are chosen *)
Definition in_fold (vs : nat -> vtx) (inputs : list nat) (fin : option (list nat)) (n : nat) (e : nat * nat) : Prop :=
  bnd_in vs e /\ hd_error (v_outs (vs (fst e))) = Some n /\ chosen inputs fin n.
Definition out_fold (vs : nat -> vtx) (outputs : list nat) (fout : option (list nat)) (o : nat) (e : nat * nat) : Prop :=
  bnd_out vs e /\ (exists i, v_op (vs (fst e)) = Some (i, o)) /\ chosen outputs fout o.
Theorem fuse_qdq_names inputs outputs fin fout vs edges vs' rm edges' ins' outs' :
  (forall x, v_ty (vs x) = t_dequantize -> v_op (vs x) <> None) ->
  fuse_quant_dequant inputs outputs fin fout vs edges = Some (vs', rm, edges', ins', outs') ->
  (exists g, ins' = flat_map g inputs /\ forall n, exists p,
     (forall e, In e edges -> (p e = true <-> in_fold vs inputs fin n e)) /\
     g n = match filter p edges with [] => [n] | es => flat_map (fun e => v_outs (vs (snd e))) es end) /\
  (exists g, outs' = flat_map g outputs /\ forall o, exists us, NoDup us /\
     (forall u, In u us <-> exists w, In (u, w) edges /\ out_fold vs outputs fout o (u, w)) /\
     match us with [] => g o = [o] | _ => Forall2 (fun u i => v_op (vs u) = Some (i, o)) us (g o) end).
Proof.
  intros Hd E. unfold fuse_quant_dequant in E.
  match type of E with context [qdq_loop _ _ _ _ ?l ?s] => set (es := l) in E; set (st0 := s) in E end.
  destruct (qdq_loop inputs outputs fin fout es st0) as [st|] eqn:El; [|discriminate].
  injection E as _ _ _ <- <-.
  assert (Bes : forall e, In e es -> bnd_in vs e \/ bnd_out vs e).
  { intros e H. apply qdq_edge_spec. unfold es in H. apply filter_In in H. tauto. }
  destruct (ninv_loop vs inputs outputs fin fout Hd es [] st0 st) as [_ N]; auto.
  { split; cbn; auto; try (intros; contradiction). }
  { split; cbn; auto; try (intros; contradiction). intro o. exists []. split; [constructor|]. split; [|reflexivity]. intro u. split; [intros []|intros (w & [] & _)]. }
  cbn [app] in N. destruct N as [N1 N2 N3 N4 N5]. destruct ty_facts as (T1 & T2 & T3 & T4 & T5 & T6 & T7 & T8). split.
  - eexists. split; [apply remap_entry|]. intro n. cbv beta. exists (fun e => qdq_edge vs e && folds_in vs inputs fin n e). split.
    + intros e He. rewrite andb_true_iff. unfold folds_in, in_fold. rewrite !andb_true_iff, Z.eqb_eq. split.
      * intros (Q & (H1 & H2) & H3). apply qdq_edge_spec in Q as [Q|(Q & _)]; [|congruence]. split; [exact Q|].
        destruct (v_outs (vs (fst e))) as [|m os]; [discriminate|]. apply Nat.eqb_eq in H2. subst m. split; [reflexivity|].
        destruct (skip_fuse inputs fin n) as [[]|] eqn:Es; try discriminate. now apply (skip_fuse_spec _ _ _ _ Es).
      * intros (Q & H2 & H3). assert (In e es) as Hi by (apply filter_In; split; [exact He|apply qdq_edge_spec; auto]).
        split; [apply qdq_edge_spec; auto|]. destruct (v_outs (vs (fst e))) as [|m os] eqn:Eo; [discriminate|]. injection H2 as ->.
        split; [split; [apply Q | apply Nat.eqb_refl]|]. destruct (N4 e Hi) as [C _]. specialize (C Q n os Eo).
        destruct (skip_fuse inputs fin n) as [b|] eqn:Es; [|congruence]. apply (skip_fuse_spec _ _ _ _ Es) in H3. now subst b.
    + rewrite N2. assert (filter (fun e => qdq_edge vs e && folds_in vs inputs fin n e) edges = filter (folds_in vs inputs fin n) es) as ->.
      { unfold es. clear. induction edges as [|e l IH]; [reflexivity|]. cbn [filter]. destruct (qdq_edge vs e); cbn [andb filter]; destruct (folds_in vs inputs fin n e); now rewrite IH. }
      destruct (filter _ es); reflexivity.
  - eexists. split; [apply remap_entry|]. intro o. cbv beta. destruct (N3 o) as (us & U1 & U2 & U3). exists us. split; [exact U1|]. split.
    + intro u. rewrite U2. split.
      * intros (w & W & B & R1 & R2). exists w. split; [unfold es in W; apply filter_In in W; tauto|]. split; [exact B|]. split; [exact R1|]. now apply (skip_fuse_spec _ _ _ _ R2).
      * intros (w & W & B & (i & R1) & R2). assert (In (u, w) es) as Hi by (apply filter_In; split; [exact W|apply qdq_edge_spec; auto]).
        exists w. split; [exact Hi|]. split; [exact B|]. split; [eauto|]. destruct (N4 _ Hi) as [_ C]. specialize (C B i o R1).
        destruct (skip_fuse outputs fout o) as [b|] eqn:Es; [|congruence]. apply (skip_fuse_spec _ _ _ _ Es) in R2. now subst b.
    + rewrite U3. assert (forall u, In u us -> v_op (vs u) = Some (op_in vs u, o)) as Hop.
      { intros u Hu. apply U2 in Hu as (w & _ & _ & (i & R) & _). unfold op_in. now rewrite R. }
      destruct us as [|u us]; [reflexivity|]. revert Hop. generalize (u :: us). clear. induction l as [|a l IH]; intro H; cbn [map]; constructor; [apply H; now left|].
      apply IH. intros; apply H; now right.
Qed.
(** only chosen boundary vertices change, and all of them do *)
Theorem fuse_qdq_vertices inputs outputs fin fout vs edges vs' rm edges' ins' outs' :
  (forall x, v_ty (vs x) = t_dequantize -> v_op (vs x) <> None) ->
  fuse_quant_dequant inputs outputs fin fout vs edges = Some (vs', rm, edges', ins', outs') ->
  (forall e, In e edges -> (exists n, in_fold vs inputs fin n e) -> In (fst e) rm /\ v_ty (vs' (snd e)) = t_input /\ v_outs (vs' (snd e)) = v_outs (vs (snd e))) /\
  (forall e, In e edges -> (exists o, out_fold vs outputs fout o e) -> In (snd e) rm /\ v_ty (vs' (fst e)) = t_output) /\
  (forall x, vs' x = vs x \/ (exists u n, In (u, x) edges /\ in_fold vs inputs fin n (u, x)) \/ (exists w o, In (x, w) edges /\ out_fold vs outputs fout o (x, w))).
Proof.
  intros Hd E. unfold fuse_quant_dequant in E.
  match type of E with context [qdq_loop _ _ _ _ ?l ?s] => set (es := l) in E; set (st0 := s) in E end.
  destruct (qdq_loop inputs outputs fin fout es st0) as [st|] eqn:El; [|discriminate].
  injection E as <- <- _ _ _.
  assert (Bes : forall e, In e es -> bnd_in vs e \/ bnd_out vs e).
  { intros e H. apply qdq_edge_spec. unfold es in H. apply filter_In in H. tauto. }
  assert (Ees : forall e, In e es -> In e edges) by (intros e H; unfold es in H; apply filter_In in H; tauto).
  destruct (ninv_loop vs inputs outputs fin fout Hd es [] st0 st) as [[F1 F2 F3 F4] N]; auto.
  { split; cbn; auto; try (intros; contradiction). }
  { split; cbn; auto; try (intros; contradiction). intro o. exists []. split; [constructor|]. split; [|reflexivity]. intro u. split; [intros []|intros (w & [] & _)]. }
  cbn [app] in *. destruct N as [N1 N2 N3 N4 N5]. destruct ty_facts as (T1 & T2 & T3 & T4 & T5 & T6 & T7 & T8).
  assert (Si : forall e n, In e es -> in_fold vs inputs fin n e -> sel vs inputs outputs fin fout (fst e)).
  { intros e n Hi (B & Hn & C). left. split; [apply B|]. destruct (v_outs (vs (fst e))) as [|m os] eqn:Eo; [discriminate|]. injection Hn as ->. exists n, os.
    split; [reflexivity|]. destruct (N4 e Hi) as [K _]. specialize (K B n os Eo). destruct (skip_fuse inputs fin n) as [b|] eqn:Es; [|congruence].
    apply (skip_fuse_spec _ _ _ _ Es) in C. now subst b. }
  assert (So : forall e o, In e es -> out_fold vs outputs fout o e -> sel vs inputs outputs fin fout (fst e)).
  { intros e o Hi (B & (i & Ho) & C). right. split; [apply B|]. exists i, o. split; [exact Ho|]. destruct (N4 e Hi) as [_ K]. specialize (K B i o Ho).
    destruct (skip_fuse outputs fout o) as [b|] eqn:Es; [|congruence]. apply (skip_fuse_spec _ _ _ _ Es) in C. now subst b. }
  split; [|split].
  - intros e He (n & Q). pose proof Q as (B & _). assert (In e es) as Hi by (apply filter_In; split; [exact He|apply qdq_edge_spec; auto]).
    pose proof (Si e n Hi Q) as Hs. split; [now apply (N5 e Hi Hs)|]. split; [now apply (F3 e Hi B Hs)|apply N1].
  - intros e He (o & Q). pose proof Q as (B & _). assert (In e es) as Hi by (apply filter_In; split; [exact He|apply qdq_edge_spec; auto]).
    exact (proj2 (N5 e Hi (So e o Hi Q)) B).
  - intro x. destruct (F1 x) as [H|[((u, w) & He & B & Hx & Hs & _)|((u, w) & He & B & Hx & Hs & _)]]; [now left| |]; cbn in Hx, Hs; subst; right.
    + left. destruct Hs as [(_ & n & os & H1 & H2)|(H1 & _)]; [|destruct B as (B & _); cbn in B; congruence].
      exists u, n. split; [auto|]. split; [exact B|]. split; [cbn; now rewrite H1|]. now apply (skip_fuse_spec _ _ _ _ H2).
    + right. destruct Hs as [(H1 & _)|(_ & i & o & H1 & H2)]; [destruct B as (B & _); cbn in B; congruence|].
      exists w, o. split; [auto|]. split; [exact B|]. split; [exists i; exact H1|]. now apply (skip_fuse_spec _ _ _ _ H2).
Qed.

(** * Requantize splitting *)
Definition writers (t : nat) (ops : list qop) : nat :=
  List.length (filter (fun op => snd op =? t) ops).
Lemma writers_app t a b : writers t (a ++ b) = writers t a + writers t b.
Proof. unfold writers. now rewrite filter_app, app_length. Qed.
Lemma split_one (fresh : nat -> nat) i o : fresh 0 <> o -> fresh 0 <> i ->
  split_requantize fresh [(i, o)] = [(t_dequantize, i, fresh 0); (t_quantize, fresh 0, o)] /\
  writers o (split_requantize fresh [(i, o)]) = 1 /\ writers (fresh 0) (split_requantize fresh [(i, o)]) = 1.
Proof.
  intros H1 H2. split; [reflexivity|]. unfold writers, split_requantize. cbn.
  rewrite Nat.eqb_refl, (proj2 (Nat.eqb_neq _ _) H1). rewrite Nat.eqb_refl.
  rewrite (proj2 (Nat.eqb_neq _ _) (not_eq_sym H1)). auto.
Qed.

(** With [n] requantize operators the output of the [j]-th has [n - j] writers. *)
Lemma split_loop_writers (fresh : nat -> nat) t : (forall k, fresh k <> t) -> forall rqs k ops,
  writers t (split_requantize_loop fresh k ops rqs) =
  List.length rqs * writers t ops +
  list_sum (map (fun j => if nth j (map snd rqs) (S t) =? t then List.length rqs - j else 0) (seq 0 (List.length rqs))).
Proof.
  intro Hf. induction rqs as [|(i, o) rqs IH]; intros k ops; [reflexivity|].
  cbn [split_requantize_loop]. cbv zeta. rewrite writers_app, IH, !writers_app.
  assert (E : writers t [(t_dequantize, i, fresh k); (t_quantize, fresh k, o)] = if o =? t then 1 else 0).
  { unfold writers. cbn. rewrite (proj2 (Nat.eqb_neq _ _) (Hf k)). destruct (o =? t); auto. }
  rewrite E. cbn [List.length map seq]. rewrite <- seq_shift, map_map.
  change (list_sum ((if nth 0 (snd (i, o) :: map snd rqs) (S t) =? t then S (List.length rqs) - 0 else 0)
     :: map (fun x => if nth (S x) (snd (i, o) :: map snd rqs) (S t) =? t then S (List.length rqs) - S x else 0)
          (seq 0 (List.length rqs))))
  with ((if o =? t then S (List.length rqs) - 0 else 0) +
     list_sum (map (fun x => if nth x (map snd rqs) (S t) =? t then List.length rqs - x else 0)
          (seq 0 (List.length rqs)))).
  generalize (list_sum (map (fun x => if nth x (map snd rqs) (S t) =? t then List.length rqs - x else 0)
          (seq 0 (List.length rqs)))). intro X. destruct (o =? t); nia.
Qed.
Lemma list_sum_zero (f : nat -> nat) l : (forall x, In x l -> f x = 0) -> list_sum (map f l) = 0.
Proof.
  unfold list_sum. induction l as [|a l IH]; cbn [map fold_right]; intro H; auto.
  rewrite (H a (or_introl eq_refl)), IH; auto. intros; apply H; now right.
Qed.
Theorem split_writers (fresh : nat -> nat) rqs j i o : NoDup (map snd rqs) -> (forall k, fresh k <> o) ->
  nth_error rqs j = Some (i, o) -> writers o (split_requantize fresh rqs) = List.length rqs - j.
Proof.
  intros ND Hf Hj. unfold split_requantize. rewrite split_loop_writers by auto. change (writers o []) with 0.
  rewrite Nat.mul_0_r. cbn [Nat.add].
  assert (Lj : j < List.length rqs) by (apply nth_error_Some; congruence).
  assert (Nj : nth j (map snd rqs) (S o) = o).
  { apply (map_nth_error snd) in Hj. now apply nth_error_nth. }
  set (f := fun x => if nth x (map snd rqs) (S o) =? o then List.length rqs - x else 0).
  assert (G := list_sum_split f (fun x => if x =? j then List.length rqs - j else 0) (seq 0 (List.length rqs)) j (seq_NoDup _ _)).
  assert (Hin : In j (seq 0 (List.length rqs))) by (apply in_seq; lia). specialize (G Hin).
  assert (G0 := list_sum_split (fun _ => 0) (fun x => if x =? j then List.length rqs - j else 0) (seq 0 (List.length rqs)) j (seq_NoDup _ _) Hin).
  cbv beta in G0. rewrite Nat.eqb_refl in G0.
  rewrite (list_sum_zero (fun _ => 0)) in G0 by auto.
  assert (Fj : f j = List.length rqs - j) by (unfold f; now rewrite Nj, Nat.eqb_refl).
  rewrite Fj, Nat.eqb_refl in G.
  assert (list_sum (map f (seq 0 (List.length rqs))) = list_sum (map (fun x => if x =? j then List.length rqs - j else 0) (seq 0 (List.length rqs)))).
  { apply Nat.add_cancel_r with (p := List.length rqs - j). apply G. intros y Hy D.
    rewrite (proj2 (Nat.eqb_neq y j) D). unfold f. destruct (nth y (map snd rqs) (S o) =? o) eqn:Ey; auto.
    exfalso. apply D. apply Nat.eqb_eq in Ey. apply in_seq in Hy.
    apply (proj1 (NoDup_nth (map snd rqs) (S o)) ND); rewrite ?map_length; try lia; congruence. }
  assert (G0' : 0 + (List.length rqs - j) = list_sum (map (fun x => if x =? j then List.length rqs - j else 0) (seq 0 (List.length rqs))) + 0).
  { apply G0. intros y Hy D. now rewrite (proj2 (Nat.eqb_neq y j) D). }
  lia.
Qed.

(** ... and so does its intermediate tensor *)
Lemma split_loop_fresh (fresh : nat -> nat) t : forall rqs k ops, (forall o, In o (map snd rqs) -> o <> t) ->
  writers t (split_requantize_loop fresh k ops rqs) =
  List.length rqs * writers t ops +
  list_sum (map (fun j => if fresh (k + j) =? t then List.length rqs - j else 0) (seq 0 (List.length rqs))).
Proof.
  induction rqs as [|(i, o) rqs IH]; intros k ops Ho; [reflexivity|].
  cbn [split_requantize_loop]. cbv zeta. rewrite writers_app, IH, !writers_app by (intros; apply Ho; now right).
  assert (E : writers t [(t_dequantize, i, fresh k); (t_quantize, fresh k, o)] = if fresh k =? t then 1 else 0).
  { unfold writers. cbn. assert (o =? t = false) as -> by (apply Nat.eqb_neq, Ho; now left). destruct (fresh k =? t); reflexivity. }
  rewrite E. cbn [List.length seq map]. rewrite <- seq_shift, map_map. rewrite Nat.add_0_r, Nat.sub_0_r.
  rewrite (map_ext (fun x => if fresh (k + S x) =? t then S (List.length rqs) - S x else 0) (fun x => if fresh (S k + x) =? t then List.length rqs - x else 0))
    by (intro x; replace (k + S x) with (S k + x) by lia; reflexivity).
  change (list_sum ((if fresh k =? t then S (List.length rqs) else 0) :: map (fun x => if fresh (S k + x) =? t then List.length rqs - x else 0) (seq 0 (List.length rqs))))
    with ((if fresh k =? t then S (List.length rqs) else 0) + list_sum (map (fun x => if fresh (S k + x) =? t then List.length rqs - x else 0) (seq 0 (List.length rqs)))).
  generalize (list_sum (map (fun x => if fresh (S k + x) =? t then List.length rqs - x else 0) (seq 0 (List.length rqs)))). intro X. destruct (fresh k =? t); nia.
Qed.
Theorem split_fresh_writers (fresh : nat -> nat) rqs j : (forall a b, fresh a = fresh b -> a = b) -> (forall o, In o (map snd rqs) -> o <> fresh j) ->
  j < List.length rqs -> writers (fresh j) (split_requantize fresh rqs) = List.length rqs - j.
Proof.
  intros Inj Ho Hj. unfold split_requantize. rewrite split_loop_fresh by exact Ho. change (writers (fresh j) []) with 0. rewrite Nat.mul_0_r. cbn [Nat.add].
  set (n := List.length rqs) in *. clearbody n. assert (seq 0 n = seq 0 (j + S (n - S j))) as -> by (f_equal; lia). rewrite seq_app, map_app, list_sum_app. cbn [seq map Nat.add].
  rewrite (list_sum_zero _ (seq 0 j)). 2:{ intros x Hx. apply in_seq in Hx. destruct (Nat.eqb_spec (fresh x) (fresh j)) as [D|_]; [apply Inj in D; lia|reflexivity]. }
  rewrite Nat.eqb_refl. change (list_sum ((n - j) :: ?l)) with ((n - j) + list_sum l).
  rewrite (list_sum_zero _ (seq (S j) (n - S j))). 2:{ intros x Hx. apply in_seq in Hx. destruct (Nat.eqb_spec (fresh x) (fresh j)) as [D|_]; [apply Inj in D; lia|reflexivity]. }
  lia.
Qed.
