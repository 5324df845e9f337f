(** Proofs about taking sequences of nodes out of the operator graph. *)
From Coq Require Import List Arith Bool String Lia.
From Verif Require Import ElimModel ElimSpec ElimBase ElimStep.
Import ListNotations.

Section Main.
Context {X : Type}.
Notation graph := (graph X).
Notation sequence := (sequence X).
Notation action := (action X).
Variable run : nat -> list X -> nat -> X.
Variable inp : string -> option X.
Variable ii : nat.
Variable V : string -> option X.
Variable g0 : graph.

Definition edit_items (s : sequence) : list action :=
  match s_edit s with
  | Some (_, l) => map (fun a => (hd 0 (s_nodes s), fst (fst a), snd (fst a), snd a)) l
  | None => []
  end.

(** an input that will be replaced *)
Definition item_ok (g : graph) (R : list nat) (pend : list sequence) (a : action) : Prop :=
  let '(i, idx, new, x) := a in
  V new = Some x /\ g_node g new = None /\
  (forall u, In u (g_vs g) -> ~ In new (v_outs u) /\ ~ In new (v_ins u) /\ new <> v_name u) /\
  ~ In i R /\ ~ In i (flat_map gone pend) /\
  exists v p u, In v (g_vs g) /\ v_id v = i /\ v_kind v = KOp /\ nth_error (v_ins v) idx = Some p /\
    (forall j, nth_error (v_ins v) j = Some p -> j = idx) /\
    In u (g_vs g) /\ v_kind u = KConst /\ In p (v_outs u) /\ ~ In (v_id u) R /\
    (forall w, In w (g_vs g) -> In p (v_outs w) -> w = u) /\
    out_edges g (v_id u) = [mkE (v_id u) i p p].

Definition sinks_kept (g : graph) (R : list nat) : Prop :=
  (forall v, In v (g_vs g0) -> v_kind v <> KOp -> v_kind v <> KConst -> In v (g_vs (delete R g))) /\
  (forall e v, In e (g_es g0) -> In v (g_vs g0) -> v_id v = e_dst e -> is_sink (v_kind v) = true ->
     exists i, In (mkE i (e_dst e) (e_name e) (e_label e)) (g_es (delete R g))).

Definition neutralV (g : graph) (s : sequence) : Prop :=
  forall vl l, In vl (g_vs g) -> v_id vl = last (s_nodes s) 0 -> v_outs vl = [l] ->
  match s_edit s with
  | None => forall v n, In v (g_vs g) -> v_id v = (if s_rf s then nth 0 (s_nodes s) 0 else nth 1 (s_nodes s) 0) ->
              nth_error (v_ins v) ii = Some n -> V n = V l
  | Some (c, e) => forall v xs, In v (g_vs g) -> v_id v = hd 0 (s_nodes s) -> map V (v_ins v) = map Some xs ->
              V l = Some (run c (fold_left (fun xs a => put (fst (fst a)) (snd a) xs) e xs) 0)
  end.

Definition edge_ok (g : graph) (e : edge) : Prop :=
  (exists u, In u (g_vs g) /\ v_id u = e_src e) /\
  exists v, In v (g_vs g) /\ v_id v = e_dst e /\ (v_kind v = KOp \/ is_sink (v_kind v) = true).

(** the edges that leave a last node *)
Definition last_ok (g : graph) (s : sequence) : Prop :=
  forall vl lo e, In vl (g_vs g) -> v_id vl = last (s_nodes s) 0 -> v_outs vl = [lo] -> In e (out_edges g (v_id vl)) ->
  exists w, In w (g_vs g) /\ v_id w = e_dst e /\
    if is_sink (v_kind w) then String.prefix (lo ++ "_output") (e_name e) = true /\ e_label e = lo
    else e_name e = lo /\ In lo (v_ins w).

(** [separate], with the edges of nodes that are gone already *)
Record apart (D : graph) (es : list edge) (l : list sequence) : Prop := {
  ap_gone : NoDup (flat_map gone l);
  ap_first : forall s, In s l -> s_rf s = false -> ~ In (hd 0 (s_nodes s)) (flat_map gone l);
  ap_order : ForallOrdPairs (fun s t => s_rf s = true -> forall u v n,
    In u (g_vs D) -> v_id u = hd 0 (s_nodes s) -> nth_error (v_ins u) ii = Some n ->
    In v (g_vs D) -> In n (v_outs v) -> v_id v <> last (s_nodes t) 0 \/
    exists e, In e es /\ e_src e = v_id v /\ e_dst e <> v_id u) l }.

Record inv (g : graph) (R : list nat) (acts : list action) (pend : list sequence) : Prop := {
  i_ids : NoDup (map v_id (g_vs g));
  i_good : good (delete R g);
  i_fits : fits run inp V acts (delete R g);
  i_edge : forall e, In e (g_es g) -> edge_ok g e;
  i_rm : forall r, In r R -> exists v, In v (g_vs g) /\ v_id v = r;
  i_chain : forall s, In s pend -> chain g ii s;
  i_live : forall s i, In s pend -> In i (s_nodes s) -> ~ In i R;
  i_last : forall s, In s pend -> last_ok g s;
  i_sep : apart (delete R g) (g_es g) pend;
  i_neu : forall s, In s pend -> neutralV g s;
  i_items : forall a, In a (acts ++ flat_map edit_items pend) -> item_ok g R pend a;
  i_new : NoDup (map (fun a => snd (fst a)) (acts ++ flat_map edit_items pend));
  i_heads : forall a s, In a acts -> In s pend -> has_edit s -> fst (fst (fst a)) <> hd 0 (s_nodes s);
  i_sinks : sinks_kept g R }.

(** * Facts about a chain *)
Lemma last_in {A} (l : list A) d : l <> [] -> In (last l d) l.
Proof.
  induction l as [|a l IH]; intros H; [congruence|]. destruct l as [|b l]; [left; reflexivity|].
  right. apply IH. discriminate.
Qed.

Lemma hd_nth (l : list nat) a : nth_error l 0 = Some a -> hd 0 l = a.
Proof. destruct l; simpl; congruence. Qed.

Lemma nth_nth_error (l : list nat) k a : nth_error l k = Some a -> nth k l 0 = a.
Proof. intros H. apply nth_error_nth. exact H. Qed.

Lemma last_nth (l : list nat) : forall k a, nth_error l k = Some a -> nth_error l (S k) = None -> last l 0 = a.
Proof.
  induction l as [|b l IH]; intros k a H N; [destruct k; discriminate|].
  destruct k as [|k]; simpl in *.
  - destruct l; [congruence|discriminate].
  - destruct l as [|c l]; [destruct k; discriminate|]. apply (IH k a H N).
Qed.

Lemma gone_in (g : graph) (s : sequence) i : chain g ii s -> In i (gone s) -> exists k, nth_error (s_nodes s) k = Some i /\ (s_rf s = true \/ k <> 0).
Proof.
  intros C H. unfold gone in H. destruct (s_rf s) eqn:RF.
  - apply In_nth_error in H. destruct H as [k H]. exists k. auto.
  - destruct (s_nodes s) as [|a l]; simpl in H; [tauto|]. apply In_nth_error in H. destruct H as [k H].
    exists (S k). auto.
Qed.

Lemma gone_nth (s : sequence) k i : nth_error (s_nodes s) k = Some i -> s_rf s = true \/ k <> 0 -> In i (gone s).
Proof.
  intros H C. unfold gone. destruct (s_rf s).
  - apply nth_error_In in H. exact H.
  - destruct C as [C|C]; [discriminate|]. destruct (s_nodes s) as [|a l]; [destruct k; discriminate|].
    destruct k as [|k]; [congruence|]. simpl in *. apply nth_error_In in H. exact H.
Qed.

Lemma gone_nodes (s : sequence) i : In i (gone s) -> In i (s_nodes s).
Proof. unfold gone. destruct (s_rf s); auto. destruct (s_nodes s); simpl; auto. Qed.

(** each node that goes is an operator with one output *)
Lemma gone_op (g : graph) (s : sequence) i : chain g ii s -> In i (gone s) ->
  exists v n, In v (g_vs g) /\ v_id v = i /\ v_kind v = KOp /\ v_outs v = [n].
Proof.
  intros C H. destruct (gone_in g s i C H) as [k [Hk Q]]. destruct C as [_ [_ [CL [_ [C5 _]]]]].
  destruct k as [|k].
  - destruct Q as [Q|Q]; [|congruence]. destruct (C5 (or_introl Q)) as [v [n [o [Hv [I [K [O _]]]]]]].
    exists v, o. rewrite (hd_nth _ _ Hk) in I. auto.
  - assert (exists a, nth_error (s_nodes s) k = Some a) as [a Ha].
    { destruct (nth_error (s_nodes s) k) as [a|] eqn:E; [eauto|].
      apply nth_error_None in E. assert (S k < List.length (s_nodes s)) by (apply nth_error_Some; congruence). lia. }
    destruct (CL k a i Ha Hk) as [[va [vb [o [_ [Hb [_ [I [K [L _]]]]]]]]] _].
    destruct (v_outs vb) as [|n [|]] eqn:O; simpl in L; try lia. exists vb, n. auto.
Qed.

Lemma last_gone (g : graph) (s : sequence) : chain g ii s -> In (last (s_nodes s) 0) (gone s).
Proof.
  intros [_ [L _]]. unfold gone. destruct (s_rf s).
  - apply last_in. destruct (s_nodes s); simpl in *; [lia|discriminate].
  - destruct (s_nodes s) as [|a [|b l]]; simpl in L; try lia. apply (last_in (b :: l) 0). discriminate.
Qed.

Lemma gone_next (g : graph) (s : sequence) a : chain g ii s -> In a (gone s) -> a <> last (s_nodes s) 0 ->
  exists b, In b (gone s) /\ only_to g a b.
Proof.
  intros C H NE. destruct (gone_in g s a C H) as [k [Hk Q]].
  destruct (nth_error (s_nodes s) (S k)) as [b|] eqn:E.
  - exists b. split; [apply (gone_nth s (S k)); auto|].
    destruct C as [_ [_ [CL _]]]. destruct (CL k a b Hk E) as [_ T]. apply T. tauto.
  - exfalso. apply NE. symmetry. apply (last_nth _ k); auto.
Qed.

Lemma chain_ranks (rank : nat -> nat) : forall l : list nat,
  (forall k a b, nth_error l k = Some a -> nth_error l (S k) = Some b -> rank a < rank b) ->
  forall i, In i l -> rank (hd 0 l) <= rank i.
Proof.
  induction l as [|a l IH]; intros H i Hi; [destruct Hi|]. destruct Hi as [->|Hi]; [simpl; lia|].
  destruct l as [|b l]; [destruct Hi|].
  pose proof (H 0 a b eq_refl eq_refl).
  pose proof (IH (fun k x y H1 H2 => H (S k) x y H1 H2) i Hi). simpl in *. lia.
Qed.

Lemma NoDup_app_l {A} (l l' : list A) : NoDup (l ++ l') -> NoDup l'.
Proof. induction l; simpl; intros H; auto. inversion H; auto. Qed.
Lemma NoDup_app_dis {A} (l l' : list A) x : NoDup (l ++ l') -> In x l -> In x l' -> False.
Proof.
  induction l as [|a l IH]; simpl; intros H H1 H2; [tauto|]. inversion H as [|? ? N D]; subst.
  destruct H1 as [->|H1]; [apply N; apply in_or_app; auto|apply (IH D H1 H2)].
Qed.

Lemma NoDup_app_mid {A} (a b c : list A) : NoDup (a ++ b ++ c) -> NoDup (a ++ c).
Proof.
  induction a as [|x a IH]; simpl; intros H; [apply (NoDup_app_l _ _ H)|].
  inversion H as [|? ? N D]; subst. constructor; [|apply IH; exact D].
  intros F. apply N. apply in_app_or in F. apply in_or_app. destruct F as [F|F]; [left; exact F|right].
  apply in_or_app. right. exact F.
Qed.

(** * What is found when a sequence is looked at *)
Record entry (g : graph) (R : list nat) (s : sequence) (pend : list sequence)
  (first vn vl : vertex) (o lo : string) (oi : nat) : Prop := {
  n_fid : first_id g ii s = Some (v_id first);
  n_first : In first (g_vs (delete R g));
  n_src : source first;
  n_notgone : ~ In (v_id first) (gone s);
  n_other : forall t, In t pend -> In (v_id first) (gone t) -> v_id first = last (s_nodes t) 0 /\
    exists e, In e (out_edges g (v_id first)) /\ e_dst e <> v_id vn;
  n_next : (if v_id first =? s_first s then nth 1 (s_nodes s) 0 else nth 0 (s_nodes s) 0) = v_id vn;
  n_vn : In vn (g_vs (delete R g));
  n_vngone : In (v_id vn) (gone s);
  n_in : nth_error (v_ins vn) ii = Some o;
  n_oi : sindex o (v_outs first) = Some oi;
  n_edge : In (mkE (v_id first) (v_id vn) o o) (g_es (delete R g));
  n_vl : In vl (g_vs (delete R g));
  n_kl : v_kind vl = KOp;
  n_ol : v_outs vl = [lo];
  n_il : v_id vl = last (s_nodes s) 0;
  n_iso : forall a, In a (gone s) -> a <> v_id vl -> exists b, In b (gone s) /\ only_to g a b;
  n_rank : forall rank : nat -> nat,
    (forall u v n, In u (g_vs (delete R g)) -> In v (g_vs (delete R g)) -> In n (v_outs u) -> In n (v_ins v) ->
       rank (v_id u) < rank (v_id v)) -> rank (v_id first) < rank (v_id vl);
  n_edit : has_edit s -> v_id first = hd 0 (s_nodes s) /\ v_kind first = KOp /\ v_outs first = [o] /\ outdegree g (v_id first) = 1;
  n_const : if s_rf s then exists v, In v (g_vs g) /\ v_id v = hd 0 (s_nodes s) /\ v = vn
            else v_id first = hd 0 (s_nodes s) }.

Lemma inv_entry g R acts s pend : inv g R acts (s :: pend) ->
  exists first vn vl o lo oi, entry g R s pend first vn vl o lo oi.
Proof.
  intros I. pose proof (i_ids _ _ _ _ I) as ids. pose proof (i_good _ _ _ _ I) as G.
  pose proof (i_chain _ _ _ _ I s (or_introl eq_refl)) as C.
  assert (LV : forall v i, In v (g_vs g) -> v_id v = i -> In i (s_nodes s) -> In v (g_vs (delete R g))).
  { intros v i Hv E Hi. apply in_delete_vs. split; auto. rewrite E. apply (i_live _ _ _ _ I s i); auto. left. reflexivity. }
  destruct (gone_op g s _ C (last_gone g s C)) as [vl [lo [Hl [Il [Kl Ol]]]]].
  assert (HlD : In vl (g_vs (delete R g))).
  { apply (LV vl _ Hl Il). apply gone_nodes. apply (last_gone g s C). }
  assert (LR : forall rank : nat -> nat,
    (forall u v n, In u (g_vs (delete R g)) -> In v (g_vs (delete R g)) -> In n (v_outs u) -> In n (v_ins v) ->
       rank (v_id u) < rank (v_id v)) ->
    forall k a b, nth_error (s_nodes s) k = Some a -> nth_error (s_nodes s) (S k) = Some b -> rank a < rank b).
  { intros rank RK k a b Ha Hb. destruct C as [_ [_ [CL _]]].
    destruct (CL k a b Ha Hb) as [[va [vb [o [Hva [Hvb [Ia [Ib [_ [_ [N O]]]]]]]]]] _].
    rewrite <- Ia, <- Ib. apply (RK va vb o); auto.
    - apply (LV va a); auto. apply nth_error_In in Ha. exact Ha.
    - apply (LV vb b); auto. apply nth_error_In in Hb. exact Hb.
    - apply nth_error_In in N. exact N. }
  assert (GI : forall a, In a (gone s) -> a <> v_id vl -> exists b, In b (gone s) /\ only_to g a b).
  { intros a Ha NE. apply (gone_next g s a C Ha). congruence. }
  destruct (s_rf s) eqn:RF.
  - (* the whole sequence goes *)
    pose proof C as [_ [CL [_ [CE [C5 _]]]]]. destruct (C5 (or_introl RF)) as [vn [o [on [Hvn [In_ [Kn [On Nn]]]]]]].
    assert (HD : In (hd 0 (s_nodes s)) (s_nodes s)).
    { rewrite RF in CL. destruct (s_nodes s); simpl in *; [lia|auto]. }
    assert (HvnD : In vn (g_vs (delete R g))) by (apply (LV vn _ Hvn In_ HD)).
    assert (Ho : In o (v_ins vn)) by (apply nth_error_In in Nn; exact Nn).
    destruct (ok_reads _ G vn o HvnD Kn Ho) as [u [Hu [Ou [Su E]]]].
    pose proof (ok_node _ G u o Hu Ou) as ND. cbn [g_node delete] in ND.
    destruct (sindex_some _ _ Ou) as [oi Hoi].
    assert (VG : In (v_id vn) (gone s)) by (unfold gone; rewrite RF, In_; exact HD).
    destruct (ok_acyclic _ G) as [rank RK].
    assert (LT : forall i, In i (s_nodes s) -> rank (v_id u) < rank i).
    { intros i Hi. pose proof (chain_ranks rank (s_nodes s) (LR rank RK) i Hi) as Q1.
      pose proof (RK u vn o Hu HvnD Ou Ho). rewrite In_ in *. lia. }
    exists u, vn, vl, o, lo, oi. constructor; auto.
    + unfold first_id. rewrite RF. unfold s_first.
      pose proof (in_vfind g vn ids Hvn) as F. rewrite In_ in F. rewrite F. cbn [obind]. rewrite Kn.
      rewrite Nn. cbn [obind]. exact ND.
    + intros F. apply gone_nodes in F. apply LT in F. lia.
    + intros t Ht Hg. pose proof (i_chain _ _ _ _ I t (or_intror Ht)) as Ct.
        destruct (Nat.eq_dec (v_id u) (last (s_nodes t) 0)) as [Q|Q].
        -- split; [exact Q|]. pose proof (ap_order _ _ _ (i_sep _ _ _ _ I)) as SO. inversion SO as [|? ? SF SO']; subst.
           rewrite Forall_forall in SF. destruct (SF t Ht RF vn u o) as [W|[e [He [Se De]]]]; auto; [contradiction|].
           exists e. split; [apply in_out_edges; auto|exact De].
        -- exfalso. destruct (gone_next g t _ Ct Hg Q) as [b [Hb T]].
           apply in_delete_es in E. destruct E as [E _]. pose proof (T _ E eq_refl) as EB. simpl in EB.
           pose proof (ap_gone _ _ _ (i_sep _ _ _ _ I)) as ND2. cbn [flat_map] in ND2.
           apply (NoDup_app_dis _ _ _ ND2 VG). apply in_flat_map. exists t. split; auto. congruence.
    + assert (v_id u <> s_first s).
      { unfold s_first. intros F. apply LT in HD. rewrite F in HD. lia. }
      destruct (Nat.eqb_spec (v_id u) (s_first s)); [contradiction|].
      rewrite In_. destruct (s_nodes s); reflexivity.
    + intros rk RK2. pose proof (chain_ranks rk (s_nodes s) (LR rk RK2) (v_id vl)) as Q1.
      pose proof (RK2 u vn o Hu HvnD Ou Ho). rewrite In_ in *.
      assert (In (v_id vl) (s_nodes s)) by (rewrite Il; apply gone_nodes; apply (last_gone g s C)).
      specialize (Q1 H0). lia.
    + intros HE. exfalso. apply HE. apply CE. exact RF.
    + rewrite RF. exists vn. auto.
  - (* the first node stays *)
    pose proof C as [_ [CL [CN [CE [C5 C6]]]]]. rewrite RF in CL.
    destruct (s_nodes s) as [|a [|b l]] eqn:SN; simpl in CL; try lia.
    destruct (CN 0 a b eq_refl eq_refl) as [[va [vn [o [Hva [Hvn [Ia [Ib [Kn [Ln [Nn Oa]]]]]]]]]] T].
    assert (HvaD : In va (g_vs (delete R g))) by (apply (LV va a); auto; left; reflexivity).
    assert (HvnD : In vn (g_vs (delete R g))) by (apply (LV vn b); auto; right; left; reflexivity).
    assert (Ho : In o (v_ins vn)) by (apply nth_error_In in Nn; exact Nn).
    destruct (ok_reads _ G vn o HvnD Kn Ho) as [u [Hu [Ou [Su E]]]].
    pose proof (ok_writer _ G u va o Hu HvaD Ou Oa). subst u.
    destruct (sindex_some _ _ Ou) as [oi Hoi].
    assert (VG : In (v_id vn) (gone s)).
    { unfold gone. rewrite RF, SN, Ib. left. reflexivity. }
    exists va, vn, vl, o, lo, oi. constructor; auto.
    + unfold first_id, s_first. rewrite RF, SN. simpl. congruence.
    + pose proof (ap_first _ _ _ (i_sep _ _ _ _ I) s (or_introl eq_refl) RF) as Q. rewrite SN in Q.
      simpl hd in Q. rewrite Ia. intros F. apply Q. cbn [flat_map]. apply in_or_app. left. exact F.
    + intros t Ht F. exfalso. pose proof (ap_first _ _ _ (i_sep _ _ _ _ I) s (or_introl eq_refl) RF) as Q. rewrite SN in Q.
      simpl hd in Q. apply Q. cbn [flat_map]. apply in_or_app. right. apply in_flat_map. exists t. rewrite <- Ia. auto.
    + unfold s_first. rewrite SN. simpl hd. rewrite Ia, Nat.eqb_refl. simpl. congruence.
    + rewrite SN. exact Il.
    + intros rk RK2.
      assert (LR2 := LR rk RK2). pose proof (LR2 0 a b eq_refl eq_refl) as Q1.
      pose proof (chain_ranks rk (b :: l) (fun k x y H1 H2 => LR2 (S k) x y H1 H2) (v_id vl)) as Q2.
      assert (In (v_id vl) (b :: l)).
      { rewrite Il. change (last (a :: b :: l) 0) with (last (b :: l) 0). apply last_in. discriminate. }
      specialize (Q2 H). simpl in Q2. rewrite Ia. lia.
    + intros HE. destruct (C5 (or_intror HE)) as [v [n [o' [Hv [Iv [Kv [Ov _]]]]]]].
      rewrite SN in *. simpl hd in *.
      assert (v = va) by (apply (id_inj g); auto; congruence). subst v.
      rewrite Ov in Oa. destruct Oa as [->|[]]. repeat split; auto.
      unfold outdegree, out_edges. rewrite Ia. apply C6. exact HE.
    + rewrite RF, SN. simpl. exact Ia.
Qed.

Lemma inv_tail g R acts s pend : inv g R acts (s :: pend) -> inv g R acts pend.
Proof.
  intros I. destruct I as [I1 I2 I3 I4 I5 I6 I7 I8 I9 I10 I11 I12 I13 I14]. constructor; auto.
  - intros t Ht. apply I6. right. exact Ht.
  - intros t i Ht. apply I7. right. exact Ht.
  - intros t Ht. apply I8. right. exact Ht.
  - destruct I9 as [S1 S2 S3]. constructor.
    + apply (NoDup_app_l _ _ S1).
    + intros t Ht RF F. apply (S2 t (or_intror Ht) RF). cbn [flat_map]. apply in_or_app. right. exact F.
    + inversion S3; assumption.
  - intros t Ht. apply I10. right. exact Ht.
  - intros a Ha. assert (Q : item_ok g R (s :: pend) a).
    { apply I11. cbn [flat_map]. apply in_app_or in Ha. apply in_or_app. destruct Ha as [Ha|Ha]; [left; exact Ha|right].
      apply in_or_app. right. exact Ha. }
    destruct a as [[[i idx] new] x]. destruct Q as [Q1 [Q2 [Q3 [Q4 [Q5 Q6]]]]].
    do 4 (split; [assumption|]). split; [|exact Q6].
    intros F. apply Q5. cbn [flat_map]. apply in_or_app. right. exact F.
  - cbn [flat_map] in I12. rewrite !map_app in I12. rewrite map_app. apply (NoDup_app_mid _ _ _ I12).
  - intros a t Ha Ht. apply I13; auto. right. exact Ht.
Qed.

(** * What has not been looked at yet stays as it was *)
Section Keep.
Variable g g' : graph.
Variable R : list nat.
Variable acts : list action.
Variable s : sequence.
Variable pend : list sequence.
Variable first vn vl : vertex.
Variable o lo : string.
Variable oi : nat.
Variable h : vertex -> vertex.
Variable N : list edge.
Hypothesis I : inv g R acts (s :: pend).
Hypothesis E : entry g R s pend first vn vl o lo oi.
Hypothesis Hvs : g_vs g' = map h (g_vs g).
Hypothesis Hid : forall v, v_id (h v) = v_id v.
Hypothesis Hname : forall v, v_name (h v) = v_name v.
Hypothesis Hkind : forall v, v_kind (h v) = v_kind v.
Hypothesis Hins : forall v, In v (g_vs g) -> v_ins (h v) = v_ins v \/ v_ins (h v) = map (sub lo o) (v_ins v).
Hypothesis Houts : forall v, In v (g_vs g) -> v_outs (h v) = v_outs v \/ (v = first /\ v_outs (h v) = supd oi lo (v_outs v)).
Hypothesis Hmode : ((forall v, In v (g_vs g) -> v_outs (h v) = v_outs v) /\
   forall e, In e N -> e_name e = o /\ exists w, In w (g_vs g) /\ v_id w = e_dst e /\ v_kind w = KOp /\ In o (v_ins (h w))) \/
  ((forall v, In v (g_vs g) -> v_ins (h v) = v_ins v) /\ (forall t, In t pend -> v_id first <> last (s_nodes t) 0) /\
   forall e, In e (g_es (delete R g)) -> e_src e = v_id first -> e_label e = o -> In (e_dst e) (gone s)).
Hypothesis Hes : g_es g' = g_es g ++ N.
Hypothesis HN : forall e, In e N -> e_src e = v_id first /\ exists e0, In e0 (g_es g) /\ e_dst e0 = e_dst e.
Hypothesis Hnode : forall n, n <> lo -> g_node g' n = g_node g n.
Hypothesis HV : V o = V lo \/ (forall v, In v (g_vs g) -> v_ins (h v) = v_ins v).
Hypothesis Hgood : good (delete (R ++ gone s) g').
Hypothesis Hfits : fits run inp V (acts ++ edit_items s) (delete (R ++ gone s) g').
Hypothesis Hsinks : sinks_kept g' (R ++ gone s).

Notation ids := (i_ids _ _ _ _ I).
Notation GD := (i_good _ _ _ _ I).

Lemma first_g : In first (g_vs g).
Proof. pose proof (n_first _ _ _ _ _ _ _ _ _ _ E) as H. apply in_delete_vs in H. apply H. Qed.
Lemma vl_g : In vl (g_vs g).
Proof. pose proof (n_vl _ _ _ _ _ _ _ _ _ _ E) as H. apply in_delete_vs in H. apply H. Qed.
Lemma edge_g : In (mkE (v_id first) (v_id vn) o o) (g_es g).
Proof. pose proof (n_edge _ _ _ _ _ _ _ _ _ _ E) as H. apply in_delete_es in H. apply H. Qed.
Lemma o_first : In o (v_outs first).
Proof.
  pose proof (n_oi _ _ _ _ _ _ _ _ _ _ E) as H. apply sindex_nth in H. apply nth_error_In in H. exact H.
Qed.
Lemma lo_vl : In lo (v_outs vl).
Proof. rewrite (n_ol _ _ _ _ _ _ _ _ _ _ E). left. reflexivity. Qed.
Lemma vl_gone : In (v_id vl) (gone s).
Proof. rewrite (n_il _ _ _ _ _ _ _ _ _ _ E). apply (last_gone g). apply (i_chain _ _ _ _ I). left. reflexivity. Qed.

Lemma in_g' v' : In v' (g_vs g') -> exists v, v' = h v /\ In v (g_vs g).
Proof. rewrite Hvs. intros H. apply in_map_iff in H. destruct H as [v [<- Hv]]. eauto. Qed.
Lemma h_in v : In v (g_vs g) -> In (h v) (g_vs g').
Proof. intros H. rewrite Hvs. apply in_map. exact H. Qed.

Lemma find_g' i : vfind g' i = option_map h (vfind g i).
Proof. unfold vfind. rewrite Hvs. apply find_map_id. exact Hid. Qed.
Lemma kind_g' i : kind_of g' i = kind_of g i.
Proof. unfold kind_of. rewrite find_g'. destruct (vfind g i); simpl; auto. rewrite Hkind. reflexivity. Qed.

Lemma out_g' i : i <> v_id first -> out_edges g' i = out_edges g i.
Proof.
  intros NE. unfold out_edges. rewrite Hes, filter_app.
  assert (filter (fun e => e_src e =? i) N = []) as ->; [|apply app_nil_r].
  clear - HN NE. induction N as [|e l IH]; simpl; auto.
  destruct (HN e (or_introl eq_refl)) as [-> _]. destruct (Nat.eqb_spec (v_id first) i); [congruence|].
  apply IH. intros e' He'. apply HN. right. exact He'.
Qed.

Lemma outs_other v : In v (g_vs g) -> v <> first -> v_outs (h v) = v_outs v.
Proof. intros Hv NE. destruct (Houts v Hv) as [Q|[Q _]]; [exact Q|contradiction]. Qed.

(** the nodes of the other sequences are not those that go *)
Lemma nodes_dis t a : In t pend -> In a (s_nodes t) -> ~ In a (gone s).
Proof.
  intros Ht Ha F. pose proof (i_sep _ _ _ _ I) as SP.
  destruct (in_dec Nat.eq_dec a (gone t)) as [Q|Q].
  - pose proof (ap_gone _ _ _ SP) as ND. cbn [flat_map] in ND.
    apply (NoDup_app_dis _ _ _ ND F). apply in_flat_map. exists t. auto.
  - unfold gone in Q. destruct (s_rf t) eqn:RF; [contradiction|].
    destruct (s_nodes t) as [|b l] eqn:SN; [destruct Ha|]. simpl in Q. destruct Ha as [->|Ha]; [|contradiction].
    pose proof (ap_first _ _ _ SP t (or_intror Ht) RF) as SF. rewrite SN in SF. simpl in SF. apply SF.
    apply in_or_app. left. exact F.
Qed.

Lemma inner_not_first t a b : In t pend -> In b (s_nodes t) -> only_to g a b -> a <> v_id first.
Proof.
  intros Ht Hb T ->. pose proof (T _ edge_g eq_refl) as Q. simpl in Q. apply (nodes_dis t b Ht Hb). rewrite <- Q.
  apply (n_vngone _ _ _ _ _ _ _ _ _ _ E).
Qed.

Lemma last_outs t v : In t pend -> In v (g_vs g) -> v_id v = last (s_nodes t) 0 -> v_outs (h v) = v_outs v.
Proof.
  intros Ht Hv Iv. destruct Hmode as [[HM _]|[_ [HM _]]]; [auto|]. destruct (Houts v Hv) as [Q|[-> _]]; [exact Q|].
  exfalso. exact (HM t Ht Iv).
Qed.

Lemma node_live t a v : In t pend -> In a (s_nodes t) -> In v (g_vs g) -> v_id v = a -> In v (g_vs (delete R g)).
Proof.
  intros Ht Ha Hv Iv. apply in_delete_vs. split; auto. rewrite Iv. apply (i_live _ _ _ _ I t); auto. right. exact Ht.
Qed.

(** a link of another sequence *)
Lemma keep_link t a b : In t pend -> In a (s_nodes t) -> In b (s_nodes t) -> linked g ii a b -> linked g' ii a b.
Proof.
  intros Ht Ha Hb [va [vb [p [Hva [Hvb [Ia [Ib [K [L [NI O]]]]]]]]]].
  pose proof (node_live t a va Ht Ha Hva Ia) as HvaD. pose proof (node_live t b vb Ht Hb Hvb Ib) as HvbD.
  assert (PL : p <> lo).
  { intros ->. assert (va = vl).
    { apply (ok_writer _ GD va vl lo); auto; [apply (n_vl _ _ _ _ _ _ _ _ _ _ E)|apply lo_vl]. }
    subst va. apply (nodes_dis t a Ht Ha). rewrite <- Ia. apply vl_gone. }
  exists (h va), (h vb), p. rewrite !Hid, Hkind. do 5 (split; [auto using h_in|]).
  split; [|split].
  - destruct (Houts vb Hvb) as [Q|[_ Q]]; rewrite Q; auto. rewrite supd_length. exact L.
  - destruct (Hins vb Hvb) as [Q|Q]; rewrite Q; auto. rewrite nth_error_map, NI. simpl. unfold sub.
    destruct (String.eqb_spec p lo); [contradiction|reflexivity].
  - destruct Hmode as [[HM _]|[_ [_ HM]]]; [rewrite HM; auto|].
    destruct (Houts va Hva) as [Q|[-> Q]]; rewrite Q; auto.
    apply in_supd_other with (z := o); auto.
    + apply sindex_nth. apply (n_oi _ _ _ _ _ _ _ _ _ _ E).
    + intros ->. assert (IN : In o (v_ins vb)) by (apply nth_error_In in NI; exact NI).
      destruct (ok_reads _ GD vb o HvbD K IN) as [u [Hu [Ou [_ HE]]]].
      rewrite (ok_writer _ GD u first o Hu HvaD Ou O) in HE.
      pose proof (HM _ HE eq_refl eq_refl) as F. simpl in F. rewrite Ib in F. exact (nodes_dis t b Ht Hb F).
Qed.

(** a node that is read once only is not the first node *)
Lemma edited_not_first t : In t pend -> has_edit t -> hd 0 (s_nodes t) <> v_id first.
Proof.
  intros Ht HE F. destruct (i_chain _ _ _ _ I t (or_intror Ht)) as [_ [CL [CN [CR _]]]].
  destruct (s_rf t) eqn:RF; [apply HE; apply CR; reflexivity|].
  destruct (s_nodes t) as [|a [|b l]] eqn:SN; simpl in CL; try lia. simpl in F.
  destruct (CN 0 a b eq_refl eq_refl) as [_ T]. specialize (T (or_intror (or_intror HE))).
  pose proof (T _ edge_g ltac:(simpl; congruence)) as Q. simpl in Q.
  apply (nodes_dis t b Ht); [rewrite SN; right; left; reflexivity|]. rewrite <- Q.
  apply (n_vngone _ _ _ _ _ _ _ _ _ _ E).
Qed.

Lemma keep_only a b : a <> v_id first -> only_to g a b -> only_to g' a b.
Proof.
  intros NE T e He Se. rewrite Hes in He. apply in_app_or in He. destruct He as [He|He]; [apply (T e He Se)|].
  destruct (HN e He) as [Q _]. congruence.
Qed.

Lemma keep_chain t : In t pend -> chain g' ii t.
Proof.
  intros Ht. pose proof (i_chain _ _ _ _ I t (or_intror Ht)) as C.
  pose proof C as [C1 [C2 [C3 [C4 [C5 C6]]]]]. do 2 (split; [assumption|]). split; [|split; [assumption|split]].
  - intros k a b Ha Hb. destruct (C3 k a b Ha Hb) as [L T].
    apply nth_error_In in Ha as Ha'. apply nth_error_In in Hb as Hb'.
    split; [apply (keep_link t); auto|]. intros Q. apply keep_only; [|apply T; exact Q].
    apply (inner_not_first t a b Ht Hb'). apply T. exact Q.
  - intros Q. destruct (C5 Q) as [v [n [p [Hv [Iv [K [O NI]]]]]]].
    assert (exists n', nth_error (v_ins (h v)) ii = Some n') as [n' Hn'].
    { destruct (Hins v Hv) as [Q2|Q2]; rewrite Q2; [eauto|]. rewrite nth_error_map, NI. simpl. eauto. }
    assert (exists p', v_outs (h v) = [p']) as [p' Hp'].
    { destruct (Houts v Hv) as [Q2|[_ Q2]]; rewrite Q2, O; [eauto|]. destruct oi as [|[|k]]; [exists lo|exists p|exists p]; reflexivity. }
    exists (h v), n', p'. rewrite Hid, Hkind. auto using h_in.
  - intros HE. pose proof (out_g' _ (edited_not_first t Ht HE)) as Q. unfold out_edges in Q. rewrite Q. apply C6. exact HE.
Qed.

Lemma keep_last t : In t pend -> last_ok g' t.
Proof.
  intros Ht v' l e Hv' Iv Ov He. destruct (in_g' v' Hv') as [v [-> Hv]]. rewrite Hid in *.
  rewrite (last_outs t v Ht Hv Iv) in Ov.
  assert (LG : In (v_id v) (s_nodes t)).
  { rewrite Iv. apply gone_nodes. apply (last_gone g t (i_chain _ _ _ _ I t (or_intror Ht))). }
  assert (LL : l <> lo).
  { intros ->. assert (v = vl).
    { apply (ok_writer _ GD v vl lo); auto; [|apply (n_vl _ _ _ _ _ _ _ _ _ _ E)|rewrite Ov; left; reflexivity|apply lo_vl].
      apply (node_live t (v_id v)); auto. }
    subst v. apply (nodes_dis t _ Ht LG). apply vl_gone. }
  apply in_out_edges in He. destruct He as [He Se]. rewrite Hes in He. apply in_app_or in He. destruct He as [He|He].
  - destruct (i_last _ _ _ _ I t (or_intror Ht) v l e Hv Iv Ov) as [w [Hw [Iw Q]]]; [apply in_out_edges; auto|].
    exists (h w). rewrite Hid, Hkind. split; [apply h_in; exact Hw|]. split; [exact Iw|].
    destruct (is_sink (v_kind w)); [exact Q|]. destruct Q as [Q1 Q2]. split; [exact Q1|].
    destruct (Hins w Hw) as [R1|R1]; rewrite R1; [exact Q2|]. apply in_map_iff. exists l. split; [|exact Q2].
    unfold sub. destruct (String.eqb_spec l lo); [contradiction|reflexivity].
  - destruct (HN e He) as [SE _].
    assert (v = first) by (apply (id_inj g); auto using first_g; [apply ids|congruence]). subst v.
    destruct Hmode as [[_ HM]|[_ [HM _]]]; [|exfalso; exact (HM t Ht Iv)].
    destruct (HM e He) as [EN [w [Hw [Iw [KW OW]]]]]. exists (h w). rewrite Hid, Hkind, KW.
    split; [apply h_in; exact Hw|]. split; [exact Iw|]. cbn [is_sink].
    pose proof o_first as OF. rewrite Ov in OF. destruct OF as [->|[]]. auto.
Qed.

Lemma live' v' : In v' (g_vs (delete (R ++ gone s) g')) -> exists v, v' = h v /\ In v (g_vs (delete R g)).
Proof.
  intros H. apply in_delete_vs in H. destruct H as [H NR]. destruct (in_g' _ H) as [v [-> Hv]].
  exists v. split; auto. apply in_delete_vs. split; auto. intros F. apply NR. rewrite Hid. apply in_or_app. auto.
Qed.

Lemma keep_sep : apart (delete (R ++ gone s) g') (g_es g') pend.
Proof.
  pose proof (i_sep _ _ _ _ (inv_tail _ _ _ _ _ I)) as [S1 S2 S3]. constructor; auto.
  revert S3.
  assert (FM : forall l, incl l pend -> forall P P' : sequence -> sequence -> Prop,
            (forall a b, In a pend -> In b pend -> P a b -> P' a b) -> ForallOrdPairs P l -> ForallOrdPairs P' l).
  { clear. intros l IL P P' H F. induction F as [|a l F1 F2 IH]; constructor.
    - rewrite Forall_forall in *. intros b Hb. apply H; [apply IL; left; reflexivity|apply IL; right; exact Hb|]. apply F1. exact Hb.
    - apply IH. intros x Hx. apply IL. right. exact Hx. }
  apply FM; [apply incl_refl|]. clear FM. intros t1 t2 Ht1 Ht2 P RF u' v' n Hu' Iu NI Hv' Ov.
  destruct (live' _ Hu') as [u [-> Hu]]. destruct (live' _ Hv') as [v [-> Hv]]. rewrite Hid in Iu. rewrite !Hid.
  assert (Hug : In u (g_vs g)) by (apply in_delete_vs in Hu; tauto).
  assert (Hvg : In v (g_vs g)) by (apply in_delete_vs in Hv; tauto).
  assert (HD1 : In (hd 0 (s_nodes t1)) (s_nodes t1)).
  { destruct (i_chain _ _ _ _ I t1 (or_intror Ht1)) as [_ [CL _]]. rewrite RF in CL. destruct (s_nodes t1); simpl in *; [lia|auto]. }
  destruct (Nat.eq_dec (v_id v) (v_id first)) as [Q|Q].
  { right. exists (mkE (v_id first) (v_id vn) o o). rewrite Hes. split; [apply in_or_app; left; apply edge_g|].
    split; [cbn [e_src]; congruence|]. cbn [e_dst]. intros F. apply (nodes_dis t1 _ Ht1 HD1). rewrite <- Iu, <- F.
    apply (n_vngone _ _ _ _ _ _ _ _ _ _ E). }
  rewrite outs_other in Ov by (auto; intros ->; congruence).
  assert (MO : (v_id v <> last (s_nodes t2) 0 \/ exists e, In e (g_es g) /\ e_src e = v_id v /\ e_dst e <> v_id u) ->
               v_id v <> last (s_nodes t2) 0 \/ exists e, In e (g_es g') /\ e_src e = v_id v /\ e_dst e <> v_id u).
  { intros [W|[e [He W]]]; [left; exact W|right]. exists e. rewrite Hes. split; [apply in_or_app; left; exact He|exact W]. }
  destruct (Hins u Hug) as [QI|QI]; rewrite QI in NI; [apply MO; apply (P RF u v n); auto|].
  rewrite nth_error_map in NI. destruct (nth_error (v_ins u) ii) as [m|] eqn:NM; [|discriminate].
  simpl in NI. injection NI as <-. unfold sub in Ov. destruct (String.eqb_spec m lo) as [QM|QM].
  - exfalso. apply Q. f_equal. apply (ok_writer _ GD v first o); auto; [|apply o_first].
    apply (n_first _ _ _ _ _ _ _ _ _ _ E).
  - apply MO. apply (P RF u v m); auto.
Qed.

Lemma V_sub v : In v (g_vs g) -> map V (v_ins (h v)) = map V (v_ins v).
Proof.
  intros Hv. destruct HV as [Q|Q]; [|rewrite Q; auto]. destruct (Hins v Hv) as [->| ->]; auto.
  rewrite map_map. apply map_ext. intros n. unfold sub. destruct (String.eqb_spec n lo); congruence.
Qed.

Lemma keep_neu t : In t pend -> neutralV g' t.
Proof.
  intros Ht v' l Hv' Iv Ov. destruct (in_g' v' Hv') as [vt [-> Hvt]]. rewrite Hid in *.
  rewrite (last_outs t vt Ht Hvt Iv) in Ov.
  pose proof (i_neu _ _ _ _ I t (or_intror Ht) vt l Hvt Iv Ov) as NV.
  destruct (s_edit t) as [[c e]|].
  - intros w' xs Hw' Iw M. destruct (in_g' w' Hw') as [w [-> Hw]]. rewrite Hid in *. rewrite V_sub in M by auto.
    apply (NV w xs); auto.
  - intros w' n Hw' Iw NI. destruct (in_g' w' Hw') as [w [-> Hw]]. rewrite Hid in *.
    assert (M : nth_error (map V (v_ins (h w))) ii = Some (V n)) by (rewrite nth_error_map, NI; reflexivity).
    rewrite V_sub in M by auto. rewrite nth_error_map in M.
    destruct (nth_error (v_ins w) ii) as [m|] eqn:NM; [|discriminate]. simpl in M.
    rewrite <- (NV w m Hw Iw NM). congruence.
Qed.

Lemma keep_item a : item_ok g R (s :: pend) a -> item_ok g' (R ++ gone s) pend a.
Proof.
  destruct a as [[[i idx] new] x]. intros [Q1 [Q2 [Q3 [Q4 [Q5 [v [p [u [Hv [Iv [K [NI [U [Hu [KU [PO [NR [UW OE]]]]]]]]]]]]]]]]]].
  cbn [flat_map] in Q5.
  assert (Q5a : ~ In i (gone s)) by (intros F; apply Q5; apply in_or_app; auto).
  assert (Q5b : ~ In i (flat_map gone pend)) by (intros F; apply Q5; apply in_or_app; auto).
  assert (UF : u <> first).
  { intros ->. assert (F : In (mkE (v_id first) (v_id vn) o o) (out_edges g (v_id first))).
    { apply in_out_edges. split; [apply edge_g|reflexivity]. }
    rewrite OE in F. destruct F as [F|[]]. injection F as F _. apply Q5a. rewrite F.
    apply (n_vngone _ _ _ _ _ _ _ _ _ _ E). }
  assert (UI : v_id u <> v_id first).
  { intros F. apply UF. apply (id_inj g); auto using first_g. apply ids. }
  assert (PL : p <> lo).
  { intros ->. pose proof (UW vl vl_g lo_vl) as F. pose proof (n_kl _ _ _ _ _ _ _ _ _ _ E). congruence. }
  assert (PO2 : p <> o) by (intros ->; apply UF; symmetry; apply UW; [apply first_g|apply o_first]).
  assert (NL : new <> lo) by (intros ->; exact (proj1 (Q3 vl vl_g) lo_vl)).
  assert (NO : new <> o) by (intros ->; exact (proj1 (Q3 first first_g) o_first)).
  split; [exact Q1|]. split; [rewrite Hnode; auto|]. split; [|split; [|split; [exact Q5b|]]].
  - intros w' Hw'. destruct (in_g' w' Hw') as [w [-> Hw]]. destruct (Q3 w Hw) as [F1 [F2 F3]].
    rewrite Hname. split; [|split; [|exact F3]].
    + destruct (Houts w Hw) as [Q|[-> Q]]; rewrite Q; auto. intros F. apply in_supd in F. tauto.
    + destruct (Hins w Hw) as [Q|Q]; rewrite Q; auto. intros F. apply in_map_iff in F. destruct F as [m [F Hm]].
      unfold sub in F. destruct (String.eqb_spec m lo); congruence.
  - intros F. apply in_app_or in F. tauto.
  - exists (h v), p, (h u). rewrite !Hid, !Hkind. do 3 (split; [auto using h_in|]). split; [|split].
    + destruct (Hins v Hv) as [Q|Q]; rewrite Q; auto. rewrite nth_error_map, NI. simpl. unfold sub.
      destruct (String.eqb_spec p lo); [contradiction|reflexivity].
    + intros j Hj. destruct (Hins v Hv) as [Q|Q]; rewrite Q in Hj; [apply U; exact Hj|].
      rewrite nth_error_map in Hj. destruct (nth_error (v_ins v) j) as [m|] eqn:NM; [|discriminate].
      simpl in Hj. injection Hj as Hj. unfold sub in Hj. destruct (String.eqb_spec m lo); [congruence|]. apply U. congruence.
    + split; [auto using h_in|]. split; [exact KU|]. split; [rewrite outs_other; auto|]. split; [|split].
      * intros F. apply in_app_or in F. destruct F as [F|F]; [exact (NR F)|].
        destruct (gone_op g s _ (i_chain _ _ _ _ I s (or_introl eq_refl)) F) as [w [n [Hw [Iw [KW _]]]]].
        assert (w = u) by (apply (id_inj g); auto; apply ids). congruence.
      * intros w' Hw' Ow. destruct (in_g' w' Hw') as [w [-> Hw]]. f_equal. apply UW; auto.
        destruct (Houts w Hw) as [Q|[-> Q]]; rewrite Q in Ow; auto. apply in_supd in Ow. destruct Ow; [contradiction|auto].
      * rewrite out_g'; auto.
Qed.

Lemma keep_inv : inv g' (R ++ gone s) (acts ++ edit_items s) pend.
Proof.
  pose proof I as [I1 I2 I3 I4 I5 I6 I7 I8 I9 I10 I11 I12 I13 I14]. constructor; auto.
  - rewrite Hvs, map_map. rewrite (map_ext _ v_id) by exact Hid. exact I1.
  - assert (EO : forall e, edge_ok g e -> edge_ok g' e).
    { intros e [[u [Hu Iu]] [v [Hv [Iv KV]]]]. split; [exists (h u)|exists (h v)]; rewrite ?Hid, ?Hkind; auto using h_in. }
    intros e He. rewrite Hes in He. apply in_app_or in He. destruct He as [He|He]; [apply EO; auto|].
    destruct (HN e He) as [SE [e0 [He0 DE]]]. destruct (EO e0 (I4 e0 He0)) as [_ Q].
    split; [exists (h first); rewrite Hid; auto using h_in, first_g|]. rewrite <- DE. exact Q.
  - intros r Hr. apply in_app_or in Hr. destruct Hr as [Hr|Hr].
    + destruct (I5 r Hr) as [v [Hv Iv]]. exists (h v). rewrite Hid. auto using h_in.
    + destruct (gone_op g s r (I6 s (or_introl eq_refl)) Hr) as [v [n [Hv [Iv _]]]]. exists (h v). rewrite Hid. auto using h_in.
  - apply keep_chain.
  - intros t i Ht Hi F. apply in_app_or in F. destruct F as [F|F].
    + apply (I7 t i (or_intror Ht) Hi F).
    + apply (nodes_dis t i Ht Hi F).
  - apply keep_last.
  - apply keep_sep.
  - apply keep_neu.
  - intros a Ha. apply keep_item. apply I11. cbn [flat_map]. rewrite app_assoc. exact Ha.
  - cbn [flat_map] in I12. rewrite app_assoc in I12. exact I12.
  - intros a t Ha Ht HE. apply in_app_or in Ha. destruct Ha as [Ha|Ha]; [apply (I13 a t Ha (or_intror Ht) HE)|].
    assert (HS : has_edit s) by (unfold has_edit; unfold edit_items in Ha; destruct (s_edit s); [discriminate|destruct Ha]).
    destruct (n_edit _ _ _ _ _ _ _ _ _ _ E HS) as [Q _].
    assert (fst (fst (fst a)) = hd 0 (s_nodes s)) as ->.
    { unfold edit_items in Ha. destruct (s_edit s) as [[c l]|]; [|destruct Ha]. apply in_map_iff in Ha.
      destruct Ha as [b [<- _]]. reflexivity. }
    rewrite <- Q. intros F. apply (edited_not_first t Ht HE). congruence.
Qed.
End Keep.

(** * One sequence *)
Lemma decide_forward (g : graph) first l next on : decide g first l next on false = Forward ->
  (forall e, In e (out_edges g l) -> to_sink g e = false) /\ (is_kin (v_kind first) = true \/ 1 <? outdegree g (v_id first) = true).
Proof.
  unfold decide. set (sk := existsb (to_sink g) (out_edges g l)). intros H.
  assert (SK : sk = false /\ (is_kin (v_kind first) = true \/ 1 <? outdegree g (v_id first) = true)).
  { destruct (is_kin (v_kind first)); destruct sk; simpl in *;
    destruct (1 <? outdegree g (v_id first)); simpl in *; auto; try discriminate;
    match type of H with context [existsb ?f ?l] => destruct (existsb f l) end; discriminate. }
  destruct SK as [SK C]. split; [|exact C]. intros e He. destruct (to_sink g e) eqn:T; auto.
  assert (sk = true) by (apply existsb_exists; eauto). congruence.
Qed.

Lemma decide_connect (g : graph) first l next on : decide g first l next on false = Connect ->
  is_kin (v_kind first) = false /\
  (outdegree g (v_id first) <= 1 \/
   forall e, In e (out_edges g (v_id first)) -> e_dst e <> next ->
     (to_sink g e = true -> e_label e <> on) /\
     (forall v, to_sink g e = false -> vfind g (e_dst e) = Some v -> ~ In on (v_ins v))).
Proof.
  unfold decide. set (sk := existsb (to_sink g) (out_edges g l)). intros H.
  destruct (is_kin (v_kind first)) eqn:K; [destruct sk; destruct (1 <? outdegree g (v_id first)); simpl in H; discriminate|].
  split; auto. destruct (Nat.ltb_spec 1 (outdegree g (v_id first))) as [L|L]; [right|left; lia].
  destruct sk; simpl in H; [|discriminate].
  match type of H with context [existsb ?f ?l] => destruct (existsb f l) eqn:EX end; [discriminate|].
  intros e He NE.
  match type of EX with existsb ?f ?l = _ => assert (F : f e = true -> false = true) by
    (intros b; rewrite <- EX; apply existsb_exists; exists e; split; [exact He|exact b]) end.
  cbv beta in F. split.
  - intros T Q. assert (false = true); [apply F|discriminate].
    destruct (Nat.eqb_spec (e_dst e) next); [contradiction|]. rewrite T, Q. simpl. apply String.eqb_refl.
  - intros v T FV IN. assert (false = true); [apply F|discriminate].
    destruct (Nat.eqb_spec (e_dst e) next); [contradiction|]. rewrite T, FV. apply smem_in. exact IN.
Qed.

Lemma connect_apart g R acts s pend first vn vl o lo oi : inv g R acts (s :: pend) -> entry g R s pend first vn vl o lo oi ->
  forall l, decide g first l (v_id vn) o false = Connect -> forall t, In t pend -> v_id first <> last (s_nodes t) 0.
Proof.
  intros I E l DC t Ht F. destruct (decide_connect _ _ _ _ _ DC) as [_ OD]. pose proof (i_ids _ _ _ _ I) as ids.
  pose proof (i_chain _ _ _ _ I t (or_intror Ht)) as C. pose proof (first_g _ _ _ _ _ _ _ _ _ _ E) as Fg.
  assert (FG : In (v_id first) (gone t)) by (rewrite F; apply (last_gone g t C)).
  destruct (n_other _ _ _ _ _ _ _ _ _ _ E t Ht FG) as [_ [e [He De]]].
  destruct (gone_op g t _ C FG) as [w [n [Hw [Iw [_ Ow]]]]].
  assert (w = first) by (apply (id_inj g); auto). subst w.
  assert (n = o) by (pose proof (o_first _ _ _ _ _ _ _ _ _ _ E) as OF; rewrite Ow in OF; destruct OF as [->|[]]; reflexivity). subst n.
  destruct (i_last _ _ _ _ I t (or_intror Ht) first o e Fg F Ow He) as [w [Hw2 [Iw2 Q]]].
  pose proof (in_vfind g w ids Hw2) as FW. rewrite Iw2 in FW.
  destruct OD as [OD|OD].
  - assert (OE2 : In (mkE (v_id first) (v_id vn) o o) (out_edges g (v_id first))).
    { apply in_out_edges. split; [apply (edge_g _ _ _ _ _ _ _ _ _ _ E)|reflexivity]. }
    unfold outdegree in OD. destruct (out_edges g (v_id first)) as [|x [|y r]]; simpl in OD; try lia; [destruct He|].
    destruct He as [->|[]]. destruct OE2 as [->|[]]. apply De. reflexivity.
  - destruct (OD e He De) as [O1 O2].
    assert (TS : to_sink g e = is_sink (v_kind w)) by (unfold to_sink, kind_of; rewrite FW; reflexivity).
    destruct (is_sink (v_kind w)); [apply O1; tauto|]. apply (O2 w); tauto.
Qed.

Lemma later_items i (e : list (nat * string * X)) : forall xs,
  later (map (fun a => (i, fst (fst a), snd (fst a), snd a)) e) i xs =
  fold_left (fun xs a => put (fst (fst a)) (snd a) xs) e xs.
Proof.
  unfold later. induction e as [|a e IH]; intros xs; simpl; auto. rewrite Nat.eqb_refl. apply IH.
Qed.

Lemma removed_gone g (s : sequence) : chain g ii s -> removed s = gone s.
Proof. intros [RL _]. unfold removed, gone. rewrite RL. reflexivity. Qed.

Lemma edit_none (s : sequence) (g : graph) : s_edit s = None -> edit s g = (g, edit_items s).
Proof. intros H. unfold edit, edit_items. rewrite H. destruct (s_rf s && s_rl s); reflexivity. Qed.

Lemma step_inv g R acts s pend : inv g R acts (s :: pend) ->
  exists t', elim_one ii false (mkSt g R acts) s = Some t' /\ inv (st_g t') (st_rm t') (st_acts t') pend.
Proof.
  intros I. destruct (inv_entry _ _ _ _ _ I) as [first [vn [vl [o [lo [oi E]]]]]].
  pose proof (i_ids _ _ _ _ I) as ids. pose proof (i_good _ _ _ _ I) as GD.
  pose proof (i_chain _ _ _ _ I s (or_introl eq_refl)) as C.
  pose proof (first_g _ _ _ _ _ _ _ _ _ _ E) as Fg. pose proof (vl_g _ _ _ _ _ _ _ _ _ _ E) as Lg.
  pose proof (vl_gone _ _ _ _ _ _ _ _ _ _ _ I E) as LG. pose proof (o_first _ _ _ _ _ _ _ _ _ _ E) as OF.
  assert (VNg : In vn (g_vs g)).
  { pose proof (n_vn _ _ _ _ _ _ _ _ _ _ E) as H. apply in_delete_vs in H. tauto. }
  destruct E as [E1 E2 E3 E4 EB E5 E6 E7 E8 E9 E10 E11 E12 E13 E14 E15 E16 E17 E18] eqn:EE. clear EE.
  assert (NF : ~ In (v_id first) (gone s)) by exact E4.
  assert (LI : last_id s = v_id vl).
  { destruct C as [RL _]. unfold last_id, s_last. rewrite RL, E14. reflexivity. }
  assert (HPL := i_last _ _ _ _ I s (or_introl eq_refl)).
  assert (HPC : forall e, In e (out_edges g (v_id vl)) -> exists k, kind_of g (e_dst e) = Some k /\
     if is_sink k then String.prefix (lo ++ "_output") (e_name e) = true else e_name e = lo).
  { intros e He. destruct (HPL vl lo e Lg E14 E13 He) as [w [Hw [Iw Q]]]. exists (v_kind w).
    unfold kind_of. rewrite <- Iw, (in_vfind g w ids Hw). split; [reflexivity|]. destruct (is_sink (v_kind w)); tauto. }
  assert (OI : nth_error (v_outs first) oi = Some o) by (apply sindex_nth; exact E9).
  assert (VNL : v_id first <> v_id vl) by (intros F; apply NF; rewrite F; exact LG).
  (* the sinks *)
  assert (SKV : forall v, In v (g_vs g0) -> v_kind v <> KOp -> v_kind v <> KConst ->
            In v (g_vs g) /\ ~ In (v_id v) (R ++ gone s)).
  { intros v Hv K1 K2. pose proof (proj1 (i_sinks _ _ _ _ I) v Hv K1 K2) as H. apply in_delete_vs in H.
    destruct H as [H NR]. split; auto. intros F. apply in_app_or in F. destruct F as [F|F]; [exact (NR F)|].
    destruct (gone_op g s _ C F) as [w [n [Hw [Iw [KW _]]]]].
    assert (w = v) by (apply (id_inj g); auto). congruence. }
  assert (SKE : forall e v, In e (g_es g0) -> In v (g_vs g0) -> v_id v = e_dst e -> is_sink (v_kind v) = true ->
            exists i, In (mkE i (e_dst e) (e_name e) (e_label e)) (g_es g) /\ ~ In i R /\
              ~ In (e_dst e) (R ++ gone s) /\ kind_of g (e_dst e) = Some (v_kind v) /\
              (~ In i (gone s) \/ (i = v_id vl /\ e_label e = lo))).
  { intros e v He Hv Iv K. destruct (proj2 (i_sinks _ _ _ _ I) e v He Hv Iv K) as [i Hi].
    destruct (SKV v Hv) as [Hvg NR]; [intros F; rewrite F in K; discriminate|intros F; rewrite F in K; discriminate|].
    apply in_delete_es in Hi as Hi2. destruct Hi2 as [Hi2 [NRi _]]. simpl in NRi. exists i.
    split; [exact Hi2|]. split; [exact NRi|]. split; [rewrite <- Iv; exact NR|]. split.
    { unfold kind_of. rewrite <- Iv, (in_vfind g v ids Hvg). reflexivity. }
    destruct (in_dec Nat.eq_dec i (gone s)) as [Q|Q]; [right|left; exact Q].
    destruct (Nat.eq_dec i (v_id vl)) as [Q2|Q2].
    - split; auto. destruct (ok_edge _ GD _ Hi) as [u [w [Hu [_ [Iu [_ [L _]]]]]]]. simpl in Iu, L.
      assert (u = vl). { apply (id_inj g); auto; [apply in_delete_vs in Hu; tauto|congruence]. }
      subst u. rewrite E13 in L. destruct L as [L|[]]. congruence.
    - exfalso. destruct (E15 i Q Q2) as [b [Hb T]]. pose proof (T _ Hi2 eq_refl) as DB. simpl in DB.
      apply NR. apply in_or_app. right. rewrite Iv, DB. exact Hb. }
  (* the values *)
  assert (NV := i_neu _ _ _ _ I s (or_introl eq_refl) vl lo Lg E14 E13).
  assert (VO : s_edit s = None -> V o = V lo).
  { intros NE. rewrite NE in NV. apply (NV vn o VNg); [|exact E8].
    destruct (s_rf s) eqn:RF.
    - destruct E18 as [w [Hw [Iw ->]]]. rewrite Iw. destruct (s_nodes s); reflexivity.
    - rewrite <- E5. unfold s_first. rewrite E18, Nat.eqb_refl. reflexivity. }
  unfold elim_one. cbn [st_g st_rm st_acts]. rewrite E1. cbn [obind]. rewrite (in_vfind g first ids Fg). cbn [obind].
  rewrite E5, (in_vfind g vn ids VNg). cbn [obind]. rewrite E8. cbn [obind]. rewrite E9. cbn [obind].
  rewrite LI, (removed_gone g s C).
  destruct (decide g first (v_id vl) (v_id vn) o false) eqn:DC.
  - (* nothing happens *)
    eexists. split; [reflexivity|]. cbn [st_g st_rm st_acts]. apply (inv_tail _ _ _ _ _ I).
  - (* forward *)
    destruct (decide_forward _ _ _ _ _ DC) as [NS FW].
    assert (NE : s_edit s = None).
    { destruct (s_edit s) as [ed|] eqn:SE; auto. exfalso.
      destruct (E17 ltac:(unfold has_edit; congruence)) as [_ [K [_ OD]]]. rewrite K, OD in FW.
      destruct FW; discriminate. }
    specialize (VO NE).
    assert (HP : forall e, In e (out_edges g (v_id vl)) -> kind_of g (e_dst e) = Some KOp /\ e_name e = lo).
    { intros e He. destruct (HPC e He) as [k [K Q]]. pose proof (NS e He) as T. unfold to_sink in T. rewrite K in T.
      rewrite T in Q. split; [|exact Q]. apply in_out_edges in He. destruct He as [He _].
      destruct (i_edge _ _ _ _ I e He) as [_ [w [Hw [Iw KW]]]].
      unfold kind_of in K. rewrite <- Iw, (in_vfind g w ids Hw) in K. simpl in K. injection K as <-.
      rewrite T in KW. destruct KW as [KW|KW]; [|discriminate]. unfold kind_of.
      rewrite <- Iw, (in_vfind g w ids Hw). simpl. congruence. }
    rewrite (replace_next_closed g (v_id vl) (v_id first) vl lo o (in_vfind g vl ids Lg) E13 HP). cbn [obind].
    rewrite (edit_none s _ NE). cbn [obind]. eexists. split; [reflexivity|]. cbn [st_g st_rm st_acts].
    set (P := out_edges g (v_id vl)) in *.
    apply (keep_inv g (fwd_graph g P (v_id first) lo o) R acts s pend first vn vl o lo oi (fwd_v P lo o)
             (map (fun e => mkE (v_id first) (e_dst e) o o) P) I E).
    + reflexivity.
    + intros v. apply fwd_v_same.
    + intros v. apply fwd_v_same.
    + intros v. apply fwd_v_same.
    + intros v Hv. unfold fwd_v. destruct (hits P v); auto.
    + intros v Hv. left. apply fwd_v_same.
    + left. split; [intros v Hv; apply fwd_v_same|]. intros e He. apply in_map_iff in He. destruct He as [e0 [<- He0]].
      cbn [e_name e_dst]. split; [reflexivity|]. destruct (HPL vl lo e0 Lg E14 E13 He0) as [w [Hw [Iw Q]]].
      destruct (HP e0 He0) as [K _]. unfold kind_of in K. rewrite <- Iw, (in_vfind g w ids Hw) in K. simpl in K. injection K as K.
      exists w. do 3 (split; [assumption|]). rewrite K in Q. cbn [is_sink] in Q. destruct Q as [_ Q]. unfold fwd_v.
      assert (hits P w = true) as -> by (apply existsb_exists; exists e0; split; [exact He0|apply Nat.eqb_eq; congruence]).
      cbn [v_ins with_ins]. apply in_map_iff. exists lo. split; [|exact Q]. rewrite String.eqb_refl || (unfold sub; rewrite String.eqb_refl). reflexivity.
    + reflexivity.
    + intros e He. apply in_map_iff in He. destruct He as [e0 [<- He0]]. split; [reflexivity|].
      exists e0. split; [|reflexivity]. apply in_out_edges in He0. tauto.
    + reflexivity.
    + left. exact VO.
    + apply (fwd_good g R (gone s) first vl o lo); auto.
    + assert (edit_items s = []) as -> by (unfold edit_items; rewrite NE; reflexivity). rewrite app_nil_r.
      apply (fwd_fits g R (gone s) first vl o lo); auto. apply (i_fits _ _ _ _ I).
    + split.
      * intros v Hv K1 K2. destruct (SKV v Hv K1 K2) as [Hvg NR]. apply in_delete_vs.
        assert (EV : fwd_v P lo o v = v).
        { unfold fwd_v. destruct (hits P v) eqn:HT; auto. exfalso. unfold hits in HT. apply existsb_exists in HT.
          destruct HT as [e [He Q]]. apply Nat.eqb_eq in Q. destruct (HP e He) as [K _]. unfold kind_of in K.
          rewrite Q, (in_vfind g v ids Hvg) in K. simpl in K. congruence. }
        split; [|exact NR]. simpl. apply in_map_iff. exists v. auto.
      * intros e v He Hv Iv K. destruct (SKE e v He Hv Iv K) as [i [Hi [NRi [ND [KD Q]]]]]. exists i.
        destruct Q as [Q|[Q1 Q2]].
        -- apply in_delete_es. simpl. split; [apply in_or_app; left; exact Hi|]. split; [|exact ND].
           intros F. apply in_app_or in F. tauto.
        -- exfalso. assert (In (mkE i (e_dst e) (e_name e) (e_label e)) P).
           { apply in_out_edges. split; auto. }
           destruct (HP _ H) as [K2 _]. simpl in K2. rewrite KD in K2. injection K2 as K2. rewrite K2 in K. discriminate.
  - (* connect *)
    destruct (decide_connect _ _ _ _ _ DC) as [KI OD].
    assert (KF : v_kind first <> KIn) by (intros F; rewrite F in KI; discriminate).
    assert (ONLY : forall e, In e (g_es (delete R g)) -> e_src e = v_id first -> e_label e = o -> In (e_dst e) (gone s)).
    { intros e He SE LE. destruct (Nat.eq_dec (e_dst e) (v_id vn)) as [Q|Q]; [rewrite Q; exact E7|]. exfalso.
      apply in_delete_es in He as He2. destruct He2 as [He2 _].
      assert (OE : In e (out_edges g (v_id first))) by (apply in_out_edges; auto).
      destruct OD as [OD|OD].
      - apply in_delete_es in E10 as E10'. destruct E10' as [E10' _].
        assert (OE2 : In (mkE (v_id first) (v_id vn) o o) (out_edges g (v_id first))) by (apply in_out_edges; auto).
        unfold outdegree in OD. destruct (out_edges g (v_id first)) as [|x [|y l]]; simpl in OD; try lia; try tauto.
        destruct OE as [<-|[]]. destruct OE2 as [->|[]]. apply Q. reflexivity.
      - destruct (OD e OE Q) as [O1 O2]. destruct (ok_edge _ GD e He) as [u [w [_ [Hw [_ [Iw [_ [_ D]]]]]]]].
        assert (Hwg : In w (g_vs g)) by (apply in_delete_vs in Hw; tauto).
        pose proof (in_vfind g w ids Hwg) as FW. rewrite Iw in FW.
        assert (TS : to_sink g e = is_sink (v_kind w)) by (unfold to_sink, kind_of; rewrite FW; reflexivity).
        destruct D as [[D1 [D2 D3]]|[D1 D2]].
        + apply (O2 w); auto; [rewrite TS, D1; reflexivity|]. rewrite <- LE, <- D2. exact D3.
        + apply O1; congruence. }
    assert (APART : forall t, In t pend -> v_id first <> last (s_nodes t) 0) by (apply (connect_apart _ _ _ _ _ _ _ _ _ _ _ I E _ DC)).
    rewrite (in_vfind g vl ids Lg). cbn [obind]. rewrite E13. cbn [obind nth_error].
    rewrite (connect_next_closed g (v_id vl) (v_id first) lo HPC). cbn [obind].
    rewrite rename_closed.
    set (P := out_edges g (v_id vl)) in *.
    (* the graph that results *)
    assert (GO : forall opf buf, (forall n, n <> lo -> buf n = g_buf g n) -> (v_kind first = KConst -> buf lo = g_buf g o) ->
      fits run inp V (acts ++ edit_items s) (delete (R ++ gone s) (con_graph opf g (v_id vl) (v_id first) oi lo buf)) ->
      inv (con_graph opf g (v_id vl) (v_id first) oi lo buf) (R ++ gone s) (acts ++ edit_items s) pend).
    { intros opf buf B1 B2 FT.
      apply (keep_inv g (con_graph opf g (v_id vl) (v_id first) oi lo buf) R acts s pend first vn vl o lo oi (ren_v opf (v_id first) oi lo)
             (map (fun e => mkE (v_id first) (e_dst e) (e_name e) lo) P) I E).
      + reflexivity.
      + intros v. apply ren_v_same.
      + intros v. apply ren_v_same.
      + intros v. apply ren_v_same.
      + intros v Hv. left. apply ren_v_same.
      + intros v Hv. unfold ren_v. destruct (Nat.eqb_spec (v_id v) (v_id first)) as [Q|Q]; [right|left; reflexivity].
        split; [apply (id_inj g); auto|reflexivity].
      + right. split; [intros v Hv; apply ren_v_same|split; [exact APART|exact ONLY]].
      + reflexivity.
      + intros e He. apply in_map_iff in He. destruct He as [e0 [<- He0]]. split; [reflexivity|].
        exists e0. split; [|reflexivity]. apply in_out_edges in He0. tauto.
      + intros n NE. simpl. unfold fupd. destruct (String.eqb_spec n lo); [contradiction|reflexivity].
      + right. intros v Hv. apply ren_v_same.
      + apply (con_good g R (gone s) first vl o lo); auto.
      + exact FT.
      + split.
        * intros v Hv K1 K2. destruct (SKV v Hv K1 K2) as [Hvg NR]. apply in_delete_vs.
          assert (EV : ren_v opf (v_id first) oi lo v = v).
          { unfold ren_v. destruct (Nat.eqb_spec (v_id v) (v_id first)) as [Q|Q]; auto. exfalso.
            assert (v = first) by (apply (id_inj g); auto). subst v. destruct E3 as [E3|[E3|E3]]; congruence. }
          split; [|exact NR]. simpl. apply in_map_iff. exists v. auto.
        * intros e v He Hv Iv K. destruct (SKE e v He Hv Iv K) as [i [Hi [NRi [ND [KD Q]]]]].
          destruct Q as [Q|[Q1 Q2]].
          -- exists i. apply in_delete_es. simpl. split; [apply in_or_app; left; exact Hi|]. split; [|exact ND].
             intros F. apply in_app_or in F. tauto.
          -- exists (v_id first). apply in_delete_es. simpl. split; [|split; [|exact ND]].
             ++ apply in_or_app. right. apply in_map_iff. exists (mkE i (e_dst e) (e_name e) (e_label e)).
                split; [simpl; congruence|]. apply in_out_edges. split; auto.
             ++ intros F. apply in_delete_vs in E2. apply in_app_or in F. tauto. }
    destruct (s_edit s) as [[c ed]|] eqn:SE.
    + (* the first node is edited *)
      destruct (E17 ltac:(unfold has_edit; congruence)) as [HD [KO [OO _]]].
      rewrite KO. cbn [is_kconst]. unfold edit.
      assert (RF : s_rf s = false).
      { destruct (s_rf s) eqn:RF; auto. destruct C as [_ [_ [_ [C4 _]]]]. rewrite (C4 RF) in SE. discriminate. }
      rewrite RF, SE. cbn [andb]. unfold kept. rewrite RF. unfold s_first. rewrite <- HD, edit_closed.
      assert (EI : map (fun a => (v_id first, fst (fst a), snd (fst a), snd a)) ed = edit_items s).
      { unfold edit_items. rewrite SE, <- HD. reflexivity. }
      rewrite EI. eexists. split; [reflexivity|]. cbn [st_g st_rm st_acts]. apply GO; auto; [congruence|].
      apply (con_fits_edit g R (gone s) first vl o lo ids GD E2 E11 E13 LG oi (fun _ => c) (g_buf g)); auto; try congruence.
      * intros a Ha. rewrite HD. apply (i_heads _ _ _ _ I a s Ha (or_introl eq_refl)). unfold has_edit. congruence.
      * intros a Ha. rewrite <- EI in Ha. apply in_map_iff in Ha. destruct Ha as [b [<- _]]. reflexivity.
      * intros xs Hxs. rewrite <- EI, later_items. rewrite (NV first xs Fg HD Hxs). reflexivity.
      * apply (i_fits _ _ _ _ I).
    + assert (EI : edit_items s = []) by (unfold edit_items; rewrite SE; reflexivity).
      rewrite EI, app_nil_r in GO. specialize (VO eq_refl).
      assert (FT : forall buf, (forall n, n <> lo -> buf n = g_buf g n) -> (v_kind first = KConst -> buf lo = g_buf g o) ->
        fits run inp V acts (delete (R ++ gone s) (con_graph (fun c => c) g (v_id vl) (v_id first) oi lo buf))).
      { intros buf B1 B2.
        apply (con_fits g R (gone s) first vl o lo ids GD E2 OF NF E11 E13 LG oi (fun c => c) buf); auto.
        apply (i_fits _ _ _ _ I). }
      destruct (v_kind first) eqn:KK; try congruence; cbn [is_kconst].
      all: try (rewrite (edit_none s _ SE), EI, app_nil_r; eexists; split; [reflexivity|]; cbn [st_g st_rm st_acts];
                apply GO; [auto|congruence|]; apply FT; [auto|congruence]).
      (* a constant *)
      destruct (ok_const _ GD first E2 KK) as [n [x [ON [B1 B2]]]]. simpl in B1, B2.
      assert (n = o) by (rewrite ON in OF; destruct OF as [OF|[]]; exact OF). subst n.
      set (g2 := con_graph (fun c => c) g (v_id vl) (v_id first) oi lo (g_buf g)).
      assert (SB : set_buffer g2 ii s = Some (con_graph (fun c => c) g (v_id vl) (v_id first) oi lo (fupd (g_buf g) lo (Some x)))).
      { unfold set_buffer, s_first, s_last.
        assert (FG : forall v, In v (g_vs g) -> vfind g2 (v_id v) = Some (ren_v (fun c => c) (v_id first) oi lo v)).
        { intros v Hv. unfold vfind, g2. simpl. rewrite find_map_id by (intros; apply ren_v_same).
          pose proof (in_vfind g v ids Hv) as Q. unfold vfind in Q. rewrite Q. reflexivity. }
        assert (RL : ren_v (fun c => c) (v_id first) oi lo vl = vl).
        { unfold ren_v. destruct (Nat.eqb_spec (v_id vl) (v_id first)); [congruence|reflexivity]. }
        destruct (s_rf s) eqn:RF.
        - destruct E18 as [w [Hw [Iw ->]]]. rewrite <- Iw, <- E14, !FG by auto. cbn [obind].
          assert (KN : v_kind vn = KOp).
          { destruct (gone_op g s _ C E7) as [w [n [Hw2 [Iw2 [KW _]]]]].
            assert (w = vn) by (apply (id_inj g); auto). congruence. }
          assert (RN : ren_v (fun c => c) (v_id first) oi lo vn = vn).
          { unfold ren_v. destruct (Nat.eqb_spec (v_id vn) (v_id first)) as [Q|Q]; [|reflexivity].
            exfalso. apply NF. rewrite <- Q. exact E7. }
          rewrite RN, RL, KN, E8, E13. cbn [is_kconst obind nth_error]. unfold g2. cbn [g_buf g_vs g_es g_node con_graph].
          rewrite B1. reflexivity.
        - rewrite <- E18, <- E14, !FG by auto. cbn [obind]. rewrite RL, E13.
          destruct (ren_v_same (fun c => c) (v_id first) oi lo first) as [_ [R2 [R3 _]]]. rewrite R2, R3, KK.
          cbn [is_kconst obind nth_error]. unfold g2. cbn [g_buf g_vs g_es g_node con_graph]. rewrite B2. reflexivity. }
      rewrite SB. cbn [obind]. rewrite (edit_none s _ SE), EI, app_nil_r. eexists. split; [reflexivity|]. cbn [st_g st_rm st_acts].
      assert (BU : forall n, n <> lo -> fupd (g_buf g) lo (Some x) n = g_buf g n).
      { intros n NE. unfold fupd. destruct (String.eqb_spec n lo); [contradiction|reflexivity]. }
      assert (BU' : fupd (g_buf g) lo (Some x) lo = g_buf g o).
      { unfold fupd. rewrite String.eqb_refl. congruence. }
      apply GO; auto.
Qed.

Lemma steps_inv : forall l g R acts, inv g R acts l ->
  exists t', fold_opt (elim_one ii false) (mkSt g R acts) l = Some t' /\ inv (st_g t') (st_rm t') (st_acts t') [].
Proof.
  induction l as [|s l IH]; intros g R acts I.
  - exists (mkSt g R acts). split; [reflexivity|exact I].
  - destruct (step_inv _ _ _ _ _ I) as [[g1 R1 a1] [E1 I1]]. cbn [fold_opt]. rewrite E1. cbn [obind]. apply IH. exact I1.
Qed.

(** * The inputs that are replaced at the end *)
Lemma filter_one {A} (P : A -> bool) a : forall l, filter P l = [a] ->
  exists l1 l2, l = l1 ++ a :: l2 /\ forall b, In b (l1 ++ l2) -> P b = false.
Proof.
  induction l as [|b l IH]; simpl; intros H; [discriminate|]. destruct (P b) eqn:PB.
  - injection H as -> H. exists [], l. split; auto. simpl. intros c Hc. destruct (P c) eqn:PC; auto.
    assert (F : In c (filter P l)) by (apply filter_In; auto). rewrite H in F. destruct F.
  - destruct (IH H) as [l1 [l2 [-> Q]]]. exists (b :: l1), l2. split; auto. intros c [<-|Hc]; auto.
Qed.

Lemma drop_first_mid {A} (P : A -> bool) a l2 : forall l1, (forall b, In b l1 -> P b = false) -> P a = true ->
  drop_first P (l1 ++ a :: l2) = l1 ++ l2.
Proof.
  induction l1 as [|b l1 IH]; simpl; intros H PA; [rewrite PA; reflexivity|].
  rewrite (H b (or_introl eq_refl)). f_equal. apply IH; auto.
Qed.

Lemma in_list_max (l : list nat) i : In i l -> i <= list_max l.
Proof.
  intros H. pose proof (proj1 (list_max_le l (list_max l)) (le_n _)) as F. rewrite Forall_forall in F. apply F. exact H.
Qed.

Lemma act_inv g R a acts : inv g R (a :: acts) [] ->
  exists g', replace_input g a = Some g' /\ inv g' R acts [].
Proof.
  intros I. destruct a as [[[i idx] new] x].
  pose proof (i_ids _ _ _ _ I) as ids. pose proof (i_good _ _ _ _ I) as GD.
  pose proof (i_items _ _ _ _ I _ (or_introl eq_refl)) as IT.
  destruct IT as [VN [GN [FR [NR [_ [v [p [u [Hv [Iv [K [NI [UP [Hu [KU [PO [NRu [UW OE]]]]]]]]]]]]]]]]]].
  set (j := fresh_id g).
  assert (JF : forall w, In w (g_vs g) -> v_id w <> j).
  { intros w Hw F. pose proof (in_list_max _ _ (in_map v_id _ _ Hw)). unfold j, fresh_id in F. lia. }
  assert (JR : ~ In j R).
  { intros F. destruct (i_rm _ _ _ _ I j F) as [w [Hw Iw]]. exact (JF w Hw Iw). }
  destruct (filter_one _ _ _ OE) as [l1 [l2 [ES NS]]].
  set (E0 := mkE (v_id u) i p p) in *.
  set (h := fun w => if v_id w =? i then with_ins (supd idx new (v_ins w)) w else w).
  set (nv := mkV j new KConst 0 [] [new]).
  set (g' := mkG (map h (g_vs g) ++ [nv]) ((l1 ++ l2) ++ [mkE j i new new]) (fupd (g_node g) new (Some j)) (fupd (g_buf g) new (Some x))).
  assert (RI : replace_input g (i, idx, new, x) = Some g').
  { unfold replace_input. pose proof (in_vfind g v ids Hv) as FV. rewrite Iv in FV. rewrite FV. cbn [obind].
    rewrite NI. cbn [obind]. rewrite GN. unfold g'. f_equal. f_equal. f_equal. rewrite ES. apply drop_first_mid.
    - intros b Hb. unfold old_edge. destruct (vfind g (e_src b)) as [w|] eqn:FW; [|rewrite andb_false_r; reflexivity].
      destruct (smem p (v_outs w)) eqn:SM; [|rewrite andb_false_r; reflexivity]. exfalso.
      apply smem_in in SM. apply vfind_in in FW. destruct FW as [Hw Iw]. rewrite (UW w Hw SM) in Iw.
      assert (F : (e_src b =? v_id u) = false) by (apply NS; apply in_or_app; left; exact Hb).
      rewrite <- Iw, Nat.eqb_refl in F. discriminate.
    - unfold old_edge, E0. cbn [e_src e_dst e_name]. rewrite Nat.eqb_refl, String.eqb_refl, (in_vfind g u ids Hu).
      apply smem_in in PO. rewrite PO. reflexivity. }
  exists g'. split; [exact RI|]. clear RI.
  assert (HI : forall w, v_id (h w) = v_id w) by (intros w; unfold h; destruct (v_id w =? i); reflexivity).
  assert (HK : forall w, v_kind (h w) = v_kind w) by (intros w; unfold h; destruct (v_id w =? i); reflexivity).
  assert (HNm : forall w, v_name (h w) = v_name w) by (intros w; unfold h; destruct (v_id w =? i); reflexivity).
  assert (HO : forall w, v_outs (h w) = v_outs w) by (intros w; unfold h; destruct (v_id w =? i); reflexivity).
  assert (HOp : forall w, v_op (h w) = v_op w) by (intros w; unfold h; destruct (v_id w =? i); reflexivity).
  assert (Hh : forall w, In w (g_vs g) -> (w = v /\ v_ins (h w) = supd idx new (v_ins v)) \/ (w <> v /\ v_id w <> i /\ h w = w)).
  { intros w Hw. unfold h. destruct (Nat.eqb_spec (v_id w) i) as [Q|Q]; [left|right].
    - assert (w = v) by (apply (id_inj g); auto; congruence). subst w. auto.
    - split; [congruence|]. split; auto. }
  assert (HIn : forall w n, In w (g_vs g) -> In n (v_ins (h w)) -> (n = new /\ w = v) \/ (In n (v_ins w) /\ n <> new)).
  { intros w n Hw Hn. destruct (Hh w Hw) as [[-> Q]|[_ [_ Q]]]; rewrite Q in Hn.
    - apply in_supd in Hn. destruct Hn as [->|Hn]; [left; auto|right]. split; auto. intros ->.
      apply (proj1 (proj2 (FR v Hv))). exact Hn.
    - right. split; auto. intros ->. apply (proj1 (proj2 (FR w Hw))). exact Hn. }
  assert (Pgone : ~ In p (supd idx new (v_ins v))).
  { intros F. apply In_nth_error in F. destruct F as [k F]. rewrite nth_supd in F.
    destruct (Nat.eqb_spec k idx) as [Q|Q]; simpl in F.
    - rewrite Q in F. assert (idx < List.length (v_ins v)) by (apply nth_error_Some; congruence).
      destruct (Nat.ltb_spec idx (List.length (v_ins v))); [|lia]. injection F as ->.
      apply (proj1 (FR u Hu)). exact PO.
    - apply Q. apply UP. exact F. }
  assert (ED : forall e, In e (g_es g) -> e = E0 \/ In e (l1 ++ l2)).
  { intros e He. rewrite ES in He. apply in_app_or in He. destruct He as [He|[He|He]]; auto; right; apply in_or_app; auto. }
  assert (ED2 : forall e, In e (l1 ++ l2) -> In e (g_es g) /\ e_src e <> v_id u).
  { intros e He. split.
    - rewrite ES. apply in_app_or in He. apply in_or_app. destruct He as [He|He]; [left; exact He|right; right; exact He].
    - intros F. pose proof (NS e He) as Q. rewrite F, Nat.eqb_refl in Q. discriminate. }
  (* the vertices afterwards *)
  assert (IN' : forall w', In w' (g_vs g') -> w' = nv \/ exists w, w' = h w /\ In w (g_vs g)).
  { intros w' H. unfold g' in H. cbn [g_vs] in H. apply in_app_or in H. destruct H as [H|[H|[]]]; [right|left; auto].
    apply in_map_iff in H. destruct H as [w [<- Hw]]. eauto. }
  assert (INh : forall w, In w (g_vs g) -> In (h w) (g_vs g')).
  { intros w Hw. unfold g'. cbn [g_vs]. apply in_or_app. left. apply in_map. exact Hw. }
  assert (INn : In nv (g_vs g')) by (unfold g'; cbn [g_vs]; apply in_or_app; right; left; reflexivity).
  assert (LV : forall w', In w' (g_vs (delete R g')) -> w' = nv \/ exists w, w' = h w /\ In w (g_vs (delete R g)) /\ In w (g_vs g)).
  { intros w' H. apply in_delete_vs in H. destruct H as [H NRw]. destruct (IN' w' H) as [->|[w [-> Hw]]]; [left; reflexivity|right].
    rewrite HI in NRw. exists w. split; auto. split; auto. apply in_delete_vs. auto. }
  assert (LVh : forall w, In w (g_vs (delete R g)) -> In (h w) (g_vs (delete R g'))).
  { intros w H. apply in_delete_vs in H. destruct H as [H NRw]. apply in_delete_vs. rewrite HI. auto. }
  assert (LVn : In nv (g_vs (delete R g'))) by (apply in_delete_vs; split; auto).
  assert (HvD : In v (g_vs (delete R g))) by (apply in_delete_vs; split; [exact Hv|rewrite Iv; exact NR]).
  assert (NDn : NoDup (map v_id (g_vs g'))).
  { unfold g'. cbn [g_vs]. rewrite map_app, map_map. rewrite (map_ext _ v_id) by exact HI. cbn [map].
    clear - ids JF. unfold nv. cbn [v_id]. revert JF ids. induction (g_vs g) as [|w l IH]; simpl; intros JF H.
    - constructor; [tauto|constructor].
    - inversion H as [|? ? N D]; subst. constructor.
      + intros F. apply in_app_or in F. destruct F as [F|[F|[]]]; [exact (N F)|]. apply (JF w); auto.
      + apply IH; auto. }
  assert (FRo : forall w, In w (g_vs g) -> ~ In new (v_outs w)) by (intros w Hw; apply (FR w Hw)).
  assert (FRn : forall w, In w (g_vs g) -> new <> v_name w) by (intros w Hw; apply (FR w Hw)).
  assert (GD' : good (delete R g')).
  { constructor.
    - simpl. apply NoDup_map_filter. exact NDn.
    - intros w1' w2' n H1 H2 O1 O2. destruct (LV _ H1) as [->|[w1 [-> [D1 G1]]]]; destruct (LV _ H2) as [->|[w2 [-> [D2 G2]]]]; auto.
      + rewrite HO in O2. destruct O1 as [<-|[]]. exfalso. exact (FRo _ G2 O2).
      + rewrite HO in O1. destruct O2 as [<-|[]]. exfalso. exact (FRo _ G1 O1).
      + rewrite HO in O1, O2. rewrite (ok_writer _ GD w1 w2 n); auto.
    - intros w' H. destruct (LV _ H) as [->|[w [-> [D1 G1]]]].
      + constructor; [tauto|constructor].
      + rewrite HO. apply (ok_outs _ GD w D1).
    - intros w' n H K' Hn. destruct (LV _ H) as [->|[w [-> [D1 G1]]]]; [discriminate K'|].
      rewrite HK in K'. destruct (HIn w n G1 Hn) as [[-> ->]|[Hn2 NN]].
      + exists nv. split; [exact LVn|]. split; [left; reflexivity|]. split; [right; left; reflexivity|].
        apply in_delete_es. rewrite HI, Iv. unfold nv. cbn [v_id e_src e_dst]. split; [|split; auto].
        unfold g'. cbn [g_es]. apply in_or_app. right. left. reflexivity.
      + destruct (ok_reads _ GD w n D1 K' Hn2) as [q [Hq [Oq [Sq EQ]]]].
        exists (h q). split; [apply LVh; exact Hq|]. rewrite HO, HK, !HI. split; [exact Oq|]. split; [exact Sq|].
        apply in_delete_es in EQ. destruct EQ as [EQ [N1 N2]]. apply in_delete_es. split; [|split; auto].
        unfold g'. cbn [g_es]. apply in_or_app. left. destruct (ED _ EQ) as [F|F]; [exfalso|exact F].
        unfold E0 in F. injection F as F1 F2 F3. subst n. destruct (Hh w G1) as [[-> Q]|[_ [Q _]]]; [|congruence].
        rewrite Q in Hn. exact (Pgone Hn).
    - intros e He. apply in_delete_es in He. destruct He as [He [N1 N2]]. unfold g' in He. cbn [g_es] in He.
      apply in_app_or in He. destruct He as [He|[<-|[]]].
      + destruct (ED2 e He) as [HeG NU]. assert (HeD : In e (g_es (delete R g))) by (apply in_delete_es; auto).
        destruct (ok_edge _ GD e HeD) as [a [b [Ha [Hb [Ia [Ib [La [Sa C]]]]]]]].
        exists (h a), (h b). rewrite HO, !HK, !HI. split; [auto|]. split; [auto|]. do 4 (split; [assumption|]).
        destruct C as [[C1 [C2 C3]]|C]; [left|right; exact C]. do 2 (split; [assumption|]).
        assert (Hbg : In b (g_vs g)) by (apply in_delete_vs in Hb; apply Hb).
        assert (Hag : In a (g_vs g)) by (apply in_delete_vs in Ha; apply Ha).
        destruct (Hh b Hbg) as [[-> Q]|[_ [_ Q]]]; rewrite Q; auto.
        apply in_supd_other with (z := p); auto. intros F. rewrite <- C2, F in La.
        apply NU. rewrite <- Ia, (UW a Hag La). reflexivity.
      + exists nv, (h v). rewrite HI, HK. split; [exact LVn|]. split; [auto|]. split; [reflexivity|]. split; [exact Iv|].
        split; [left; reflexivity|]. split; [right; left; reflexivity|]. left. split; [exact K|]. split; [reflexivity|].
        cbn [e_name]. destruct (Hh v Hv) as [[_ Q]|[Q _]]; [|congruence]. rewrite Q. apply in_supd_new with (z := p). exact NI.
    - intros w' n H On. unfold g'. cbn [g_node delete]. unfold fupd. destruct (LV _ H) as [->|[w [-> [D1 G1]]]].
      + destruct On as [<-|[]]. rewrite String.eqb_refl. reflexivity.
      + rewrite HO in On. destruct (String.eqb_spec n new) as [->|Q]; [exfalso; exact (FRo _ G1 On)|].
        rewrite HI. apply (ok_node _ GD w n D1 On).
    - intros w' H K'. unfold g'. cbn [g_buf delete]. unfold fupd. destruct (LV _ H) as [->|[w [-> [D1 G1]]]].
      + exists new, x. unfold nv. cbn [v_name v_outs]. rewrite String.eqb_refl. auto.
      + rewrite HO, HNm. rewrite HK in K'. destruct (ok_const _ GD w D1 K') as [n [y [O [B1 B2]]]]. exists n, y.
        simpl in B1, B2.
        destruct (String.eqb_spec n new) as [->|Q]; [exfalso; apply (FRo _ G1); rewrite O; left; reflexivity|].
        destruct (String.eqb_spec (v_name w) new) as [Q2|Q2]; [exfalso; apply (FRn _ G1); congruence|]. auto.
    - intros a' b' H1 H2 K' On. destruct (LV _ H1) as [->|[w1 [-> [D1 G1]]]]; destruct (LV _ H2) as [->|[w2 [-> [D2 G2]]]]; auto.
      + rewrite HNm in On. destruct On as [On|[]]. exfalso. apply (FRn _ G2). congruence.
      + rewrite HO in On. exfalso. exact (FRo _ G1 On).
      + rewrite HO, HNm in On. rewrite HK in K'. rewrite (ok_name _ GD w1 w2 D1 D2 K' On). reflexivity.
    - destruct (ok_acyclic _ GD) as [rank RK].
      exists (fun k => if k =? j then 0 else S (rank k)). intros a' b' n H1 H2 On Hn.
      destruct (LV _ H2) as [->|[w2 [-> [D2 G2]]]]; [destruct Hn|].
      rewrite HI. destruct (Nat.eqb_spec (v_id w2) j) as [Q|_]; [exfalso; exact (JF _ G2 Q)|].
      destruct (LV _ H1) as [->|[w1 [-> [D1 G1]]]].
      + unfold nv. cbn [v_id]. rewrite Nat.eqb_refl. lia.
      + rewrite HI. destruct (Nat.eqb_spec (v_id w1) j) as [Q|_]; [exfalso; exact (JF _ G1 Q)|].
        rewrite HO in On. destruct (HIn w2 n G2 Hn) as [[-> _]|[Hn2 _]]; [exfalso; exact (FRo _ G1 On)|].
        pose proof (RK w1 w2 n D1 D2 On Hn2). lia. }
  pose proof (i_fits _ _ _ _ I) as FT.
  constructor; auto; try (intros s F; destruct F; fail); try (intros s k F; destruct F; fail).
  - (* the values *)
    intros w' H. destruct (LV _ H) as [->|[w [-> [D1 G1]]]].
    + unfold nv. cbn [v_kind v_outs]. intros n [<-|[]]. unfold g'. cbn [g_buf delete]. unfold fupd. rewrite String.eqb_refl. exact VN.
    + rewrite HK, HO, HOp, HI. pose proof (FT w D1) as F. destruct (v_kind w) eqn:KW; auto.
      * intros n Hn. unfold g'. cbn [g_buf delete]. unfold fupd.
        destruct (String.eqb_spec n new) as [->|Q]; [exfalso; exact (FRo _ G1 Hn)|]. apply F. exact Hn.
      * destruct F as [xs [F1 F2]]. destruct (Hh w G1) as [[-> Q]|[_ [Q Q2]]].
        -- exists (supd idx x xs). split.
           ++ rewrite Q, !map_supd, VN, F1. reflexivity.
           ++ intros k n Hk. rewrite (F2 k n Hk). unfold later at 1. cbn [fold_left fst snd]. rewrite Iv, Nat.eqb_refl, <- supd_put. reflexivity.
        -- exists xs. split; [rewrite Q2; exact F1|]. intros k n Hk. rewrite (F2 k n Hk). unfold later at 1.
           cbn [fold_left fst snd]. destruct (Nat.eqb_spec i (v_id w)); [congruence|reflexivity].
  - intros e He. unfold g' in He. cbn [g_es] in He. apply in_app_or in He. destruct He as [He|[<-|[]]].
    + destruct (ED2 e He) as [HeG _]. destruct (i_edge _ _ _ _ I e HeG) as [[a [Ha Ia]] [b [Hb [Ib Kb]]]].
      split; [exists (h a); rewrite HI; auto|]. exists (h b). rewrite HI, HK. auto.
    + split; [exists nv; auto|]. exists (h v). rewrite HI, HK. auto.
  - intros r Hr. destruct (i_rm _ _ _ _ I r Hr) as [w [Hw Iw]]. exists (h w). rewrite HI. auto.
  - constructor; simpl; [constructor|intros s []|constructor].
  - (* the inputs still to replace *)
    intros [[[i' idx'] new'] x'] Ha. cbn [flat_map] in Ha. rewrite app_nil_r in Ha.
    assert (NN : new' <> new).
    { pose proof (i_new _ _ _ _ I) as ND. cbn [flat_map] in ND. rewrite app_nil_r in ND. cbn [map fst snd] in ND.
      inversion ND as [|? ? N _]; subst. intros ->. apply N. apply in_map_iff. exists (i', idx', new, x'). auto. }
    assert (IT : item_ok g R [] (i', idx', new', x')).
    { apply (i_items _ _ _ _ I). right. apply in_or_app. left. exact Ha. }
    destruct IT as [VN' [GN' [FR' [NR' [_ [v' [p' [u' [Hv' [Iv' [K' [NI' [UP' [Hu' [KU' [PO' [NRu' [UW' OE']]]]]]]]]]]]]]]]]].
    split; [exact VN'|]. split; [unfold g'; cbn [g_node]; unfold fupd; destruct (String.eqb_spec new' new); [contradiction|exact GN']|].
    split.
    { intros w' Hw'. destruct (IN' w' Hw') as [->|[w [-> Hw]]].
      - unfold nv. cbn [v_outs v_ins v_name]. split; [intros [F|[]]; congruence|]. split; [intros []|exact NN].
      - rewrite HO, HNm. destruct (FR' w Hw) as [F1 [F2 F3]]. split; auto. split; auto. intros F.
        destruct (HIn w new' Hw F) as [[Q _]|[Q _]]; [contradiction|exact (F2 Q)]. }
    split; [exact NR'|]. split; [intros []|].
    destruct (in_dec (fun a b => Nat.eq_dec a b) i' [i]) as [Q|Q].
    + destruct Q as [<-|[]]. assert (v' = v) by (apply (id_inj g); auto; congruence). subst v'.
      destruct (Hh v Hv) as [[_ QI]|[QI _]]; [|congruence].
      destruct (Nat.eq_dec idx' idx) as [->|QX].
      * exists (h v), new, nv. rewrite HI, HK. do 3 (split; [auto|]). rewrite QI.
        split.
        { rewrite nth_supd, Nat.eqb_refl. assert (idx < List.length (v_ins v)) by (apply nth_error_Some; congruence).
          destruct (Nat.ltb_spec idx (List.length (v_ins v))); [reflexivity|lia]. }
        split.
        { intros k Hk. rewrite nth_supd in Hk. destruct (Nat.eqb_spec k idx); auto. simpl in Hk. exfalso.
          apply (proj1 (proj2 (FR v Hv))). apply nth_error_In in Hk. exact Hk. }
        split; [exact INn|]. split; [reflexivity|]. split; [left; reflexivity|]. split; [exact JR|]. split.
        { intros w' Hw' Ow. destruct (IN' w' Hw') as [->|[w [-> Hw]]]; [reflexivity|]. rewrite HO in Ow. exfalso. exact (FRo _ Hw Ow). }
        unfold out_edges, g'. cbn [g_es]. rewrite filter_app. unfold nv. cbn [v_id filter e_src].
        rewrite Nat.eqb_refl. assert (filter (fun e => e_src e =? j) (l1 ++ l2) = []) as ->; [|reflexivity].
        destruct (filter (fun e => e_src e =? j) (l1 ++ l2)) as [|e l] eqn:FE; auto. exfalso.
        assert (He : In e (filter (fun e => e_src e =? j) (l1 ++ l2))) by (rewrite FE; left; reflexivity).
        apply filter_In in He. destruct He as [He EQ]. apply Nat.eqb_eq in EQ. destruct (ED2 e He) as [HeG _].
        destruct (i_edge _ _ _ _ I e HeG) as [[a [HaG Ia]] _]. apply (JF a HaG). congruence.
      * assert (PP : p' <> p) by (intros ->; apply QX; apply UP; exact NI').
        assert (UU : v_id u' <> v_id u).
        { intros F. rewrite F, OE in OE'. unfold E0 in OE'. injection OE' as F2. congruence. }
        exists (h v), p', (h u'). rewrite !HI, !HK. do 3 (split; [auto|]). rewrite QI.
        split; [rewrite nth_supd; destruct (Nat.eqb_spec idx' idx); [contradiction|exact NI']|].
        split.
        { intros k Hk. rewrite nth_supd in Hk. destruct (Nat.eqb_spec k idx); simpl in Hk; [|apply UP'; exact Hk].
          subst k. destruct (idx <? List.length (v_ins v)); [|apply UP'; exact Hk]. injection Hk as <-.
          exfalso. exact (FRo _ Hu' PO'). }
        split; [auto|]. split; [auto|]. split; [rewrite HO; exact PO'|]. split; [exact NRu'|]. split.
        { intros w' Hw' Ow. destruct (IN' w' Hw') as [->|[w [-> Hw]]].
          - destruct Ow as [<-|[]]. exfalso. exact (FRo _ Hu' PO').
          - rewrite HO in Ow. rewrite (UW' w Hw Ow). reflexivity. }
        unfold out_edges, g'. cbn [g_es]. rewrite filter_app. cbn [filter e_src].
        destruct (Nat.eqb_spec j (v_id u')) as [F|_]; [exfalso; apply (JF u' Hu'); congruence|]. rewrite app_nil_r.
        unfold out_edges in OE'. rewrite ES, filter_app in OE'. cbn [filter] in OE'. unfold E0 in OE' at 1. cbn [e_src] in OE'.
        destruct (Nat.eqb_spec (v_id u) (v_id u')) as [F|_]; [congruence|]. rewrite filter_app. exact OE'.
    + assert (NEi : i' <> i) by (intros ->; apply Q; left; reflexivity).
      assert (UU : v_id u' <> v_id u).
      { intros F. rewrite F, OE in OE'. unfold E0 in OE'. injection OE' as F2. congruence. }
      destruct (Hh v' Hv') as [[-> _]|[_ [_ QI]]]; [congruence|].
      exists (h v'), p', (h u'). rewrite !HI, !HK. do 3 (split; [auto|]). rewrite QI.
      split; [exact NI'|]. split; [exact UP'|].
      split; [auto|]. split; [auto|]. split; [rewrite HO; exact PO'|]. split; [exact NRu'|]. split.
      { intros w' Hw' Ow. destruct (IN' w' Hw') as [->|[w [-> Hw]]].
        - destruct Ow as [<-|[]]. exfalso. exact (FRo _ Hu' PO').
        - rewrite HO in Ow. rewrite (UW' w Hw Ow). reflexivity. }
      unfold out_edges, g'. cbn [g_es]. rewrite filter_app. cbn [filter e_src].
      destruct (Nat.eqb_spec j (v_id u')) as [F|_]; [exfalso; apply (JF u' Hu'); congruence|]. rewrite app_nil_r.
      unfold out_edges in OE'. rewrite ES, filter_app in OE'. cbn [filter] in OE'. unfold E0 in OE' at 1. cbn [e_src] in OE'.
      destruct (Nat.eqb_spec (v_id u) (v_id u')) as [F|_]; [congruence|]. rewrite filter_app. exact OE'.
  - pose proof (i_new _ _ _ _ I) as ND. cbn [map app] in ND. inversion ND; assumption.
  - destruct (i_sinks _ _ _ _ I) as [S1 S2]. split.
    + intros w Hw K1 K2. pose proof (S1 w Hw K1 K2) as HD. pose proof (LVh w HD) as Q.
      assert (HG : In w (g_vs g)) by (apply in_delete_vs in HD; apply HD).
      destruct (Hh w HG) as [[-> _]|[_ [_ QI]]]; [congruence|]. rewrite QI in Q. exact Q.
    + intros e w He Hw Iw KW. destruct (S2 e w He Hw Iw KW) as [k Hk]. exists k.
      apply in_delete_es in Hk. destruct Hk as [Hk NRk]. apply in_delete_es. split; [|exact NRk].
      unfold g'. cbn [g_es]. apply in_or_app. left. destruct (ED _ Hk) as [F|F]; [exfalso|exact F].
      unfold E0 in F. injection F as _ F _ _.
      assert (HD : In w (g_vs (delete R g))) by (apply S1; auto; intros Q; rewrite Q in KW; discriminate).
      assert (w = v) by (apply (id_inj g); auto; [apply in_delete_vs in HD; apply HD|congruence]).
      subst w. rewrite K in KW. discriminate.
Qed.

Lemma acts_inv : forall acts g R, inv g R acts [] ->
  exists g', fold_opt replace_input g acts = Some g' /\ inv g' R [] [].
Proof.
  induction acts as [|a acts IH]; intros g R I; [exists g; auto|].
  destruct (act_inv _ _ _ _ I) as [g1 [E1 I1]]. cbn [fold_opt]. rewrite E1. cbn [obind]. apply IH. exact I1.
Qed.

Lemma eliminate_inv l : inv g0 [] [] l -> exists g', eliminate ii false g0 l = Some g' /\ good g' /\
  fits run inp V [] g' /\
  (forall v, In v (g_vs g0) -> v_kind v <> KOp -> v_kind v <> KConst -> In v (g_vs g')) /\
  (forall e v, In e (g_es g0) -> In v (g_vs g0) -> v_id v = e_dst e -> is_sink (v_kind v) = true ->
     exists i, In (mkE i (e_dst e) (e_name e) (e_label e)) (g_es g')).
Proof.
  intros I. destruct (steps_inv _ _ _ _ I) as [[g1 R1 a1] [E1 I1]]. destruct (acts_inv _ _ _ I1) as [g2 [E2 I2]].
  exists (delete R1 g2). unfold eliminate. rewrite E1. cbn [obind st_g st_rm st_acts] in *. rewrite E2.
  split; [reflexivity|]. split; [apply (i_good _ _ _ _ I2)|]. split; [apply (i_fits _ _ _ _ I2)|]. apply (i_sinks _ _ _ _ I2).
Qed.
End Main.

(** * The whole function *)
Section Whole.
Context {X : Type}.
Notation graph := (graph X).
Notation sequence := (sequence X).
Variable run : nat -> list X -> nat -> X.

Lemma filter_all {A} (P : A -> bool) l : (forall a, P a = true) -> filter P l = l.
Proof. intros H. induction l as [|a l IH]; simpl; auto. rewrite H, IH. reflexivity. Qed.

Lemma delete_nil (g : graph) : delete [] g = g.
Proof. destruct g. unfold delete. simpl. rewrite !filter_all by reflexivity. reflexivity. Qed.

Definition item_name (a : action X) : string := snd (fst a).
Definition lookup (L : list (action X)) (V : string -> option X) (n : string) : option X :=
  match find (fun a => String.eqb (item_name a) n) L with Some a => Some (snd a) | None => V n end.

Lemma lookup_in L V a : NoDup (map item_name L) -> In a L -> lookup L V (item_name a) = Some (snd a).
Proof.
  intros ND Ha. unfold lookup. assert (find (fun b => String.eqb (item_name b) (item_name a)) L = Some a) as ->; [|reflexivity].
  induction L as [|b L IH]; [destruct Ha|]. simpl in *. inversion ND as [|? ? N D]; subst.
  destruct Ha as [->|Ha]; [rewrite String.eqb_refl; reflexivity|].
  destruct (String.eqb_spec (item_name b) (item_name a)) as [E|E]; [|auto].
  exfalso. apply N. rewrite E. apply in_map. exact Ha.
Qed.

Lemma lookup_out L V n : (forall a, In a L -> item_name a <> n) -> lookup L V n = V n.
Proof.
  intros H. unfold lookup. destruct (find (fun a => String.eqb (item_name a) n) L) as [a|] eqn:F; auto.
  apply find_some in F. destruct F as [Ha E]. apply String.eqb_eq in E. exfalso. exact (H a Ha E).
Qed.

Lemma items_names (l : list sequence) : map item_name (flat_map edit_items l) =
  flat_map (fun s => match s_edit s with Some (_, e) => map (fun a => snd (fst a)) e | None => [] end) l.
Proof.
  induction l as [|s l IH]; simpl; auto. rewrite map_app, IH. f_equal. unfold edit_items.
  destruct (s_edit s) as [[c e]|]; auto. rewrite map_map. reflexivity.
Qed.

Lemma items_in (l : list sequence) a : In a (flat_map edit_items l) ->
  exists s c e b, In s l /\ s_edit s = Some (c, e) /\ In b e /\ a = (hd 0 (s_nodes s), fst (fst b), snd (fst b), snd b).
Proof.
  intros H. apply in_flat_map in H. destruct H as [s [Hs H]]. unfold edit_items in H.
  destruct (s_edit s) as [[c e]|] eqn:E; [|destruct H]. apply in_map_iff in H. destruct H as [b [<- Hb]].
  exists s, c, e, b. auto.
Qed.

Lemma map_some_all {A} (f : string -> option A) l : (forall n, In n l -> f n <> None) -> exists xs, map f l = map Some xs.
Proof.
  induction l as [|n l IH]; intros H; [exists []; reflexivity|]. destruct IH as [xs E]; [intros m Hm; apply H; right; exact Hm|].
  destruct (f n) as [x|] eqn:F; [|exfalso; apply (H n); [left; reflexivity|exact F]]. exists (x :: xs). simpl. congruence.
Qed.

Theorem start_inv ii (g : graph) (l : list sequence) inp : good g -> given g inp ->
  (forall s, In s l -> chain g ii s /\ edits g s /\ neutral run g ii s) -> separate g ii l ->
  exists V, inv run inp ii V g g [] [] l /\ (forall v n, In v (g_vs g) -> source v -> In n (v_outs v) ->
    exists x, V n = Some x /\ computes run g inp n x).
Proof.
  intros G GV HS SP. destruct (good_fits run inp g G GV) as [V0 [F0 [C0 T0]]].
  set (L := flat_map edit_items l). set (V := lookup L V0).
  assert (NDL : NoDup (map item_name L)) by (unfold L; rewrite items_names; apply (sep_new _ _ _ SP)).
  (* what an item is *)
  assert (IT : forall a, In a L -> exists s v p u,
    In s l /\ has_edit s /\ fst (fst (fst a)) = hd 0 (s_nodes s) /\ In v (g_vs g) /\ v_id v = hd 0 (s_nodes s) /\ v_kind v = KOp /\
    g_node g (item_name a) = None /\
    (forall w, In w (g_vs g) -> ~ In (item_name a) (v_outs w) /\ ~ In (item_name a) (v_ins w) /\ item_name a <> v_name w) /\
    nth_error (v_ins v) (snd (fst (fst a))) = Some p /\ (forall j, nth_error (v_ins v) j = Some p -> j = snd (fst (fst a))) /\
    In u (g_vs g) /\ v_kind u = KConst /\ In p (v_outs u) /\
    filter (fun e => e_src e =? v_id u) (g_es g) = [mkE (v_id u) (v_id v) p p]).
  { intros a Ha. destruct (items_in l a Ha) as [s [c [e [[[k n] x] [Hs [SE [Hb ->]]]]]]].
    destruct (HS s Hs) as [C [ED _]].
    assert (HE : has_edit s) by (unfold has_edit; congruence).
    destruct C as [_ [_ [_ [_ [C5 _]]]]]. destruct (C5 (or_intror HE)) as [v [n0 [o [Hv [Iv [K _]]]]]].
    destruct (ED c e v k n x SE Hb Hv Iv) as [E1 [E2 [p [u [E3 [E4 [E5 [E6 [E7 E8]]]]]]]]].
    exists s, v, p, u. unfold item_name. cbn [fst snd]. do 6 (split; [auto|]). do 7 (split; [assumption|]). exact E8. }
  assert (VO : forall n, (exists w, In w (g_vs g) /\ (In n (v_outs w) \/ In n (v_ins w))) -> V n = V0 n).
  { intros n [w [Hw Q]]. apply lookup_out. intros a Ha F. destruct (IT a Ha) as [s [v [p [u [_ [_ [_ [_ [_ [_ [_ [FR _]]]]]]]]]]]].
    destruct (FR w Hw) as [F1 [F2 _]]. rewrite F in *. tauto. }
  assert (TV : forall v n, In v (g_vs g) -> source v -> In n (v_outs v) -> exists x, V n = Some x /\ computes run g inp n x).
  { intros v n Hv Sv Hn. pose proof (T0 v n Hv Sv Hn) as NN. rewrite (VO n (ex_intro _ v (conj Hv (or_introl Hn)))).
    destruct (V0 n) as [x|] eqn:E; [|congruence]. exists x. auto. }
  assert (RV : forall v n, In v (g_vs g) -> v_kind v = KOp -> In n (v_ins v) -> exists x, V n = Some x /\ computes run g inp n x).
  { intros v n Hv K Hn. destruct (ok_reads _ G v n Hv K Hn) as [u [Hu [Ou [Su _]]]]. apply (TV u n Hu Su Ou). }
  exists V. split; [|exact TV]. pose proof (delete_nil g) as DN. constructor; rewrite ?DN; auto.
  - apply (ok_ids _ G).
  - intros v Hv. pose proof (F0 v Hv) as F. destruct (v_kind v) eqn:K; auto.
    + intros n Hn. rewrite VO by (exists v; auto). apply F. exact Hn.
    + intros n Hn. rewrite VO by (exists v; auto). apply F. exact Hn.
    + destruct F as [xs [F1 F2]]. exists xs. split.
      * rewrite <- F1. apply map_ext_in. intros n Hn. apply VO. exists v. auto.
      * intros k n Hk. rewrite VO by (exists v; split; auto; left; apply nth_error_In in Hk; exact Hk). apply F2. exact Hk.
  - intros e He. destruct (ok_edge _ G e He) as [u [v [Hu [Hv [Iu [Iv [_ [_ C]]]]]]]]. split; [exists u; auto|].
    exists v. split; auto. split; auto. tauto.
  - intros r [].
  - intros s Hs. apply (HS s Hs).
  - intros s Hs vl lo e Hvl Il Ol He. apply in_out_edges in He. destruct He as [He SE].
    destruct (ok_edge _ G e He) as [u [v [Hu [Hv [Iu [Iv [La [_ C]]]]]]]].
    assert (u = vl) by (apply (id_inj g); auto; [apply (ok_ids _ G)|congruence]). subst u.
    rewrite Ol in La. destruct La as [La|[]]. exists v. do 2 (split; [assumption|]).
    destruct C as [[C1 [C2 C3]]|[C1 C2]]; [rewrite C1; simpl; split; [congruence|rewrite La, <- C2; exact C3]|rewrite C1, La; auto].
  - destruct SP. constructor; assumption.
  - intros s Hs vl lo Hvl Il Ol. destruct (HS s Hs) as [C [_ NE]]. specialize (NE inp vl lo GV Hvl Il Ol).
    assert (SL : source vl).
    { destruct (gone_op run ii g s _ C (last_gone ii g s C)) as [w [n [Hw [Iw [KW _]]]]].
      assert (w = vl) by (apply (id_inj g); auto; [apply (ok_ids _ G)|congruence]). subst w. right. right. exact KW. }
    destruct (TV vl lo Hvl SL ltac:(rewrite Ol; left; reflexivity)) as [y [Vy Cy]].
    destruct (s_edit s) as [[c e]|] eqn:SE.
    + intros v xs Hv Iv M. rewrite Vy. f_equal. symmetry. apply (NE v xs y Hv Iv); auto.
      assert (KV : v_kind v = KOp).
      { destruct C as [_ [_ [_ [_ [C5 _]]]]]. destruct (C5 ltac:(right; unfold has_edit; congruence)) as [w [n0 [o [Hw [Iw [KW _]]]]]].
        assert (w = v) by (apply (id_inj g); auto; [apply (ok_ids _ G)|congruence]). congruence. }
      assert (RV' := fun n => RV v n Hv KV). revert M RV'. generalize (v_ins v). clear - C0.
      intros ns. revert xs. induction ns as [|n ns IH]; intros [|x xs] M RV'; simpl in M; try discriminate; constructor.
      * destruct (RV' n (or_introl eq_refl)) as [z [Vz Cz]]. congruence.
      * apply IH; [congruence|]. intros m Hm. apply RV'. right. exact Hm.
    + intros v n Hv Iv NI.
      assert (KV : v_kind v = KOp).
      { destruct (s_rf s) eqn:RF.
        - destruct C as [_ [_ [_ [_ [C5 _]]]]]. destruct (C5 (or_introl RF)) as [w [n0 [o [Hw [Iw [KW _]]]]]].
          assert (w = v). { apply (id_inj g); auto; [apply (ok_ids _ G)|]. rewrite Iw, Iv. destruct (s_nodes s); reflexivity. }
          congruence.
        - destruct C as [_ [CL [CN _]]]. rewrite RF in CL. destruct (s_nodes s) as [|a [|b r]] eqn:SN; simpl in CL; try lia.
          destruct (CN 0 a b eq_refl eq_refl) as [[va [w [o [_ [Hw [_ [Iw [KW _]]]]]]]] _].
          assert (w = v) by (apply (id_inj g); auto; [apply (ok_ids _ G)|simpl in Iv; congruence]). congruence. }
      destruct (RV v n Hv KV ltac:(apply nth_error_In in NI; exact NI)) as [x [Vx Cx]].
      pose proof (NE v n x Hv Iv NI Cx) as Cl. rewrite Vx, Vy. f_equal. apply (computes_fun run inp g lo); auto.
  - intros [[[i idx] new] x] Ha. cbn [app] in Ha. destruct (IT _ Ha) as [s [v [p [u [Hs [HE [HI [Hv [Iv [K [GN [FR [NI [UP [Hu [KU [PO OE]]]]]]]]]]]]]]]]].
    unfold item_name in GN, FR. cbn [fst snd] in HI, GN, FR, NI, UP.
    split; [apply (lookup_in L V0 (i, idx, new, x)); auto|]. split; [exact GN|]. split; [exact FR|]. split; [intros []|]. split.
    + rewrite HI. apply (sep_first _ _ _ SP s Hs). destruct (s_rf s) eqn:RF; auto. exfalso. apply HE.
      destruct (HS s Hs) as [C _]. destruct C as [_ [_ [_ [C4 _]]]]. apply C4. exact RF.
    + exists v, p, u. split; [exact Hv|]. split; [congruence|]. do 6 (split; [assumption|]). split; [intros []|]. split.
      * intros w Hw Ow. apply (ok_writer _ G w u p); auto.
      * unfold out_edges. rewrite OE, HI, Iv. reflexivity.
  - split.
    + intros v Hv _ _. rewrite DN. exact Hv.
    + intros e v He Hv _ _. exists (e_src e). rewrite DN. destruct e. exact He.
Qed.

Theorem eliminate_correct ii (g : graph) (l : list sequence) : good g ->
  (forall s, In s l -> chain g ii s /\ edits g s /\ neutral run g ii s) -> separate g ii l ->
  exists g', eliminate ii false g l = Some g' /\ good g' /\ same_results run g g'.
Proof.
  intros G HS SP.
  assert (GO : forall inp, given g inp -> exists g' V, eliminate ii false g l = Some g' /\ good g' /\ fits run inp V [] g' /\
    (forall v, In v (g_vs g) -> v_kind v <> KOp -> v_kind v <> KConst -> In v (g_vs g')) /\
    (forall e v, In e (g_es g) -> In v (g_vs g) -> v_id v = e_dst e -> is_sink (v_kind v) = true ->
       exists i, In (mkE i (e_dst e) (e_name e) (e_label e)) (g_es g')) /\
    (forall v n, In v (g_vs g) -> source v -> In n (v_outs v) -> exists x, V n = Some x /\ computes run g inp n x)).
  { intros inp GV. destruct (start_inv ii g l inp G GV HS SP) as [V [I TV]].
    destruct (eliminate_inv run inp ii V g l I) as [g' [E [G' [F [S1 S2]]]]]. exists g', V. auto 10. }
  destruct (GO (fun _ => Some (run 0 [] 0))) as [g' [V [E [G' [_ [S1 [S2 _]]]]]]].
  { intros v n _ _ _. eauto. }
  exists g'. split; [exact E|]. split; [exact G'|]. split; [exact S1|].
  intros e v He Hv Iv K. split; [apply (S2 e v); auto|].
  intros inp x GV CX. destruct (GO inp GV) as [g2 [V2 [E2 [G2 [F2 [_ [S3 TV]]]]]]].
  rewrite E in E2. injection E2 as <-.
  destruct (ok_edge _ G e He) as [u [w [Hu [_ [_ [_ [La [Su _]]]]]]]].
  destruct (TV u _ Hu Su La) as [y [Vy Cy]]. assert (x = y) by (apply (computes_fun run inp g (e_label e)); auto). subst y.
  destruct (S3 e v He Hv Iv K) as [i Hi]. destruct (ok_edge _ G' _ Hi) as [u' [w' [Hu' [_ [_ [_ [La' [Su' _]]]]]]]]. simpl in La'.
  apply (fits_computes run inp V2 g' G' F2 u' (e_label e) x Hu' Su' La' Vy).
Qed.
End Whole.
