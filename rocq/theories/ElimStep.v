(** Proofs about taking one sequence out of the operator graph: the graph stays in order and keeps its values. *)
From Coq Require Import List Arith Bool String Lia.
From Verif Require Import ElimModel ElimSpec ElimBase.
Import ListNotations.

Section Step.
Context {X : Type}.
Notation graph := (graph X).

(** * Closed forms of the rewiring *)
Definition sub (a b t : string) : string := if String.eqb t a then b else t.
Definition hits (P : list edge) (v : vertex) : bool := existsb (fun e => e_dst e =? v_id v) P.
Definition fwd_v (P : list edge) (a b : string) (v : vertex) : vertex :=
  if hits P v then with_ins (map (sub a b) (v_ins v)) v else v.
Definition fwd_graph (g : graph) (P : list edge) (f : nat) (a b : string) : graph :=
  mkG (map (fwd_v P a b) (g_vs g)) (g_es g ++ map (fun e => mkE f (e_dst e) b b) P) (g_node g) (g_buf g).

Lemma fwd_v_same P a b v : v_id (fwd_v P a b v) = v_id v /\ v_name (fwd_v P a b v) = v_name v /\
  v_kind (fwd_v P a b v) = v_kind v /\ v_op (fwd_v P a b v) = v_op v /\ v_outs (fwd_v P a b v) = v_outs v.
Proof. unfold fwd_v. destruct (hits P v); simpl; auto. Qed.

Lemma find_map_id (h : vertex -> vertex) : (forall v, v_id (h v) = v_id v) -> forall vs i,
  find (fun v => v_id v =? i) (map h vs) = option_map h (find (fun v => v_id v =? i) vs).
Proof.
  intros H. induction vs as [|v vs IH]; intros i; simpl; auto. rewrite H. destruct (v_id v =? i); simpl; auto.
Qed.

Lemma sub_sub a b t : sub a b (sub a b t) = sub a b t.
Proof.
  unfold sub. destruct (String.eqb_spec t a); [|destruct (String.eqb_spec t a); congruence].
  destruct (String.eqb_spec b a); congruence.
Qed.

Lemma replace_closed (g : graph) f a b : forall L P,
  (forall e, In e L -> kind_of g (e_dst e) = Some KOp /\ e_name e = a) ->
  fold_opt (replace_one a f b) (fwd_graph g P f a b) L = Some (fwd_graph g (P ++ L) f a b).
Proof.
  induction L as [|e L IH]; intros P H; simpl; [rewrite app_nil_r; reflexivity|].
  destruct (H e (or_introl eq_refl)) as [K N].
  assert (K' : kind_of (fwd_graph g P f a b) (e_dst e) = Some KOp).
  { unfold kind_of, vfind in *. simpl. rewrite find_map_id by (intros; apply fwd_v_same).
    destruct (find (fun v => v_id v =? e_dst e) (g_vs g)) as [w|]; simpl in *; [|discriminate].
    destruct (fwd_v_same P a b w) as [_ [_ [-> _]]]. exact K. }
  unfold replace_one at 1. rewrite K'. cbn [obind is_kop]. rewrite N, String.eqb_refl. cbn [obind].
  replace (P ++ e :: L) with ((P ++ [e]) ++ L) by (rewrite <- app_assoc; reflexivity).
  rewrite <- IH by (intros; apply H; right; auto). f_equal.
  unfold fwd_graph, add_edge, on_vertex, set_vs. simpl. f_equal.
  - rewrite map_map. apply map_ext. intros v.
    destruct (fwd_v_same P a b v) as [E1 _]. rewrite E1.
    unfold fwd_v, hits. rewrite existsb_app. simpl. rewrite orb_false_r, Nat.eqb_sym.
    destruct (existsb (fun e0 => e_dst e0 =? v_id v) P); destruct (e_dst e =? v_id v); simpl; auto.
    unfold with_ins. simpl. f_equal. rewrite map_map. apply map_ext. intros t. apply (sub_sub a b t).
  - rewrite map_app, app_assoc. reflexivity.
Qed.

Lemma fwd_nil (g : graph) f a b : fwd_graph g [] f a b = g.
Proof.
  unfold fwd_graph. simpl. rewrite app_nil_r. destruct g as [vs es nd bf]. simpl. f_equal.
  induction vs as [|v vs IH]; simpl; auto. rewrite IH. reflexivity.
Qed.

Lemma replace_next_closed (g : graph) l f vl a b :
  vfind g l = Some vl -> v_outs vl = [a] ->
  (forall e, In e (out_edges g l) -> kind_of g (e_dst e) = Some KOp /\ e_name e = a) ->
  replace_next g l f b = Some (fwd_graph g (out_edges g l) f a b).
Proof.
  intros F O H. unfold replace_next. rewrite F. cbn [obind]. rewrite O. cbn [obind nth_error].
  pose proof (replace_closed g f a b (out_edges g l) [] H) as E. rewrite fwd_nil in E. exact E.
Qed.

Definition con_es (g : graph) (l f : nat) (new : string) : graph :=
  mkG (g_vs g) (g_es g ++ map (fun e => mkE f (e_dst e) (e_name e) new) (out_edges g l)) (g_node g) (g_buf g).

Lemma connect_next_closed (g : graph) l f new :
  (forall e, In e (out_edges g l) -> exists k, kind_of g (e_dst e) = Some k /\
     if is_sink k then String.prefix (new ++ "_output") (e_name e) = true else e_name e = new) ->
  connect_next g l f new = Some (con_es g l f new).
Proof.
  intros H. unfold connect_next, con_es. revert H.
  assert (A : forall L es, (forall e, In e L -> exists k, kind_of g (e_dst e) = Some k /\
              if is_sink k then String.prefix (new ++ "_output") (e_name e) = true else e_name e = new) ->
            fold_opt (connect_one f new) (mkG (g_vs g) es (g_node g) (g_buf g)) L =
            Some (mkG (g_vs g) (es ++ map (fun e => mkE f (e_dst e) (e_name e) new) L) (g_node g) (g_buf g))).
  { induction L as [|e L IH]; intros es H; simpl; [rewrite app_nil_r; reflexivity|].
    destruct (H e (or_introl eq_refl)) as [k [K E]].
    unfold connect_one at 1. change (kind_of (mkG (g_vs g) es (g_node g) (g_buf g)) (e_dst e)) with (kind_of g (e_dst e)).
    rewrite K. cbn [obind]. destruct (is_sink k).
    - rewrite E. cbn [obind]. unfold add_edge. cbn [g_vs g_es g_node g_buf].
      rewrite IH by (intros; apply H; right; auto). rewrite <- app_assoc. reflexivity.
    - rewrite E, String.eqb_refl. cbn [obind]. unfold add_edge. cbn [g_vs g_es g_node g_buf].
      rewrite IH by (intros; apply H; right; auto). rewrite <- app_assoc. reflexivity. }
  intros H. destruct g as [vs es nd bf]. apply A. exact H.
Qed.

Definition ren_v (opf : nat -> nat) (f oi : nat) (new : string) (v : vertex) : vertex :=
  if v_id v =? f then mkV (v_id v) (v_name v) (v_kind v) (opf (v_op v)) (v_ins v) (supd oi new (v_outs v)) else v.
Definition con_graph (opf : nat -> nat) (g : graph) (l f oi : nat) (new : string) (buf : string -> option X) : graph :=
  mkG (map (ren_v opf f oi new) (g_vs g))
      (g_es g ++ map (fun e => mkE f (e_dst e) (e_name e) new) (out_edges g l))
      (fupd (g_node g) new (Some f)) buf.

Lemma rename_closed (g : graph) l f oi new :
  rename_out (con_es g l f new) f oi new = con_graph (fun c => c) g l f oi new (g_buf g).
Proof. reflexivity. Qed.

Lemma ren_v_same opf f oi new v : v_id (ren_v opf f oi new v) = v_id v /\ v_name (ren_v opf f oi new v) = v_name v /\
  v_kind (ren_v opf f oi new v) = v_kind v /\ v_ins (ren_v opf f oi new v) = v_ins v.
Proof. unfold ren_v. destruct (v_id v =? f); simpl; auto 10. Qed.

Lemma edit_closed c (g : graph) l f oi new buf :
  on_vertex (con_graph (fun c => c) g l f oi new buf) f (with_op c) = con_graph (fun _ => c) g l f oi new buf.
Proof.
  unfold on_vertex, set_vs, con_graph. cbn [g_vs g_es g_node g_buf]. f_equal. rewrite map_map. apply map_ext.
  intros v. destruct (ren_v_same (fun c => c) f oi new v) as [E _]. rewrite E. unfold ren_v.
  destruct (v_id v =? f); reflexivity.
Qed.

Lemma NoDup_map_filter {A B} (f : A -> B) p l : NoDup (map f l) -> NoDup (map f (filter p l)).
Proof.
  induction l as [|a l IH]; simpl; intros H; auto. inversion H as [|? ? N D]; subst.
  destruct (p a); simpl; auto. constructor; auto. intros F. apply N.
  apply in_map_iff in F. destruct F as [y [E Hy]]. apply filter_In in Hy. apply in_map_iff. exists y. tauto.
Qed.

(** * The part of the graph that goes *)
Variable g : graph.
Variable R Gn : list nat.
Variable first vl : vertex.
Variable o lo : string.
Notation D := (delete R g).
Hypothesis ids : NoDup (map v_id (g_vs g)).
Hypothesis GD : good D.
Hypothesis Hf : In first (g_vs D).
Hypothesis Sf : source first.
Hypothesis Ho : In o (v_outs first).
Hypothesis NfG : ~ In (v_id first) Gn.
Hypothesis Hl : In vl (g_vs D).
Hypothesis Kl : v_kind vl = KOp.
Hypothesis Ol : v_outs vl = [lo].
Hypothesis HlG : In (v_id vl) Gn.
Hypothesis HG : forall a, In a Gn -> a <> v_id vl -> exists b, In b Gn /\ only_to g a b.
Hypothesis HR : forall rank : nat -> nat,
  (forall u v n, In u (g_vs D) -> In v (g_vs D) -> In n (v_outs u) -> In n (v_ins v) -> rank (v_id u) < rank (v_id v)) ->
  rank (v_id first) < rank (v_id vl).

Lemma in_g v : In v (g_vs D) -> In v (g_vs g).
Proof. intros H. apply in_delete_vs in H. tauto. Qed.

Lemma lo_in : In lo (v_outs vl).
Proof. rewrite Ol. left. reflexivity. Qed.

Lemma first_neq : first <> vl.
Proof. intros E. rewrite E in NfG. exact (NfG HlG). Qed.

Lemma lo_not_o : lo <> o.
Proof.
  intros E. apply first_neq. apply (ok_writer D GD first vl o); auto. rewrite <- E. apply lo_in.
Qed.

Lemma lo_writer u : In u (g_vs D) -> In lo (v_outs u) -> u = vl.
Proof. intros Hu H. apply (ok_writer D GD u vl lo); auto. apply lo_in. Qed.

Lemma live_app v : In v (g_vs g) -> ~ In (v_id v) (R ++ Gn) -> In v (g_vs D) /\ ~ In (v_id v) Gn.
Proof.
  intros Hv N. split; [apply in_delete_vs; split; auto|]; intros H; apply N; apply in_or_app; auto.
Qed.

(** who reads something else than [lo] reads it from a vertex that stays *)
Lemma reads_stays v n : In v (g_vs D) -> ~ In (v_id v) Gn -> v_kind v = KOp -> In n (v_ins v) -> n <> lo ->
  exists u, In u (g_vs D) /\ ~ In (v_id u) Gn /\ In n (v_outs u) /\ source u /\ In (mkE (v_id u) (v_id v) n n) (g_es D).
Proof.
  intros Hv Nv K Hn NE. destruct (ok_reads D GD v n Hv K Hn) as [u [Hu [Ou [Su E]]]].
  exists u. split; [exact Hu|]. split; [|split; [exact Ou|split; [exact Su|exact E]]]. intros F.
  destruct (Nat.eq_dec (v_id u) (v_id vl)) as [Q|Q].
  - apply in_delete_vs in Hu. destruct Hu as [Hu _]. apply in_delete_vs in Hl as Hl'. destruct Hl' as [Hl' _].
    rewrite (id_inj g u vl ids Hu Hl' Q), Ol in Ou. destruct Ou as [Ou|[]]. congruence.
  - destruct (HG _ F Q) as [b [Hb T]]. apply in_delete_es in E. destruct E as [E _].
    apply Nv. rewrite (T _ E eq_refl : v_id v = b). exact Hb.
Qed.

Lemma reads_lo v : In v (g_vs D) -> v_kind v = KOp -> In lo (v_ins v) -> In (mkE (v_id vl) (v_id v) lo lo) (g_es D).
Proof.
  intros Hv K H. destruct (ok_reads D GD v lo Hv K H) as [u [Hu [Ou [_ E]]]].
  rewrite (lo_writer u Hu Ou) in E. exact E.
Qed.

(** an edge between vertices that stay *)
Lemma edge_stays e : In e (g_es g) -> ~ In (e_src e) (R ++ Gn) -> ~ In (e_dst e) (R ++ Gn) -> In e (g_es D).
Proof.
  intros H N1 N2. apply in_delete_es. repeat split; auto; intros F; [apply N1|apply N2]; apply in_or_app; auto.
Qed.

Lemma first_live : In first (g_vs g) /\ ~ In (v_id first) (R ++ Gn).
Proof.
  apply in_delete_vs in Hf as H. destruct H as [H N]. split; auto. intros F. apply in_app_or in F. tauto.
Qed.

Lemma vl_live : In vl (g_vs g) /\ ~ In (v_id vl) R.
Proof. apply in_delete_vs in Hl as H. exact H. Qed.

(** * Forward: who read the last node reads the first one *)
Section Forward.
Notation P := (out_edges g (v_id vl)).
Hypothesis HP : forall e, In e P -> kind_of g (e_dst e) = Some KOp /\ e_name e = lo.
Notation g' := (fwd_graph g P (v_id first) lo o).

Lemma fwd_in v' : In v' (g_vs (delete (R ++ Gn) g')) ->
  exists v, v' = fwd_v P lo o v /\ In v (g_vs D) /\ ~ In (v_id v) Gn.
Proof.
  intros H. apply in_delete_vs in H. destruct H as [H N]. simpl in H. apply in_map_iff in H.
  destruct H as [v [<- Hv]]. exists v. split; auto.
  destruct (fwd_v_same P lo o v) as [E _]. rewrite E in N. apply live_app; auto.
Qed.

Lemma fwd_stays v : In v (g_vs D) -> ~ In (v_id v) Gn -> In (fwd_v P lo o v) (g_vs (delete (R ++ Gn) g')).
Proof.
  intros Hv N. apply in_delete_vs in Hv. destruct Hv as [Hv NR]. apply in_delete_vs. split.
  - simpl. apply in_map. exact Hv.
  - destruct (fwd_v_same P lo o v) as [E _]. rewrite E. intros F. apply in_app_or in F. tauto.
Qed.

(** the inputs afterwards *)
Lemma fwd_ins v : In v (g_vs D) -> v_kind v = KOp -> v_ins (fwd_v P lo o v) = map (sub lo o) (v_ins v).
Proof.
  intros Hv K. unfold fwd_v. destruct (hits P v) eqn:E; auto.
  rewrite <- (map_id (v_ins v)) at 1. apply map_ext_in. intros n Hn. unfold sub.
  destruct (String.eqb_spec n lo) as [Q|Q]; auto. exfalso. subst n.
  pose proof (reads_lo v Hv K Hn) as F. apply in_delete_es in F. destruct F as [F _].
  rewrite <- not_true_iff_false in E. apply E. unfold hits. apply existsb_exists.
  exists (mkE (v_id vl) (v_id v) lo lo). split; [|simpl; apply Nat.eqb_refl].
  apply in_out_edges. split; auto.
Qed.

Lemma fwd_good : good (delete (R ++ Gn) g').
Proof.
  constructor.
  - simpl. apply NoDup_map_filter. rewrite map_map.
    rewrite (map_ext _ v_id) by (intros; apply fwd_v_same). exact ids.
  - intros u' v' n Hu' Hv' Ou Ov. destruct (fwd_in _ Hu') as [u [-> [Hu _]]].
    destruct (fwd_in _ Hv') as [v [-> [Hv _]]].
    destruct (fwd_v_same P lo o u) as [_ [_ [_ [_ E]]]]. rewrite E in Ou.
    destruct (fwd_v_same P lo o v) as [_ [_ [_ [_ E2]]]]. rewrite E2 in Ov.
    rewrite (ok_writer D GD u v n); auto.
  - intros v' Hv'. destruct (fwd_in _ Hv') as [v [-> [Hv _]]].
    destruct (fwd_v_same P lo o v) as [_ [_ [_ [_ E]]]]. rewrite E. apply (ok_outs D GD v Hv).
  - intros v' n Hv' K' Hn. destruct (fwd_in _ Hv') as [v [-> [Hv Nv]]].
    destruct (fwd_v_same P lo o v) as [E1 [_ [E2 _]]]. rewrite E2 in K'. rewrite E1.
    rewrite (fwd_ins v Hv K') in Hn. apply in_map_iff in Hn. destruct Hn as [m [Em Hm]].
    unfold sub in Em. destruct (String.eqb_spec m lo) as [Q|Q].
    + subst m n. pose proof (reads_lo v Hv K' Hm) as E. apply in_delete_es in E. destruct E as [E [_ NR]].
      exists (fwd_v P lo o first). destruct (fwd_v_same P lo o first) as [F1 [_ [F3 [_ F5]]]].
      rewrite F1, F3, F5. repeat split; auto; [apply fwd_stays; auto|].
      apply in_delete_es. simpl. split; [|split].
      * apply in_or_app. right. apply in_map_iff. exists (mkE (v_id vl) (v_id v) lo lo). split; auto.
        apply in_out_edges. split; auto.
      * apply first_live.
      * intros F. apply in_app_or in F. tauto.
    + subst n. destruct (reads_stays v m Hv Nv K' Hm Q) as [u [Hu [Nu [Ou [Su E]]]]].
      exists (fwd_v P lo o u). destruct (fwd_v_same P lo o u) as [F1 [_ [F3 [_ F5]]]].
      rewrite F1, F3, F5. repeat split; auto; [apply fwd_stays; auto|].
      apply in_delete_es in E. destruct E as [E [N1 N2]]. apply in_delete_es. split; [simpl; apply in_or_app; auto|].
      simpl in *. split; intros F; apply in_app_or in F; tauto.
  - intros e He. apply in_delete_es in He. destruct He as [He [N1 N2]]. simpl in He. apply in_app_or in He.
    destruct He as [He|He].
    + pose proof (edge_stays e He N1 N2) as HeD.
      destruct (ok_edge D GD e HeD) as [u [v [Hu [Hv [Iu [Iv [L [Su C]]]]]]]].
      assert (Nu : ~ In (v_id u) Gn) by (rewrite Iu; intros F; apply N1; apply in_or_app; auto).
      assert (Nv : ~ In (v_id v) Gn) by (rewrite Iv; intros F; apply N2; apply in_or_app; auto).
      exists (fwd_v P lo o u), (fwd_v P lo o v).
      destruct (fwd_v_same P lo o u) as [F1 [_ [F3 [_ F5]]]]. destruct (fwd_v_same P lo o v) as [H1 [_ [H3 _]]].
      rewrite F1, F3, F5, H1, H3. split; [apply fwd_stays; auto|]. split; [apply fwd_stays; auto|].
      do 4 (split; [assumption|]). destruct C as [[C1 [C2 C3]]|C]; [left|right; exact C].
      do 2 (split; [assumption|]). rewrite (fwd_ins v Hv C1). apply in_map_iff. exists (e_name e). split; auto.
      unfold sub. destruct (String.eqb_spec (e_name e) lo) as [Q|Q]; auto. exfalso.
      rewrite <- C2, Q in L. rewrite (lo_writer u Hu L) in Nu. exact (Nu HlG).
    + apply in_map_iff in He. destruct He as [e0 [<- He0]]. simpl in *.
      destruct (HP e0 He0) as [K NM]. apply in_out_edges in He0 as Q. destruct Q as [Q1 Q2].
      assert (HeD : In e0 (g_es D)).
      { apply in_delete_es. split; auto. rewrite Q2. split; [apply vl_live|].
        intros F. apply N2. apply in_or_app. auto. }
      destruct (ok_edge D GD e0 HeD) as [u [v [Hu [Hv [Iu [Iv [L [Su C]]]]]]]].
      assert (Nv : ~ In (v_id v) Gn) by (rewrite Iv; intros F; apply N2; apply in_or_app; auto).
      exists (fwd_v P lo o first), (fwd_v P lo o v).
      destruct (fwd_v_same P lo o first) as [F1 [_ [F3 [_ F5]]]]. destruct (fwd_v_same P lo o v) as [H1 [_ [H3 _]]].
      rewrite F1, F3, F5, H1, H3. split; [apply fwd_stays; auto|]. split; [apply fwd_stays; auto|].
      do 4 (split; [assumption || reflexivity|]). left.
      assert (KV : v_kind v = KOp).
      { apply in_delete_vs in Hv as Hv2. destruct Hv2 as [Hv2 _].
        unfold kind_of in K. rewrite <- Iv, (in_vfind g v ids Hv2) in K. simpl in K. congruence. }
      split; [exact KV|]. split; [reflexivity|].
      destruct C as [[_ [C2 C3]]|[C _]]; [|rewrite KV in C; discriminate].
      rewrite (fwd_ins v Hv KV). apply in_map_iff. exists lo. rewrite NM in C3. split; [|exact C3].
      unfold sub. rewrite String.eqb_refl. reflexivity.
  - intros v' n Hv' Hn. destruct (fwd_in _ Hv') as [v [-> [Hv _]]].
    destruct (fwd_v_same P lo o v) as [E1 [_ [_ [_ E]]]]. rewrite E in Hn. rewrite E1.
    apply (ok_node D GD v n Hv Hn).
  - intros v' Hv' K. destruct (fwd_in _ Hv') as [v [-> [Hv _]]].
    destruct (fwd_v_same P lo o v) as [_ [E1 [E2 [_ E3]]]]. rewrite E1, E3. rewrite E2 in K.
    apply (ok_const D GD v Hv K).
  - intros u' v' Hu' Hv' K Hn. destruct (fwd_in _ Hu') as [u [-> [Hu _]]].
    destruct (fwd_in _ Hv') as [v [-> [Hv _]]].
    destruct (fwd_v_same P lo o u) as [_ [_ [_ [_ E]]]]. rewrite E in Hn.
    destruct (fwd_v_same P lo o v) as [_ [E1 [E2 _]]]. rewrite E1 in Hn. rewrite E2 in K.
    rewrite (ok_name D GD u v Hu Hv K Hn). reflexivity.
  - destruct (ok_acyclic D GD) as [rank RK]. exists rank. intros u' v' n Hu' Hv' On Hn.
    destruct (fwd_in _ Hu') as [u [-> [Hu _]]]. destruct (fwd_in _ Hv') as [v [-> [Hv _]]].
    destruct (fwd_v_same P lo o u) as [F1 [_ [_ [_ E]]]]. rewrite E in On. rewrite F1.
    destruct (fwd_v_same P lo o v) as [H1 _]. rewrite H1.
    assert (C : In n (v_ins v) \/ (n = o /\ In lo (v_ins v))).
    { unfold fwd_v in Hn. destruct (hits P v); auto. simpl in Hn. apply in_map_iff in Hn.
      destruct Hn as [m [Em Hm]]. unfold sub in Em. destruct (String.eqb_spec m lo); subst; auto. }
    destruct C as [C|[-> C]]; [apply (RK u v n); auto|].
    rewrite (ok_writer D GD u first o Hu Hf On Ho).
    pose proof (HR rank RK). pose proof (RK vl v lo Hl Hv lo_in C). lia.
Qed.

Variable run : nat -> list X -> nat -> X.
Variable inp : string -> option X.
Variable V : string -> option X.
Hypothesis HV : V o = V lo.

Lemma fwd_fits acts : fits run inp V acts D -> fits run inp V acts (delete (R ++ Gn) g').
Proof.
  intros F v' Hv'. destruct (fwd_in _ Hv') as [v [-> [Hv _]]]. pose proof (F v Hv) as C.
  destruct (fwd_v_same P lo o v) as [E1 [_ [E2 [E3 E4]]]]. rewrite E1, E2, E3, E4.
  destruct (v_kind v) eqn:K; auto. destruct C as [xs [C1 C2]]. exists xs. split; auto.
  rewrite (fwd_ins v Hv K), map_map, <- C1. apply map_ext. intros n. unfold sub.
  destruct (String.eqb_spec n lo); congruence.
Qed.
End Forward.

(** * Connect: the first node writes what the last one wrote *)
Section Connect.
Variable oi : nat.
Variable opf : nat -> nat.
Variable buf : string -> option X.
Notation P := (out_edges g (v_id vl)).
Hypothesis Hoi : nth_error (v_outs first) oi = Some o.
Hypothesis Kf : v_kind first <> KIn.
Hypothesis HP : forall e, In e P -> exists k, kind_of g (e_dst e) = Some k /\
  if is_sink k then String.prefix (lo ++ "_output") (e_name e) = true else e_name e = lo.
(** nobody else reads the output of the first node *)
Hypothesis only : forall e, In e (g_es D) -> e_src e = v_id first -> e_label e = o -> In (e_dst e) Gn.
Hypothesis Hbuf : forall n, n <> lo -> buf n = g_buf g n.
Hypothesis Hbuf' : v_kind first = KConst -> buf lo = g_buf g o.
Notation g' := (con_graph opf g (v_id vl) (v_id first) oi lo buf).

Lemma con_in v' : In v' (g_vs (delete (R ++ Gn) g')) ->
  exists v, v' = ren_v opf (v_id first) oi lo v /\ In v (g_vs D) /\ ~ In (v_id v) Gn.
Proof.
  intros H. apply in_delete_vs in H. destruct H as [H N]. simpl in H. apply in_map_iff in H.
  destruct H as [v [<- Hv]]. exists v. split; auto.
  destruct (ren_v_same opf (v_id first) oi lo v) as [E _]. rewrite E in N. apply live_app; auto.
Qed.

Lemma con_stays v : In v (g_vs D) -> ~ In (v_id v) Gn ->
  In (ren_v opf (v_id first) oi lo v) (g_vs (delete (R ++ Gn) g')).
Proof.
  intros Hv N. apply in_delete_vs in Hv. destruct Hv as [Hv NR]. apply in_delete_vs. split.
  - simpl. apply in_map. exact Hv.
  - destruct (ren_v_same opf (v_id first) oi lo v) as [E _]. rewrite E. intros F. apply in_app_or in F. tauto.
Qed.

Lemma con_outs v n : In v (g_vs D) -> ~ In (v_id v) Gn -> In n (v_outs (ren_v opf (v_id first) oi lo v)) ->
  (n = lo /\ v = first) \/ (n <> lo /\ In n (v_outs v) /\ (v = first -> n <> o)).
Proof.
  intros Hv Nv H. unfold ren_v in H. destruct (Nat.eqb_spec (v_id v) (v_id first)) as [E|E].
  - pose proof (in_g _ Hv) as Hv2. pose proof (in_g _ Hf) as Hf2.
    assert (v = first) by (apply (id_inj g); auto). subst v. simpl in H.
    destruct (string_dec n lo) as [Q|Q]; [left; auto|right]. apply in_supd in H as H2.
    destruct H2 as [H2|H2]; [congruence|]. do 2 (split; auto). intros _ ->.
    revert H. apply not_in_supd; auto using lo_not_o. apply (ok_outs D GD first Hf).
  - right. split; [|split; auto; congruence].
    intros ->. rewrite (lo_writer v Hv H) in Nv. exact (Nv HlG).
Qed.

Lemma con_outs_in v n : In v (g_vs D) -> In n (v_outs v) -> (v = first -> n <> o) ->
  In n (v_outs (ren_v opf (v_id first) oi lo v)).
Proof.
  intros Hv Hn NE. unfold ren_v. destruct (Nat.eqb_spec (v_id v) (v_id first)) as [E|E]; auto.
  pose proof (in_g _ Hv) as Hv2. pose proof (in_g _ Hf) as Hf2.
  assert (v = first) by (apply (id_inj g); auto). subst v. simpl.
  apply in_supd_other with (z := o); auto.
Qed.

Lemma con_outs_lo : In lo (v_outs (ren_v opf (v_id first) oi lo first)).
Proof. unfold ren_v. rewrite Nat.eqb_refl. simpl. apply in_supd_new with (z := o). exact Hoi. Qed.

Lemma con_good : good (delete (R ++ Gn) g').
Proof.
  constructor.
  - simpl. apply NoDup_map_filter. rewrite map_map.
    rewrite (map_ext _ v_id) by (intros; apply ren_v_same). exact ids.
  - intros u' v' n Hu' Hv' Ou Ov. destruct (con_in _ Hu') as [u [-> [Hu Nu]]].
    destruct (con_in _ Hv') as [v [-> [Hv Nv]]].
    apply con_outs in Ou; auto. apply con_outs in Ov; auto.
    destruct Ou as [[O1 ->]|[O1 [O2 _]]]; destruct Ov as [[O3 ->]|[O3 [O4 _]]]; auto; try congruence.
    rewrite (ok_writer D GD u v n); auto.
  - intros v' Hv'. destruct (con_in _ Hv') as [v [-> [Hv Nv]]].
    pose proof (ok_outs D GD v Hv) as ND. unfold ren_v. destruct (Nat.eqb_spec (v_id v) (v_id first)) as [E|E]; auto.
    simpl. apply NoDup_supd; auto. intros F. rewrite (lo_writer v Hv F) in Nv. exact (Nv HlG).
  - intros v' n Hv' K' Hn. destruct (con_in _ Hv') as [v [-> [Hv Nv]]].
    destruct (ren_v_same opf (v_id first) oi lo v) as [E1 [_ [E2 E4]]]. rewrite E2 in K'. rewrite E4 in Hn. rewrite E1.
    destruct (string_dec n lo) as [Q|Q].
    + subst n. pose proof (reads_lo v Hv K' Hn) as E. apply in_delete_es in E. destruct E as [E [_ NR]].
      exists (ren_v opf (v_id first) oi lo first). destruct (ren_v_same opf (v_id first) oi lo first) as [F1 [_ [F3 _]]].
      rewrite F1, F3. repeat split; auto; [apply con_stays; auto|apply con_outs_lo|].
      apply in_delete_es. simpl. split; [|split].
      * apply in_or_app. right. apply in_map_iff. exists (mkE (v_id vl) (v_id v) lo lo). split; auto.
        apply in_out_edges. split; auto.
      * apply first_live.
      * intros F. apply in_app_or in F. tauto.
    + destruct (reads_stays v n Hv Nv K' Hn Q) as [u [Hu [Nu [Ou [Su E]]]]].
      exists (ren_v opf (v_id first) oi lo u). destruct (ren_v_same opf (v_id first) oi lo u) as [F1 [_ [F3 _]]].
      rewrite F1, F3. repeat split; auto; [apply con_stays; auto| |].
      * apply con_outs_in; auto. intros -> ->. apply Nv. apply (only _ E); reflexivity.
      * apply in_delete_es in E. destruct E as [E [N1 N2]]. apply in_delete_es. split; [simpl; apply in_or_app; auto|].
        simpl in *. split; intros F; apply in_app_or in F; tauto.
  - intros e He. apply in_delete_es in He. destruct He as [He [N1 N2]]. simpl in He. apply in_app_or in He.
    destruct He as [He|He].
    + pose proof (edge_stays e He N1 N2) as HeD.
      destruct (ok_edge D GD e HeD) as [u [v [Hu [Hv [Iu [Iv [L [Su C]]]]]]]].
      assert (Nu : ~ In (v_id u) Gn) by (rewrite Iu; intros F; apply N1; apply in_or_app; auto).
      assert (Nv : ~ In (v_id v) Gn) by (rewrite Iv; intros F; apply N2; apply in_or_app; auto).
      exists (ren_v opf (v_id first) oi lo u), (ren_v opf (v_id first) oi lo v).
      destruct (ren_v_same opf (v_id first) oi lo u) as [F1 [_ [F3 _]]].
      destruct (ren_v_same opf (v_id first) oi lo v) as [H1 [_ [H3 H5]]].
      rewrite F1, F3, H1, H3, H5. split; [apply con_stays; auto|]. split; [apply con_stays; auto|].
      do 2 (split; [assumption|]). split; [|split; assumption].
      apply con_outs_in; auto. intros -> EQ. apply Nv. rewrite Iv. apply (only e HeD); auto.
    + apply in_map_iff in He. destruct He as [e0 [<- He0]]. simpl in *.
      apply in_out_edges in He0 as Q. destruct Q as [Q1 Q2].
      assert (HeD : In e0 (g_es D)).
      { apply in_delete_es. split; auto. rewrite Q2. split; [apply vl_live|].
        intros F. apply N2. apply in_or_app. auto. }
      destruct (ok_edge D GD e0 HeD) as [u [v [Hu [Hv [Iu [Iv [L [Su C]]]]]]]].
      assert (Nv : ~ In (v_id v) Gn) by (rewrite Iv; intros F; apply N2; apply in_or_app; auto).
      assert (u = vl).
      { pose proof (in_g _ Hu) as Hu2. apply (id_inj g); auto; [apply vl_live|congruence]. }
      subst u. rewrite Ol in L. destruct L as [L|[]].
      exists (ren_v opf (v_id first) oi lo first), (ren_v opf (v_id first) oi lo v).
      destruct (ren_v_same opf (v_id first) oi lo first) as [F1 [_ [F3 _]]].
      destruct (ren_v_same opf (v_id first) oi lo v) as [H1 [_ [H3 H5]]].
      rewrite F1, F3, H1, H3, H5. split; [apply con_stays; auto|]. split; [apply con_stays; auto|].
      do 2 (split; [assumption || reflexivity|]). split; [apply con_outs_lo|]. split; [assumption|].
      rewrite L. destruct C as [[C1 [C2 C3]]|C]; [left; split; auto|right; exact C].
  - intros v' n Hv' Hn. destruct (con_in _ Hv') as [v [-> [Hv Nv]]].
    destruct (ren_v_same opf (v_id first) oi lo v) as [E1 _]. rewrite E1. simpl. unfold fupd.
    apply con_outs in Hn; auto. destruct Hn as [[-> ->]|[NE [Hn _]]].
    + rewrite String.eqb_refl. reflexivity.
    + destruct (String.eqb_spec n lo); [contradiction|]. apply (ok_node D GD v n Hv Hn).
  - intros v' Hv' K. destruct (con_in _ Hv') as [v [-> [Hv Nv]]].
    destruct (ren_v_same opf (v_id first) oi lo v) as [_ [E1 [E2 _]]]. rewrite E1. rewrite E2 in K.
    destruct (ok_const D GD v Hv K) as [n [x [O [B1 B2]]]]. simpl in B1, B2. cbn [g_buf delete con_graph].
    assert (NN : v_name v <> lo).
    { intros F. apply first_neq. exfalso. assert (vl = v).
      { apply (ok_name D GD vl v Hl Hv K). rewrite F. apply lo_in. }
      subst v. congruence. }
    unfold ren_v. destruct (Nat.eqb_spec (v_id v) (v_id first)) as [E|E].
    + pose proof (in_g _ Hv) as Hv2. pose proof (in_g _ Hf) as Hf2.
      assert (v = first) by (apply (id_inj g); auto). subst v.
      rewrite O in Hoi. assert (oi = 0 /\ n = o).
      { destruct oi as [|[|k]]; simpl in Hoi; try discriminate. split; congruence. }
      destruct H as [-> ->]. exists lo, x. simpl. rewrite O. split; auto. split.
      * rewrite Hbuf'; auto.
      * rewrite Hbuf; auto.
    + exists n, x. split; auto. assert (n <> lo).
      { intros ->. apply first_neq. exfalso. assert (v = vl) by (apply lo_writer; auto; rewrite O; left; auto).
        subst v. congruence. }
      rewrite !Hbuf by auto. auto.
  - intros u' v' Hu' Hv' K Hn. destruct (con_in _ Hu') as [u [-> [Hu Nu]]].
    destruct (con_in _ Hv') as [v [-> [Hv Nv]]].
    destruct (ren_v_same opf (v_id first) oi lo v) as [_ [E1 [E2 _]]]. rewrite E1 in Hn. rewrite E2 in K.
    apply con_outs in Hn; auto. destruct Hn as [[F ->]|[NE [Hn _]]].
    + exfalso. assert (vl = v).
      { apply (ok_name D GD vl v Hl Hv K). rewrite F. apply lo_in. }
      subst v. congruence.
    + rewrite (ok_name D GD u v Hu Hv K Hn). reflexivity.
  - destruct (ok_acyclic D GD) as [rank RK]. exists rank. intros u' v' n Hu' Hv' On Hn.
    destruct (con_in _ Hu') as [u [-> [Hu Nu]]]. destruct (con_in _ Hv') as [v [-> [Hv Nv]]].
    destruct (ren_v_same opf (v_id first) oi lo u) as [F1 _]. rewrite F1.
    destruct (ren_v_same opf (v_id first) oi lo v) as [H1 [_ [_ H5]]]. rewrite H1. rewrite H5 in Hn.
    apply con_outs in On; auto. destruct On as [[-> ->]|[NE [On _]]]; [|apply (RK u v n); auto].
    pose proof (HR rank RK). pose proof (RK vl v lo Hl Hv lo_in Hn). lia.
Qed.

Variable run : nat -> list X -> nat -> X.
Variable inp : string -> option X.
Variable V : string -> option X.

Lemma con_fits acts : (forall c, opf c = c) -> V o = V lo -> fits run inp V acts D -> fits run inp V acts (delete (R ++ Gn) g').
Proof.
  intros OF HV F v' Hv'. destruct (con_in _ Hv') as [v [-> [Hv Nv]]]. pose proof (F v Hv) as C.
  destruct (ren_v_same opf (v_id first) oi lo v) as [E1 [_ [E2 E4]]].
  assert (E3 : v_op (ren_v opf (v_id first) oi lo v) = v_op v).
  { unfold ren_v. destruct (v_id v =? v_id first); simpl; auto. }
  rewrite E1, E2, E3, E4.
  destruct (v_kind v) eqn:K; auto.
  - intros n Hn. apply con_outs in Hn; auto. destruct Hn as [[-> ->]|[NE [Hn _]]]; [congruence|auto].
  - intros n Hn. cbn [g_buf delete con_graph]. apply con_outs in Hn; auto. destruct Hn as [[-> ->]|[NE [Hn _]]].
    + rewrite Hbuf', <- HV; auto. apply C. exact Ho.
    + rewrite Hbuf; auto. apply C. exact Hn.
  - destruct C as [xs [C1 C2]]. exists xs. split; auto. intros k n Hk.
    unfold ren_v in Hk. destruct (Nat.eqb_spec (v_id v) (v_id first)) as [E|E]; auto.
    pose proof (in_g _ Hv) as Hv2. pose proof (in_g _ Hf) as Hf2.
    assert (v = first) by (apply (id_inj g); auto). subst v.
    simpl in Hk. rewrite nth_supd in Hk. destruct (Nat.eqb_spec k oi) as [->|NE]; simpl in Hk; auto.
    destruct (oi <? List.length (v_outs first)); auto. injection Hk as <-. rewrite <- HV. auto.
Qed.

(** the first node becomes another operator, and gets other inputs later *)
Lemma con_fits_edit acts A : v_kind first = KOp -> v_outs first = [o] ->
  (forall a, In a acts -> fst (fst (fst a)) <> v_id first) -> (forall a, In a A -> fst (fst (fst a)) = v_id first) ->
  (forall xs, map V (v_ins first) = map Some xs -> V lo = Some (run (opf (v_op first)) (later A (v_id first) xs) 0)) ->
  fits run inp V acts D -> fits run inp V (acts ++ A) (delete (R ++ Gn) g').
Proof.
  intros KO OO NA HA HV F v' Hv'. destruct (con_in _ Hv') as [v [-> [Hv Nv]]]. pose proof (F v Hv) as C.
  destruct (ren_v_same opf (v_id first) oi lo v) as [E1 [_ [E2 E4]]]. rewrite E1, E2, E4.
  destruct (Nat.eq_dec (v_id v) (v_id first)) as [E|E].
  - pose proof (in_g _ Hv) as Hv2. pose proof (in_g _ Hf) as Hf2.
    assert (v = first) by (apply (id_inj g); auto). subst v. rewrite KO in *.
    destruct C as [xs [C1 C2]]. exists xs. split; auto. intros k n Hk.
    unfold later. rewrite fold_left_app.
    assert (LA : fold_left (fun xs a => if fst (fst (fst a)) =? v_id first then put (snd (fst (fst a))) (snd a) xs else xs) acts xs = xs).
    { clear - NA. induction acts as [|a l IH]; simpl; auto.
      destruct (Nat.eqb_spec (fst (fst (fst a))) (v_id first)) as [Q|Q].
      - exfalso. apply (NA a); auto. left. reflexivity.
      - apply IH. intros b Hb. apply NA. right. exact Hb. }
    rewrite LA. unfold ren_v in *. rewrite Nat.eqb_refl in *. simpl in Hk |- *. rewrite OO in Hoi, Hk.
    destruct oi as [|[|j]]; simpl in Hoi; try discriminate. simpl in Hk.
    destruct k as [|[|k]]; simpl in Hk; try discriminate. injection Hk as <-. apply HV. exact C1.
  - assert (EV : ren_v opf (v_id first) oi lo v = v).
    { unfold ren_v. destruct (Nat.eqb_spec (v_id v) (v_id first)); [contradiction|reflexivity]. }
    rewrite EV. assert (NE : v <> first) by congruence.
    destruct (v_kind v) eqn:K; auto.
    + intros n Hn. cbn [g_buf delete con_graph]. rewrite Hbuf; auto.
      * apply C. exact Hn.
      * intros ->. apply Nv. rewrite (lo_writer v Hv Hn). exact HlG.
    + destruct C as [xs [C1 C2]]. exists xs. split; auto. intros k n Hk. rewrite (C2 k n Hk). do 2 f_equal.
      unfold later. rewrite fold_left_app. set (ys := fold_left _ acts xs).
      clear - HA E. revert ys. induction A as [|a l IH]; intros ys; simpl; auto.
      rewrite (HA a (or_introl eq_refl)). destruct (Nat.eqb_spec (v_id first) (v_id v)); [congruence|].
      apply IH. intros b Hb. apply HA. right. exact Hb.
Qed.
End Connect.
End Step.
