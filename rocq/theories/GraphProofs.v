(** Scheduling ([topological_sort], [collect_operators]) and dead-node cleanup. *)
From Coq Require Import List Arith Bool ZArith Lia Permutation.
From Verif Require Import GraphModel.
Import ListNotations.
Local Open Scope nat_scope.

(** Specification side. *)
Definition edge (g : graph) (u v : nat) : Prop := In v (outs g u).
(** Adjacency lists of one and the same set of edges between existing vertices. *)
Definition wf_graph (g : graph) : Prop :=
  List.length (g_out g) = gsize g /\ List.length (g_in g) = gsize g /\
  forall u v, In v (outs g u) <-> In u (ins g v).
(** A DAG: the vertices can be ranked so that edges go up. *)
Definition acyclic (g : graph) : Prop := exists rank : nat -> nat, forall u v, edge g u v -> rank u < rank v.
(** What the converter's graphs satisfy: values come from inputs, constants and operators, and
    inputs and constants are not computed. *)
Definition roles (g : graph) : Prop :=
  (forall u v, edge g u v -> ty g u = t_input \/ ty g u = t_const \/ (0 <= ty g u)%Z) /\
  (forall u v, edge g u v -> ty g v <> t_input /\ ty g v <> t_const).
Definition before (l : list nat) (u v : nat) : Prop := exists a b c, l = a ++ u :: b ++ v :: c.

Lemma memb_In x l : memb x l = true <-> In x l.
Proof.
  unfold memb. rewrite existsb_exists. split.
  - intros (y & H & E). apply Nat.eqb_eq in E. now subst.
  - intro H. exists x. split; auto. apply Nat.eqb_refl.
Qed.
Lemma memb_nIn x l : memb x l = false <-> ~ In x l.
Proof. rewrite <- memb_In. destruct (memb x l); split; congruence. Qed.
Lemma ready_spec g vis v : ready g vis v = true <-> forall u, In u (ins g v) -> In u vis.
Proof. unfold ready. rewrite forallb_forall. split; intros H u Hu; apply memb_In || apply memb_In in H; auto.
Qed.

Lemma edge_lt g u v : wf_graph g -> edge g u v -> u < gsize g /\ v < gsize g.
Proof.
  intros (H1 & H2 & H3) H. split.
  - destruct (lt_dec u (gsize g)); auto. unfold edge, outs in H. rewrite nth_overflow in H by lia. destruct H.
  - apply H3 in H. destruct (lt_dec v (gsize g)); auto. unfold ins in H. rewrite nth_overflow in H by lia. destruct H.
Qed.

(** Prefix-closedness: every element comes after its sources. *)
Definition closed (g : graph) (l : list nat) : Prop :=
  forall a v b, l = a ++ v :: b -> forall u, In u (ins g v) -> In u a.
Lemma closed_snoc g l v : closed g l -> (forall u, In u (ins g v) -> In u l) -> closed g (l ++ [v]).
Proof.
  intros H Hv a w b E u Hu.
  destruct b as [|x b'] using rev_ind.
  - assert (E' : l ++ [v] = a ++ [w]) by exact E. apply app_inj_tail in E' as (-> & ->). auto.
  - clear IHb'. replace (a ++ w :: b' ++ [x]) with ((a ++ w :: b') ++ [x]) in E by (rewrite <- app_assoc; reflexivity).
    apply app_inj_tail in E as (-> & ->). eapply H; eauto.
Qed.
Lemma closed_before g l u v : closed g l -> In v l -> In u (ins g v) -> before l u v.
Proof.
  intros H Hv Hu. apply in_split in Hv as (a & b & ->).
  pose proof (H a v b eq_refl u Hu) as Hi. apply in_split in Hi as (a1 & a2 & ->).
  exists a1, a2, b. now rewrite <- app_assoc.
Qed.

(** The loop over the constants. *)
Lemma const_step_In g vis other v w :
  In w (const_step g vis other v) -> In w other \/ (w = v /\ is_op g v = true).
Proof.
  unfold const_step. destruct (memb v other); auto. destruct (ready g vis v); auto.
  destruct (is_op g v) eqn:E; auto. rewrite in_app_iff. cbn. intuition subst; auto.
Qed.
Lemma const_step_incl g vis other v w : In w other -> In w (const_step g vis other v).
Proof.
  unfold const_step. destruct (memb v other); auto. destruct (ready g vis v); auto.
  destruct (is_op g v); auto. rewrite in_app_iff. auto.
Qed.
Lemma const_fold_incl g vis vs : forall other w, In w other -> In w (fold_left (const_step g vis) vs other).
Proof. induction vs as [|v vs IH]; cbn; intros; auto. apply IH. now apply const_step_incl. Qed.
Lemma const_fold_hit g vis vs : forall other w,
  In w vs -> ready g vis w = true -> is_op g w = true -> In w (fold_left (const_step g vis) vs other).
Proof.
  induction vs as [|v vs IH]; cbn; intros other w Hw R O; [destruct Hw|]. destruct Hw as [->|Hw]; [|auto].
  apply const_fold_incl. unfold const_step. destruct (memb w other) eqn:E.
  - now apply memb_In.
  - rewrite R, O. apply in_or_app. cbn. auto.
Qed.
Lemma const_loop_app g cs c st :
  const_loop g (cs ++ [c]) st =
    (fst (const_loop g cs st) ++ [c],
     fold_left (const_step g (fst (const_loop g cs st) ++ [c])) (outs g c) (snd (const_loop g cs st))).
Proof. unfold const_loop. now rewrite fold_left_app. Qed.
Lemma const_loop_fst g cs other : fst (const_loop g cs ([], other)) = cs.
Proof.
  induction cs as [|c cs IH] using rev_ind; auto. rewrite const_loop_app. cbn. now rewrite IH.
Qed.
(** an operator fed by (at least one and only) the given constants is in the start list *)
Lemma const_loop_hit g cs other w : wf_graph g ->
  is_op g w = true -> ins g w <> [] -> (forall u, In u (ins g w) -> In u cs) ->
  In w (snd (const_loop g cs ([], other))).
Proof.
  intros (W1 & W2 & W3) O N. induction cs as [|c cs IH] using rev_ind; intros H.
  - destruct (ins g w) as [|u t]; [congruence|]. destruct (H u (or_introl eq_refl)).
  - rewrite const_loop_app. cbn [snd]. rewrite const_loop_fst.
    destruct (in_dec Nat.eq_dec c (ins g w)) as [Hc|Hc].
    + apply const_fold_hit; auto.
      * now apply W3.
      * apply ready_spec. auto.
    + apply const_fold_incl, IH. intros u Hu. specialize (H u Hu). apply in_app_iff in H as [H|[->|[]]]; auto.
      contradiction.
Qed.
Lemma const_loop_incl g cs other w : In w other -> In w (snd (const_loop g cs ([], other))).
Proof.
  intro H. induction cs as [|c cs IH] using rev_ind; auto. rewrite const_loop_app. cbn [snd].
  now apply const_fold_incl.
Qed.

Definition pending (g : graph) (v : nat) : Prop :=
  ty g v = t_input \/ (0 <= ty g v)%Z \/ exists u, In u (ins g v) /\ ty g u <> t_const.
(** Invariant of the stack loop. *)
Record inv (g : graph) (q vis : list nat) : Prop := {
  i_nd : NoDup vis;
  i_lt : forall v, In v vis -> v < gsize g;
  i_q : forall v, In v q -> v < gsize g;
  i_cl : closed g vis;
  i_cs : forall v, v < gsize g -> ty g v = t_const -> In v vis;
  i_pend : forall v, v < gsize g -> ~ In v vis -> (forall u, In u (ins g v) -> In u vis) -> pending g v -> In v q }.

Definition unv (g : graph) (vis : list nat) : nat :=
  list_sum (map (fun v => if memb v vis then 0 else List.length (outs g v)) (seq 0 (gsize g))).
Lemma list_sum_split (f h : nat -> nat) (l : list nat) x : NoDup l -> In x l ->
  (forall y, In y l -> y <> x -> f y = h y) -> list_sum (map f l) + h x = list_sum (map h l) + f x.
Proof.
  induction l as [|a l IH]; intros ND Hx E; [destruct Hx|]. inversion ND as [|? ? Ha ND']; subst.
  change (list_sum (map f (a :: l))) with (f a + list_sum (map f l)).
  change (list_sum (map h (a :: l))) with (h a + list_sum (map h l)). destruct Hx as [->|Hx].
  - assert (list_sum (map f l) = list_sum (map h l)); [|lia]. f_equal. apply map_ext_in. intros y Hy.
    apply E; [now right|]. intros ->. contradiction.
  - rewrite (E a) by ((now left) || (intros ->; contradiction)).
    assert (IH' := IH ND' Hx (fun y Hy => E y (or_intror Hy))). lia.
Qed.
Lemma unv_visit g vis v : ~ In v vis -> v < gsize g -> unv g (vis ++ [v]) + List.length (outs g v) = unv g vis.
Proof.
  intros N L. unfold unv.
  assert (E := list_sum_split (fun w => if memb w (vis ++ [v]) then 0 else List.length (outs g w))
                 (fun w => if memb w vis then 0 else List.length (outs g w)) (seq 0 (gsize g)) v
                 (seq_NoDup _ _)).
  cbv beta in E. rewrite (proj2 (memb_nIn v vis) N) in E.
  assert (M : memb v (vis ++ [v]) = true) by (apply memb_In, in_or_app; cbn; auto). rewrite M in E.
  rewrite E; [lia| |].
  - apply in_seq. lia.
  - intros y Hy Hne. destruct (memb y vis) eqn:E1.
    + assert (memb y (vis ++ [v]) = true) as -> by (apply memb_In, in_or_app; left; now apply memb_In). auto.
    + assert (memb y (vis ++ [v]) = false) as ->; auto. apply memb_nIn. rewrite in_app_iff. cbn.
      apply memb_nIn in E1. intuition congruence.
Qed.

Lemma topo_loop_ok g : wf_graph g -> forall fuel q vis,
  inv g q vis -> List.length q + unv g vis < fuel ->
  exists r, topo_loop g fuel q vis = Some r /\ inv g [] r /\ (forall v, In v vis -> In v r).
Proof.
  intros W. pose proof W as (_ & _ & W3). induction fuel as [|fuel IH]; intros q vis I F; [lia|].
  cbn. destruct q as [|v q].
  - exists vis. auto.
  - cbn in F. destruct (memb v vis) eqn:Ev.
    + apply IH; [|lia]. apply memb_In in Ev. destruct I as [I1 I2 I3 I4 I5 I6]. split; auto.
      * intros w Hw. apply I3. now right.
      * intros w Hw Hn Hr Hp. destruct (I6 w Hw Hn Hr Hp) as [<-|]; auto; contradiction.
    + apply memb_nIn in Ev. destruct (ready g vis v) eqn:Er.
      * pose proof (i_q _ _ _ I v (or_introl eq_refl)) as Lv.
        rewrite ready_spec in Er. pose proof I as I'. destruct I as [I1 I2 I3 I4 I5 I6].
        destruct (IH (outs g v ++ q) (vis ++ [v])) as (r & Hr1 & Hr2 & Hr3).
        -- split.
           ++ apply (Permutation_NoDup (Permutation_cons_append vis v)). now constructor.
           ++ intros w Hw. apply in_app_iff in Hw as [Hw|[<-|[]]]; auto.
           ++ intros w Hw. apply in_app_iff in Hw as [Hw|Hw].
              ** apply (edge_lt g v w W Hw).
              ** apply I3. now right.
           ++ now apply closed_snoc.
           ++ intros w Hw Hc. apply in_or_app. left. auto.
           ++ intros w Hw Hn Hr Hp.
              rewrite in_app_iff in Hn. cbn in Hn.
              destruct (in_dec Nat.eq_dec v (ins g w)) as [Hv|Hv].
              ** apply in_or_app. left. now apply W3.
              ** apply in_or_app. right.
                 destruct (I6 w Hw) as [<-|]; auto.
                 --- intros u Hu. specialize (Hr u Hu). apply in_app_iff in Hr as [|[->|[]]]; auto. contradiction.
                 --- exfalso. apply Hn. auto.
        -- rewrite app_length. pose proof (unv_visit g vis v Ev Lv). lia.
        -- exists r. repeat split; auto; try apply Hr2. intros w Hw. apply Hr3, in_or_app. auto.
      * apply IH; [|lia]. destruct I as [I1 I2 I3 I4 I5 I6]. split; auto.
        -- intros w Hw. apply I3. now right.
        -- intros w Hw Hn Hr Hp. destruct (I6 w Hw Hn Hr Hp) as [<-|]; auto.
           exfalso. assert (ready g vis v = true) by now apply ready_spec. congruence.
Qed.

Lemma const_other_lt g cs other v : wf_graph g -> (forall v, In v other -> v < gsize g) ->
  In v (snd (const_loop g cs ([], other))) -> v < gsize g.
Proof.
  intros W H0. revert v. induction cs as [|c cs IH] using rev_ind; intros v H; auto.
  rewrite const_loop_app in H. cbn [snd] in H.
  set (vis := fst (const_loop g cs ([], other)) ++ [c]) in H. clearbody vis.
  revert H. set (st := snd (const_loop g cs ([], other))) in *. clearbody st.
  assert (G : forall vs st, (forall v, In v st -> v < gsize g) -> (forall v, In v vs -> v < gsize g) ->
              forall v, In v (fold_left (const_step g vis) vs st) -> v < gsize g).
  { clear. induction vs as [|w vs IH]; cbn; intros st H1 H2 v H; auto. eapply IH; [| |exact H]; auto.
    intros x Hx. apply const_step_In in Hx as [Hx|[-> _]]; auto. }
  apply G; auto. intros w Hw. apply (edge_lt g c w W Hw).
Qed.

Lemma is_op_ge g v : is_op g v = true <-> (0 <= ty g v)%Z.
Proof. unfold is_op. apply Z.leb_le. Qed.
Lemma constants_In g v : In v (constants g) <-> v < gsize g /\ ty g v = t_const.
Proof. unfold constants. rewrite filter_In, in_seq, Z.eqb_eq. intuition lia. Qed.

Lemma inv_init g : wf_graph g -> roles g ->
  inv g (start_inputs g ++ snd (const_loop g (constants g) ([], start_orphans g))) (constants g).
Proof.
  intros W (R1 & R2). pose proof W as (W1 & W2 & W3). split.
  - apply NoDup_filter, seq_NoDup.
  - intros v H. apply constants_In in H. tauto.
  - intros v H. apply in_app_iff in H as [H|H].
    + unfold start_inputs in H. apply filter_In in H as (H & _). apply in_seq in H. lia.
    + revert H. apply const_other_lt; auto. intros x Hx. unfold start_orphans in Hx.
      apply filter_In in Hx as (Hx & _). apply in_seq in Hx. lia.
  - intros a v b E u Hu. exfalso. assert (In v (constants g)) as Hc by (rewrite E; apply in_elt).
    apply constants_In in Hc as (_ & Hc). apply W3 in Hu. destruct (R2 u v Hu). contradiction.
  - intros v H1 H2. now apply constants_In.
  - intros v L N Hr Hp. apply in_or_app.
    assert (Hc : forall u, In u (ins g v) -> ty g u = t_const).
    { intros u Hu. apply Hr, constants_In in Hu. tauto. }
    destruct Hp as [Hp|[Hp|(u & Hu & Hp)]].
    + left. unfold start_inputs. apply filter_In. rewrite in_seq, Z.eqb_eq. split; auto; lia.
    + right. apply is_op_ge in Hp. destruct (ins g v) as [|u t] eqn:E.
      * apply const_loop_incl. unfold start_orphans. apply filter_In. rewrite in_seq, Hp, E. split; auto; lia.
      * apply const_loop_hit; auto. rewrite E. congruence. rewrite E. exact Hr.
    + exfalso. apply Hp. auto.
Qed.

Lemma unv_bound g vis : unv g vis <= list_sum (map (fun v => List.length (outs g v)) (seq 0 (gsize g))).
Proof.
  unfold unv, list_sum. induction (seq 0 (gsize g)) as [|a l IH]; cbn [map fold_right]; auto.
  destruct (memb a vis); lia.
Qed.

Theorem topological_sort_ok g : wf_graph g -> acyclic g -> roles g ->
  exists l, topological_sort g = Some l /\ NoDup l /\ (forall v, In v l -> v < gsize g) /\
    (forall v, v < gsize g -> (0 <= ty g v)%Z -> In v l) /\
    (forall u v, edge g u v -> In v l -> before l u v).
Proof.
  intros W (rank & A) R. unfold topological_sort.
  destruct (const_loop g (constants g) ([], start_orphans g)) as (indices, other) eqn:E.
  assert (E1 : indices = constants g).
  { pose proof (const_loop_fst g (constants g) (start_orphans g)) as H. rewrite E in H. exact H. }
  pose proof (inv_init g W R) as I. rewrite E in I. cbn [snd] in I. subst indices.
  destruct (topo_loop_ok g W (topo_fuel g (start_inputs g ++ other)) _ _ I) as (r & Hr & Ir & _).
  { unfold topo_fuel. pose proof (unv_bound g (constants g)). lia. }
  exists r. split; [exact Hr|]. pose proof W as (_ & _ & W3). destruct R as (R1 & R2).
  destruct Ir as [I1 I2 I3 I4 I5 I6]. repeat split; auto.
  - assert (G : forall n v, rank v < n -> v < gsize g ->
                (ty g v = t_input \/ ty g v = t_const \/ (0 <= ty g v)%Z) -> In v r).
    { induction n as [|n IH]; intros v Hn L T; [lia|].
      destruct T as [T|[T|T]]; [| now apply I5 |].
      - destruct (in_dec Nat.eq_dec v r) as [|N]; auto. destruct (I6 v L N).
        + intros u Hu. apply W3 in Hu. destruct (R2 u v Hu). contradiction.
        + now left.
      - destruct (in_dec Nat.eq_dec v r) as [|N]; auto. destruct (I6 v L N).
        + intros u Hu. apply W3 in Hu. pose proof (A u v Hu). destruct (edge_lt g u v W Hu).
          apply IH; auto; [lia|]. now apply (R1 u v).
        + right. now left. }
    intros v L T. apply (G (S (rank v))); auto.
  - intros u v Hu Hv. apply (closed_before g); auto. now apply W3.
Qed.

Lemma before_filter (f : nat -> bool) l u v : f u = true -> f v = true -> before l u v -> before (filter f l) u v.
Proof.
  intros Fu Fv (a & b & c & ->). exists (filter f a), (filter f b), (filter f c).
  rewrite filter_app. cbn. rewrite Fu, filter_app. cbn. now rewrite Fv.
Qed.

Theorem collect_operators_ok g : wf_graph g -> acyclic g -> roles g ->
  exists l, collect_operators g = Some l /\
    Permutation l (filter (is_op g) (seq 0 (gsize g))) /\
    (forall u v, edge g u v -> In u l -> In v l -> before l u v).
Proof.
  intros W A R. destruct (topological_sort_ok g W A R) as (l & E & N & L & C & B).
  unfold collect_operators. rewrite E. cbn. eexists. split; [reflexivity|]. split.
  - apply NoDup_Permutation.
    + now apply NoDup_filter.
    + apply NoDup_filter, seq_NoDup.
    + intro x. rewrite !filter_In, in_seq. split; intros (H1 & H2); split; auto.
      * specialize (L x H1). lia.
      * apply C; [lia|]. now apply is_op_ge.
  - intros u v He Hu Hv. apply filter_In in Hu as (_ & Hu). apply filter_In in Hv as (Hv & Hv2).
    apply before_filter; auto.
Qed.

(** Cleanup. *)
Inductive reaches (g : graph) : nat -> nat -> Prop :=
| reach_refl v : reaches g v v
| reach_step u v w : edge g u v -> reaches g v w -> reaches g u w.
Definition is_sink (g : graph) (v : nat) : Prop := ty g v = t_output \/ ty g v = t_unused.
Definition live (g : graph) (v : nat) : Prop :=
  exists w, w < gsize g /\ is_sink g w /\ reaches g v w.

Lemma dead_spec g alive v : dead g alive v = true <->
  ~ is_sink g v /\ ty g v <> t_input /\ forall w, edge g v w -> ~ In w alive.
Proof.
  unfold dead, is_sink, edge. rewrite !andb_true_iff, !negb_true_iff, orb_false_iff, !Z.eqb_neq.
  split.
  - intros (((H1 & H2) & H3) & H4). split; [tauto|]. split; auto. intros w Hw Ha.
    destruct (filter (fun w => memb w alive) (outs g v)) eqn:E; [|congruence].
    assert (In w (filter (fun w => memb w alive) (outs g v))) as Hi
      by (apply filter_In; split; auto; now apply memb_In). rewrite E in Hi. destruct Hi.
  - intros (H1 & H2 & H3). repeat split; auto.
    destruct (filter (fun w => memb w alive) (outs g v)) as [|x t] eqn:E; auto.
    assert (In x (filter (fun w => memb w alive) (outs g v))) as Hi by (rewrite E; now left).
    apply filter_In in Hi as (Hi & Hm). apply memb_In in Hm. destruct (H3 x Hi Hm).
Qed.
(** the set of vertices to keep is kept *)
Definition keep (g : graph) (alive : list nat) : Prop :=
  forall v, v < gsize g -> ty g v = t_input \/ live g v -> In v alive.
Lemma keep_step g alive : wf_graph g -> keep g alive ->
  keep g (filter (fun v => negb (memb v (filter (dead g alive) alive))) alive).
Proof.
  intros W K v L H. apply filter_In. split; [now apply K|]. apply negb_true_iff, memb_nIn. rewrite filter_In.
  intros (_ & D). apply dead_spec in D as (D1 & D2 & D3). destruct H as [H|(w & Lw & Sw & Rw)]; [contradiction|].
  destruct Rw as [v|u v w E Rw]; [contradiction|].
  apply (D3 v E). apply K; [apply (edge_lt g u v W E)|]. right. exists w. auto.
Qed.
Lemma filter_len_le {A} (f : A -> bool) l : List.length (filter f l) <= List.length l.
Proof. induction l as [|a l IH]; cbn; auto. destruct (f a); cbn; lia. Qed.
Lemma filter_len_lt {A} (f : A -> bool) l x : In x l -> f x = false -> List.length (filter f l) < List.length l.
Proof.
  induction l as [|a l IH]; cbn; intros [] F.
  - subst. rewrite F. pose proof (filter_len_le f l). lia.
  - specialize (IH H F). destruct (f a); cbn; lia.
Qed.
Lemma cleanup_loop_ok g : wf_graph g -> forall fuel alive, List.length alive < fuel -> keep g alive ->
  exists r, cleanup_loop g fuel alive = Some r /\ keep g r /\ incl r alive /\
    (NoDup alive -> NoDup r) /\ (forall v, In v r -> dead g r v = false).
Proof.
  intros W. induction fuel as [|fuel IH]; intros alive F K; [lia|]. cbn.
  destruct (filter (dead g alive) alive) as [|d ds] eqn:E.
  - exists alive. repeat split; auto. + apply incl_refl.
    + intros v Hv. destruct (dead g alive v) eqn:D; auto.
      assert (In v (filter (dead g alive) alive)) as Hi by (apply filter_In; auto). rewrite E in Hi. destruct Hi.
  - destruct (IH (filter (fun v => negb (memb v (d :: ds))) alive)) as (r & H1 & H2 & H3 & H4 & H5).
    + enough (List.length (filter (fun v => negb (memb v (d :: ds))) alive) < List.length alive) by lia.
      apply (filter_len_lt _ _ d).
      * assert (In d (filter (dead g alive) alive)) as Hi by (rewrite E; now left). apply filter_In in Hi. tauto.
      * apply negb_false_iff, memb_In. now left.
    + rewrite <- E. now apply keep_step.
    + exists r. repeat split; auto.
      * intros v Hv. apply H3 in Hv. apply filter_In in Hv. tauto.
      * intro N. apply H4. now apply NoDup_filter.
Qed.

Theorem cleanup_ok g connected : wf_graph g -> exists r, cleanup_dead_nodes g connected = Some r /\
  NoDup r /\ (forall v, In v r -> v < gsize g) /\
  (forall v, v < gsize g -> ty g v = t_input \/ is_sink g v \/ live g v -> In v r).
Proof.
  intros W. unfold cleanup_dead_nodes. destruct connected.
  - eexists. split; [reflexivity|]. split; [apply seq_NoDup|]. split; intros v H.
    + apply in_seq in H. lia.
    + intros _. apply in_seq. lia.
  - destruct (cleanup_loop_ok g W (S (gsize g)) (seq 0 (gsize g))) as (r & H1 & H2 & H3 & H4 & _).
    + rewrite seq_length. lia.
    + intros v L _. apply in_seq. lia.
    + exists r. split; auto. split; [apply H4, seq_NoDup|]. split.
      * intros v Hv. apply H3, in_seq in Hv. lia.
      * intros v L [T|[T|T]]; apply H2; auto. right. exists v. repeat split; auto. constructor.
Qed.

(** Every vertex left reaches a sink inside what is left, when the pass runs. *)
Theorem cleanup_complete g r : wf_graph g -> acyclic g -> roles g -> cleanup_dead_nodes g false = Some r ->
  forall v, In v r -> ty g v = t_input \/ live g v.
Proof.
  intros W (rank & A) (_ & R2) E. unfold cleanup_dead_nodes in E.
  destruct (cleanup_loop_ok g W (S (gsize g)) (seq 0 (gsize g))) as (r' & H1 & _ & H3 & _ & H5).
  { rewrite seq_length. lia. }
  { intros v L _. apply in_seq. lia. }
  rewrite H1 in E. injection E as ->.
  (* induction on how far the rank is below the maximum over r *)
  set (M := list_max (map rank r)).
  assert (HM : forall v, In v r -> rank v <= M).
  { intros v Hv. unfold M. pose proof (proj1 (list_max_le (map rank r) _) (le_n _)) as F.
    rewrite Forall_forall in F. apply F, in_map, Hv. }
  assert (G : forall n v, M - rank v < n -> In v r -> ty g v = t_input \/ (In v r /\ live g v)).
  { induction n as [|n IH]; intros v Hn Hv; [lia|].
    destruct (Z.eq_dec (ty g v) t_input) as [|NI]; auto. right. split; auto.
    pose proof (H5 v Hv) as D.
    destruct (Z.eq_dec (ty g v) t_output) as [To|To]; [|destruct (Z.eq_dec (ty g v) t_unused) as [Tu|Tu]].
    - exists v. repeat split; [apply H3, in_seq in Hv; lia|now left|constructor].
    - exists v. repeat split; [apply H3, in_seq in Hv; lia|now right|constructor].
    - destruct (filter (fun w => memb w r) (outs g v)) as [|w t] eqn:Ef.
      + exfalso. assert (dead g r v = true); [|congruence]. apply dead_spec. unfold is_sink. repeat split; auto.
        * tauto.
        * intros w Hw Hr. assert (In w (filter (fun w => memb w r) (outs g v))) as Hi
            by (apply filter_In; split; auto; now apply memb_In). rewrite Ef in Hi. destruct Hi.
      + assert (In w (filter (fun w => memb w r) (outs g v))) as Hi by (rewrite Ef; now left).
        apply filter_In in Hi as (He & Hr). apply memb_In in Hr.
        pose proof (A v w He). pose proof (HM w Hr). pose proof (HM v Hv).
        destruct (IH w) as [Tw|(_ & x & Lx & Sx & Rx)]; auto; [lia| |].
        * destruct (R2 v w He). contradiction.
        * exists x. repeat split; auto. now apply (reach_step g v w x). }
  intros v Hv. destruct (G (S (M - rank v)) v) as [|(_ & ?)]; auto.
Qed.
