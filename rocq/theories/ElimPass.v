(** Proofs about the passes that take chains of nodes out of the operator graph. *)
From Coq Require Import List Arith Bool String Lia Permutation.
From Verif Require Import ChainModel EdgeProofs ElimModel ElimSpec ElimBase ElimStep ElimProofs.
Import ListNotations.

Section Near.
Context {X : Type}.
Notation graph := (graph X).
Notation sequence := (sequence X).

(** the graphs differ in edges of a kind only, and in names *)
Definition near (Q : edge -> Prop) (g g' : graph) : Prop :=
  (forall i, kind_of g' i = kind_of g i) /\ forall e, In e (g_es g') -> In e (g_es g) \/ Q e.

Lemma near_refl Q g : near Q g g.
Proof. split; auto. Qed.
Lemma near_trans Q g1 g2 g3 : near Q g1 g2 -> near Q g2 g3 -> near Q g1 g3.
Proof.
  intros [A1 A2] [B1 B2]. split; [intros i; rewrite B1; apply A1|].
  intros e He. destruct (B2 e He); auto.
Qed.

Lemma near_vs Q (g g' : graph) (h : vertex -> vertex) : (forall v, v_id (h v) = v_id v) -> (forall v, v_kind (h v) = v_kind v) ->
  g_vs g' = map h (g_vs g) -> (forall e, In e (g_es g') -> In e (g_es g) \/ Q e) -> near Q g g'.
Proof.
  intros H1 H2 H3 H4. split; auto. intros i. unfold kind_of, vfind. rewrite H3, find_map_id by exact H1.
  destruct (find (fun v => v_id v =? i) (g_vs g)); simpl; auto. rewrite H2. reflexivity.
Qed.

Lemma near_on Q (g : graph) i (h : vertex -> vertex) : (forall v, v_id (h v) = v_id v) -> (forall v, v_kind (h v) = v_kind v) ->
  near Q g (on_vertex g i h).
Proof.
  intros H1 H2. apply (near_vs Q g _ (fun v => if v_id v =? i then h v else v)); auto.
  - intros v. destruct (v_id v =? i); auto.
  - intros v. destruct (v_id v =? i); auto.
Qed.

Lemma near_add (Q : edge -> Prop) (g : graph) e : Q e -> near Q g (add_edge g e).
Proof.
  intros H. split; auto. intros e' He. unfold add_edge in He. simpl in He. apply in_app_or in He.
  destruct He as [He|[<-|[]]]; auto.
Qed.

Lemma near_fold {B} Q (K : nat -> option kind) (op : graph -> B -> option graph) :
  (forall g b g', (forall i, kind_of g i = K i) -> op g b = Some g' -> near Q g g') ->
  forall l g g', (forall i, kind_of g i = K i) -> fold_opt op g l = Some g' -> near Q g g'.
Proof.
  intros H. induction l as [|b l IH]; simpl; intros g g' KG E.
  - injection E as <-. apply near_refl.
  - destruct (op g b) as [g1|] eqn:E1; [|discriminate]. simpl in E. pose proof (H _ _ _ KG E1) as N1.
    apply (near_trans Q g g1); auto. apply IH; auto. intros i. rewrite <- KG. apply N1.
Qed.

Lemma near_connect f (g g' : graph) l new : connect_next g l f new = Some g' -> near (fun e => e_src e = f) g g'.
Proof.
  unfold connect_next. apply (near_fold _ (kind_of g)); [|auto]. clear. intros g1 e g' _ E. unfold connect_one in E.
  destruct (kind_of g1 (e_dst e)) as [k|]; [|discriminate E].
  cbn [obind] in E. destruct (is_sink k).
  - destruct (String.prefix _ _); [|discriminate E]. injection E as <-. apply near_add. reflexivity.
  - destruct (String.eqb _ _); [|discriminate E]. injection E as <-. apply near_add. reflexivity.
Qed.

Lemma near_replace f (g g' : graph) l new : replace_next g l f new = Some g' ->
  near (fun e => e_src e = f /\ kind_of g (e_dst e) = Some KOp) g g'.
Proof.
  unfold replace_next. destruct (vfind g l) as [vl|]; [|intros E; discriminate E]. cbn [obind].
  destruct (nth_error (v_outs vl) 0) as [o|]; [|intros E; discriminate E]. cbn [obind]. apply (near_fold _ (kind_of g)); [|auto].
  intros g1 e g2 KG E. unfold replace_one in E. rewrite KG in E. destruct (kind_of g (e_dst e)) as [k|] eqn:K; [|discriminate].
  simpl in E. destruct k; try discriminate E. cbn [is_kop] in E. destruct (String.eqb _ _); [|discriminate]. injection E as <-.
  eapply near_trans; [|apply near_add; split; [reflexivity|exact K]]. apply near_on; reflexivity.
Qed.

Lemma near_edit Q (s : sequence) (g : graph) : near Q g (fst (edit s g)).
Proof.
  unfold edit. destruct (s_rf s && s_rl s); [apply near_refl|]. destruct (s_edit s) as [[c l]|]; [|apply near_refl].
  apply near_on; reflexivity.
Qed.

Lemma near_inner (Q : edge -> Prop) (g g' : graph) i : NoDup (map v_id (g_vs g)) -> NoDup (map v_id (g_vs g')) -> near Q g g' ->
  (forall e, Q e -> e_src e = i -> kind_of g (e_dst e) = Some KOp) -> inner g i -> inner g' i.
Proof.
  intros N1 N2 [A B] NE H e v He Se Hv Iv.
  pose proof (A (e_dst e)) as K. unfold kind_of in K. rewrite <- Iv, (in_vfind g' v N2 Hv) in K. simpl in K.
  destruct (vfind g (v_id v)) as [w|] eqn:FW; [|discriminate]. simpl in K. injection K as K. rewrite K.
  destruct (B e He) as [W|W].
  - apply vfind_in in FW. destruct FW as [Hw Iw]. apply (H e w W Se Hw). congruence.
  - specialize (NE e W Se). unfold kind_of in NE. rewrite <- Iv, FW in NE. simpl in NE. injection NE as ->. reflexivity.
Qed.
End Near.

Section Removed.
Context {X : Type}.
Notation graph := (graph X).
Notation sequence := (sequence X).
Variable run : nat -> list X -> nat -> X.
Variable inp : string -> option X.
Variable ii : nat.
Variable V : string -> option X.
Variable g0 : graph.
Notation inv := (inv run inp ii V g0).

Lemma step_removes g R acts s pend t' : inv g R acts (s :: pend) ->
  elim_one ii false (mkSt g R acts) s = Some t' -> inv (st_g t') (st_rm t') (st_acts t') pend ->
  incl R (st_rm t') /\ (inner g (last (s_nodes s) 0) -> incl (gone s) (st_rm t')) /\
  forall t, In t pend -> inner g (last (s_nodes t) 0) -> inner (st_g t') (last (s_nodes t) 0).
Proof.
  intros I E I'. destruct (inv_entry _ _ _ _ _ _ _ _ _ _ I) as [first [vn [vl [o [lo [oi EN]]]]]].
  pose proof (i_ids _ _ _ _ _ _ _ _ _ I) as ids. pose proof (i_ids _ _ _ _ _ _ _ _ _ I') as ids'.
  pose proof (i_chain _ _ _ _ _ _ _ _ _ I s (or_introl eq_refl)) as C.
  pose proof (first_g _ _ _ _ _ _ _ _ _ _ _ EN) as Fg.
  assert (LI : last_id s = last (s_nodes s) 0) by (destruct C as [RL _]; unfold last_id, s_last; rewrite RL; reflexivity).
  unfold elim_one in E. cbn [st_g st_rm st_acts] in E. rewrite (n_fid _ _ _ _ _ _ _ _ _ _ _ EN) in E. cbn [obind] in E.
  rewrite (in_vfind g first ids Fg) in E. cbn [obind] in E.
  rewrite (n_next _ _ _ _ _ _ _ _ _ _ _ EN) in E.
  assert (VNg : In vn (g_vs g)) by (pose proof (n_vn _ _ _ _ _ _ _ _ _ _ _ EN) as Q; apply in_delete_vs in Q; tauto).
  rewrite (in_vfind g vn ids VNg) in E. cbn [obind] in E. rewrite (n_in _ _ _ _ _ _ _ _ _ _ _ EN) in E. cbn [obind] in E.
  destruct (sindex o (v_outs first)) as [oi'|]; [|discriminate]. cbn [obind] in E.
  rewrite LI, (removed_gone ii g s C) in E.
  assert (FIN : forall (Q : edge -> Prop) g1 (Ng : near Q g g1)
     (NQ : forall t e, In t pend -> Q e -> e_src e = last (s_nodes t) 0 -> kind_of g (e_dst e) = Some KOp),
     (let (g2, acts0) := edit s g1 in Some (mkSt g2 (R ++ gone s) (acts ++ acts0))) = Some t' ->
     incl R (st_rm t') /\ (inner g (last (s_nodes s) 0) -> incl (gone s) (st_rm t')) /\
     forall t, In t pend -> inner g (last (s_nodes t) 0) -> inner (st_g t') (last (s_nodes t) 0)).
  { intros Q g1 Ng NQ W. destruct (edit s g1) as [g2 a2] eqn:ED. injection W as <-. cbn [st_rm st_g] in *.
    split; [intros r Hr; apply in_or_app; auto|]. split; [intros _ r Hr; apply in_or_app; auto|].
    intros t Ht. apply (near_inner Q g g2); auto; [|intros e He; apply (NQ t e Ht He)].
    apply (near_trans _ g g1); auto. replace g2 with (fst (edit s g1)) by (rewrite ED; reflexivity). apply near_edit. }
  destruct (decide g first (last (s_nodes s) 0) (v_id vn) o false) eqn:DC.
  - injection E as <-. cbn [st_rm st_g]. split; [intros r Hr; exact Hr|]. split; [|auto]. intros IN. exfalso.
    assert (SK : existsb (to_sink g) (out_edges g (last (s_nodes s) 0)) = false).
    { destruct (existsb (to_sink g) (out_edges g (last (s_nodes s) 0))) eqn:EX; auto. apply existsb_exists in EX.
      destruct EX as [e [He TS]]. apply in_out_edges in He. destruct He as [He Se]. unfold to_sink, kind_of in TS.
      destruct (vfind g (e_dst e)) as [v|] eqn:FV; [|discriminate]. simpl in TS. apply vfind_in in FV. destruct FV as [Hv Iv].
      rewrite (IN e v He Se Hv Iv) in TS. discriminate. }
    unfold decide in DC. rewrite SK in DC.
    destruct (is_kin (v_kind first)); destruct (1 <? outdegree g (v_id first)); simpl in DC; discriminate.
  - destruct (replace_next g (last (s_nodes s) 0) (v_id first) o) as [g1|] eqn:RN; [|discriminate]. cbn [obind] in E.
    apply (FIN _ g1 (near_replace _ _ _ _ _ RN)); auto. intros t e _ [_ K] _. exact K.
  - destruct (vfind g (last (s_nodes s) 0)) as [v1|]; [|discriminate]. cbn [obind] in E.
    destruct (nth_error (v_outs v1) 0) as [new|]; [|discriminate]. cbn [obind] in E.
    destruct (connect_next g (last (s_nodes s) 0) (v_id first) new) as [g1|] eqn:CN; [|discriminate]. cbn [obind] in E.
    pose proof (connect_apart _ _ _ _ _ _ _ _ _ _ _ _ _ _ _ _ I EN _ DC) as AP.
    assert (NQ : forall t e, In t pend -> e_src e = v_id first -> e_src e = last (s_nodes t) 0 -> kind_of g (e_dst e) = Some KOp).
    { intros t e Ht S1 S2. exfalso. apply (AP t Ht). congruence. }
    assert (N2 : near (fun e => e_src e = v_id first) g (rename_out g1 (v_id first) oi' new)).
    { apply (near_trans _ g g1); [apply (near_connect _ _ _ _ _ CN)|].
      apply (near_vs _ g1 _ (fun v => if v_id v =? v_id first then with_outs (supd oi' new (v_outs v)) v else v)); auto.
      - intros v. destruct (v_id v =? v_id first); reflexivity.
      - intros v. destruct (v_id v =? v_id first); reflexivity. }
    destruct (is_kconst (v_kind first)).
    + unfold set_buffer in E.
      destruct (vfind (rename_out g1 (v_id first) oi' new) (s_first s)) as [v0|]; [|discriminate]. cbn [obind] in E.
      destruct (vfind (rename_out g1 (v_id first) oi' new) (s_last s)) as [v2|]; [|discriminate]. cbn [obind] in E.
      destruct (if is_kconst (v_kind v0) then Some (v_name v0) else nth_error (v_ins v0) ii) as [old|]; [|discriminate].
      cbn [obind] in E. destruct (nth_error (v_outs v2) 0) as [nw|]; [|discriminate]. cbn [obind] in E.
      refine (FIN _ _ _ NQ E). exact N2.
    + apply (FIN _ _ N2 NQ E).
Qed.

Lemma steps_removes : forall l g R acts t', inv g R acts l -> fold_opt (elim_one ii false) (mkSt g R acts) l = Some t' ->
  incl R (st_rm t') /\ forall s, In s l -> inner g (last (s_nodes s) 0) -> incl (gone s) (st_rm t').
Proof.
  induction l as [|s l IH]; intros g R acts t' I E.
  - injection E as <-. split; [intros r Hr; exact Hr|intros s []].
  - destruct (step_inv _ _ _ _ _ _ _ _ _ _ I) as [[g1 R1 a1] [E1 I1]]. cbn [fold_opt] in E. rewrite E1 in E. cbn [obind] in E.
    destruct (step_removes _ _ _ _ _ _ I E1 I1) as [P1 [P2 P3]]. cbn [st_g st_rm st_acts] in *.
    destruct (IH _ _ _ _ I1 E) as [Q1 Q2]. split; [intros r Hr; auto|].
    intros t [<-|Ht] IN.
    + intros r Hr. apply Q1. apply P2; auto.
    + apply Q2; auto.
Qed.
End Removed.

Section Pass.
Context {X : Type}.
Notation graph := (graph X).
Notation sequence := (sequence X).
Variable run : nat -> list X -> nat -> X.

Theorem eliminate_removes ii (g : graph) (l : list sequence) g' : good g ->
  (forall s, In s l -> chain g ii s /\ edits g s /\ neutral run g ii s) -> separate g ii l ->
  eliminate ii false g l = Some g' ->
  forall s v, In s l -> inner g (last (s_nodes s) 0) -> In v (g_vs g') -> ~ In (v_id v) (gone s).
Proof.
  intros G HS SP E s v Hs IN Hv F.
  destruct (start_inv run ii g l (fun _ => Some (run 0 [] 0)) G) as [V [I _]]; auto.
  { intros w n _ _ _. eauto. }
  unfold eliminate in E. destruct (fold_opt (elim_one ii false) (mkSt g [] []) l) as [t'|] eqn:E1; [|discriminate]. cbn [obind] in E.
  destruct (fold_opt replace_input (st_g t') (st_acts t')) as [g2|]; [|discriminate]. cbn [obind] in E. injection E as <-.
  destruct (steps_removes _ _ _ _ _ _ _ _ _ _ I E1) as [_ Q]. apply in_delete_vs in Hv. destruct Hv as [_ NR].
  apply NR. apply (Q s Hs IN). exact F.
Qed.

(** * Lists of edges *)
Lemma only_edge {A} (P : A -> bool) (l : list A) a b : List.length (filter P l) = 1 -> In a l -> In b l -> P a = true -> P b = true -> a = b.
Proof.
  intros L Ha Hb PA PB.
  assert (A1 : In a (filter P l)) by (apply filter_In; auto). assert (B1 : In b (filter P l)) by (apply filter_In; auto).
  destruct (filter P l) as [|x [|y r]]; simpl in L; try lia. destruct A1 as [<-|[]]. destruct B1 as [<-|[]]. reflexivity.
Qed.

Lemma NoDup_key {A} (key : A -> nat) (P : A -> bool) : forall l : list A,
  (forall a, In a l -> P a = true -> List.length (filter (fun b => key b =? key a) l) <= 1) -> NoDup (map key (filter P l)).
Proof.
  induction l as [|a l IH]; simpl; intros H; [constructor|].
  assert (H' : forall b, In b l -> P b = true -> List.length (filter (fun c => key c =? key b) l) <= 1).
  { intros b Hb PB. pose proof (H b (or_intror Hb) PB) as Q. destruct (key a =? key b); simpl in Q; lia. }
  destruct (P a) eqn:PA; [|auto]. simpl. constructor; [|auto]. intros F. apply in_map_iff in F. destruct F as [b [E Hb]].
  apply filter_In in Hb. destruct Hb as [Hb _]. pose proof (H a (or_introl eq_refl) PA) as Q. rewrite Nat.eqb_refl in Q. simpl in Q.
  assert (In b (filter (fun c => key c =? key a) l)) by (apply filter_In; split; auto; apply Nat.eqb_eq; exact E).
  destruct (filter (fun c => key c =? key a) l); [destruct H0|simpl in Q; lia].
Qed.

Lemma path_in : forall l k a b, nth_error l k = Some a -> nth_error l (S k) = Some b -> In (a, b) (path_edges l).
Proof.
  induction l as [|x l IH]; intros k a b Ha Hb; [destruct k; discriminate|]. destruct k as [|k].
  - simpl in Ha. injection Ha as ->. destruct l as [|y l]; [discriminate|]. simpl in Hb. injection Hb as ->. left. reflexivity.
  - destruct l as [|y l]; [destruct k; discriminate|]. right. apply (IH k); auto.
Qed.

Lemma path_snd : forall l, map snd (path_edges l) = tl l.
Proof.
  induction l as [|x l IH]; [reflexivity|]. destruct l as [|y l]; [reflexivity|].
  change (y :: map snd (path_edges (y :: l)) = y :: l). f_equal. exact IH.
Qed.

Lemma paths_snd : forall R : list (list nat), map snd (flat_map path_edges R) = flat_map (@tl nat) R.
Proof. induction R as [|s R IH]; simpl; auto. rewrite map_app, path_snd, IH. reflexivity. Qed.

(** the edges that a pass looks at, made into chains *)
Lemma chains_of (g : graph) (P : edge -> bool) : good g ->
  (forall e, In e (g_es g) -> P e = true -> List.length (filter (fun b => e_src b =? e_src e) (g_es g)) = 1 /\
     exists u v, In u (g_vs g) /\ In v (g_vs g) /\ v_id u = e_src e /\ v_id v = e_dst e /\ v_kind v = KOp /\
       exists n, nth_error (v_ins v) 0 = Some n /\ In n (v_outs u)) ->
  let es := filter P (g_es g) in
  exists L, fuse_connected_edges (List.length es) (map (fun e => [e_src e; e_dst e]) es) = Some L /\
    Forall (fun s => 2 <= List.length s) L /\
    (forall s a b k, In s L -> nth_error s k = Some a -> nth_error s (S k) = Some b -> exists e, In e es /\ e_src e = a /\ e_dst e = b) /\
    NoDup (flat_map (@tl nat) L) /\ NoDup (map (hd 0) L) /\
    (forall s e, In s L -> In e es -> hd 0 s <> e_dst e /\ last s 0 <> e_src e) /\
    (forall s, In s L -> incl (tl s) (map e_dst es)) /\
    (forall e, In e es -> exists s, In s L /\ In (e_dst e) (tl s)).
Proof.
  intros G H es. set (E := map (fun e => (e_src e, e_dst e)) es).
  assert (IE : forall e, In e es -> In e (g_es g) /\ P e = true) by (intros e He; apply filter_In in He; exact He).
  assert (SAME : forall e e', In e es -> In e' es -> e_dst e = e_dst e' -> e = e').
  { intros e e' He He' Q. destruct (IE e He) as [G1 P1]. destruct (IE e' He') as [G2 P2].
    destruct (H e G1 P1) as [O1 [u [v [Hu [Hv [Iu [Iv [_ [n [N1 N2]]]]]]]]]].
    destruct (H e' G2 P2) as [O2 [u' [v' [Hu' [Hv' [Iu' [Iv' [_ [n' [N1' N2']]]]]]]]]].
    assert (v = v') by (apply (id_inj g); auto; [apply (ok_ids _ G)|congruence]). subst v'.
    assert (n = n') by congruence. subst n'. assert (u = u') by (apply (ok_writer _ G u u' n); auto). subst u'.
    apply (only_edge (fun b => e_src b =? e_src e) (g_es g)); auto; [apply Nat.eqb_refl|].
    rewrite <- Iu, <- Iu'. apply Nat.eqb_refl. }
  assert (ND1 : NoDup (map fst E)).
  { unfold E. rewrite map_map. cbn [fst]. unfold es. apply NoDup_key. intros e He PE.
    destruct (H e He PE) as [O _]. rewrite O. lia. }
  assert (ND2 : NoDup (map snd E)).
  { unfold E. rewrite map_map. cbn [snd].
    assert (NE : NoDup es). { apply (NoDup_map_inv e_src). unfold E in ND1. rewrite map_map in ND1. exact ND1. }
    revert SAME NE. clear. induction es as [|e l IH]; simpl; intros SAME ND; [constructor|].
    inversion ND as [|? ? N D]; subst. constructor.
    - intros F. apply in_map_iff in F. destruct F as [e' [Q He']].
      rewrite (SAME e' e) in He'; auto.
    - apply IH; auto. }
  destruct (ok_acyclic _ G) as [rank RK].
  destruct (fuse_connected_edges_correct rank E ND1 ND2) as [L [F1 [F2 [F3 F4]]]].
  { intros a b Hab. unfold E in Hab. apply in_map_iff in Hab. destruct Hab as [e [Q He]]. injection Q as <- <-.
    destruct (IE e He) as [G1 P1]. destruct (H e G1 P1) as [_ [u [v [Hu [Hv [Iu [Iv [_ [n [N1 N2]]]]]]]]]].
    rewrite <- Iu, <- Iv. apply (RK u v n); auto. apply nth_error_In in N1. exact N1. }
  exists L. split.
  { rewrite <- F1. unfold E. rewrite map_length, map_map. reflexivity. }
  split; [exact F2|]. rewrite Forall_forall in F4. split; [|split; [|split; [|split; [|split]]]].
  - intros s a b k Hs Ha Hb. assert (In (a, b) E).
    { apply (Permutation_in _ F3). apply in_flat_map. exists s. split; auto. apply (path_in s k); auto. }
    unfold E in H0. apply in_map_iff in H0. destruct H0 as [e [Q He]]. injection Q as <- <-. eauto.
  - rewrite <- paths_snd. apply (Permutation_NoDup (Permutation_map snd (Permutation_sym F3))). exact ND2.
  - pose proof (Permutation_NoDup (Permutation_map fst (Permutation_sym F3)) ND1) as NF. rewrite Forall_forall in F2.
    revert NF F2. clear. induction L as [|s L IH]; simpl; intros NF F2; [constructor|]. rewrite map_app in NF. constructor.
    + intros F. apply in_map_iff in F. destruct F as [s' [Q Hs']].
      destruct s as [|a [|b l]]; [specialize (F2 _ (or_introl eq_refl)); simpl in F2; lia|specialize (F2 _ (or_introl eq_refl)); simpl in F2; lia|].
      pose proof (F2 s' (or_intror Hs')) as L2. destruct s' as [|a' [|b' l']]; simpl in L2; try lia. simpl in Q. subst a'.
      apply (EdgeProofs.NoDup_app_dis _ _ a NF); [left; reflexivity|]. apply in_map_iff. exists (a, b'). split; auto.
      apply in_flat_map. exists (a :: b' :: l'). split; auto. left. reflexivity.
    + apply IH; [apply (NoDup_app_l _ _ NF)|]. intros s' Hs'. apply F2. right. exact Hs'.
  - intros s e Hs He. destruct (F4 s Hs) as [A B]. split; intros Q.
    + apply A. unfold E. rewrite map_map. apply in_map_iff. exists e. auto.
    + apply B. unfold E. rewrite map_map. apply in_map_iff. exists e. auto.
  - intros s Hs x Hx. rewrite <- path_snd in Hx. apply in_map_iff in Hx. destruct Hx as [p [<- Hp]].
    assert (In p E) by (apply (Permutation_in _ F3); apply in_flat_map; eauto).
    unfold E in H0. apply in_map_iff in H0. destruct H0 as [e [<- He]]. apply in_map_iff. exists e. split; [reflexivity|exact He].
  - intros e He. assert (In (e_src e, e_dst e) (flat_map path_edges L)).
    { apply (Permutation_in _ (Permutation_sym F3)). unfold E. apply in_map_iff. exists e. auto. }
    apply in_flat_map in H0. destruct H0 as [s [Hs Hp]]. exists s. split; auto. rewrite <- path_snd.
    apply in_map_iff. exists (e_src e, e_dst e). auto.
Qed.

(** * No-ops *)
Lemma noop_value (g : graph) inp V v n l : good g -> fits run inp V [] g -> In v (g_vs g) -> v_kind v = KOp -> hands_on run v ->
  nth_error (v_ins v) 0 = Some n -> v_outs v = [l] -> V l = V n.
Proof.
  intros G F Hv K [_ HO] NI O. pose proof (F v Hv) as Q. rewrite K in Q. destruct Q as [xs [Q1 Q2]].
  rewrite (Q2 0 l) by (rewrite O; reflexivity). unfold later. simpl.
  destruct (v_ins v) as [|m ms]; [discriminate|]. injection NI as ->. destruct xs as [|x xs]; [discriminate|].
  simpl in Q1. injection Q1 as Q1 _. rewrite HO. symmetry. exact Q1.
Qed.

Lemma last_error (l : list nat) : l <> [] -> nth_error l (List.length l - 1) = Some (last l 0).
Proof.
  induction l as [|a l IH]; intros H; [congruence|]. destruct l as [|b l]; [reflexivity|].
  change (last (a :: b :: l) 0) with (last (b :: l) 0). rewrite <- (IH ltac:(discriminate)). simpl. rewrite Nat.sub_0_r. reflexivity.
Qed.

(** a chain of nodes that each hand on their first input *)
Lemma noop_chain (g : graph) (l : list nat) : good g -> 2 <= List.length l ->
  (forall k a b, nth_error l k = Some a -> nth_error l (S k) = Some b ->
     exists u v, v_id u = a /\ v_id v = b /\ reads_first g u v /\ hands_on run v /\ (k <> 0 -> only_to g a b)) ->
  chain g 0 (as_sequence l) /\ edits g (as_sequence l) /\ neutral run g 0 (as_sequence l).
Proof.
  intros G LN H. split; [|split].
  - split; [reflexivity|]. split; [exact LN|]. split; [|split; [|split]].
    + intros k a b Ha Hb. destruct (H k a b Ha Hb) as [u [v [Iu [Iv [[Hu [Hv [K [n [NI NO]]]]] [[L1 _] OT]]]]]]. split.
      * exists u, v, n. auto 10.
      * intros [Q|[Q|Q]]; [auto|discriminate|exfalso; apply Q; reflexivity].
    + discriminate.
    + intros [Q|Q]; [discriminate|exfalso; apply Q; reflexivity].
    + intros Q. exfalso. apply Q. reflexivity.
  - intros c e v i n x Q. discriminate.
  - intros inp vl lo GV Hvl Il Ol. cbn [s_edit as_sequence s_rf s_nodes] in *. intros v n x Hv Iv NI CX.
    destruct (good_fits run inp g G GV) as [V [F [C T]]].
    assert (ids := ok_ids _ G).
    assert (CH : forall k b w p, nth_error l (S k) = Some b -> In w (g_vs g) -> v_id w = b -> v_outs w = [p] -> V p = V n).
    { induction k as [|k IH]; intros b w p Hb Hw Iw Ow.
      - destruct l as [|a0 [|b0 l0]]; try discriminate. simpl in Hb. injection Hb as ->. simpl in Iv.
        destruct (H 0 a0 b eq_refl eq_refl) as [u [v' [_ [Iv' [[_ [Hv' [K [m [NM _]]]]] [HO _]]]]]].
        assert (v' = v) by (apply (id_inj g); auto; congruence). subst v'.
        assert (w = v) by (apply (id_inj g); auto; congruence). subst w.
        assert (m = n) by congruence. subst m. apply (noop_value g inp V v n p); auto.
      - assert (exists a, nth_error l (S k) = Some a) as [a Ha].
        { destruct (nth_error l (S k)) eqn:Q; [eauto|]. apply nth_error_None in Q.
          assert (S (S k) < List.length l) by (apply nth_error_Some; congruence). lia. }
        destruct (H (S k) a b Ha Hb) as [u [v' [Iu [Iv' [[Hu [Hv' [K [m [NM NO]]]]] [HO _]]]]]].
        assert (v' = w) by (apply (id_inj g); auto; congruence). subst v'.
        rewrite (noop_value g inp V w m p); auto.
        assert (exists a0, nth_error l k = Some a0) as [a0 Ha0].
        { destruct (nth_error l k) eqn:Q; [eauto|]. apply nth_error_None in Q.
          assert (S k < List.length l) by (apply nth_error_Some; congruence). lia. }
        destruct (H k a0 a Ha0 Ha) as [_ [u' [_ [Iu' [[_ [Hu' _]] [[L1 _] _]]]]]].
        assert (u' = u) by (apply (id_inj g); auto; congruence). subst u'.
        destruct (v_outs u) as [|q [|]] eqn:OU; simpl in L1; try lia. destruct NO as [->|[]].
        apply (IH a u m); auto. }
    assert (LE : nth_error l (S (List.length l - 2)) = Some (last l 0)).
    { rewrite <- last_error by (destruct l; [simpl in LN; lia|discriminate]). f_equal. lia. }
    pose proof (CH _ _ vl lo LE Hvl Il Ol) as EQ.
    assert (KL : v_kind vl = KOp).
    { assert (exists a, nth_error l (List.length l - 2) = Some a) as [a Ha].
      { destruct (nth_error l (List.length l - 2)) eqn:Q; [eauto|]. apply nth_error_None in Q. lia. }
      destruct (H _ a _ Ha LE) as [_ [w [_ [Iw [[_ [Hw [K _]]] _]]]]].
      assert (w = vl) by (apply (id_inj g); auto; congruence). congruence. }
    assert (VL : V lo <> None).
    { apply (T vl lo Hvl); [right; right; exact KL|rewrite Ol; left; reflexivity]. }
    destruct (V lo) as [y|] eqn:VY; [|congruence]. pose proof (C lo y VY) as Cy. pose proof (C n y (eq_sym EQ)) as Cn.
    rewrite (computes_fun run inp g n x y CX Cn). exact Cy.
Qed.

Lemma FOP_all {A} (P : A -> A -> Prop) (l : list A) : (forall a b, In a l -> In b l -> P a b) -> ForallOrdPairs P l.
Proof.
  induction l as [|a l IH]; intros H; constructor.
  - rewrite Forall_forall. intros b Hb. apply H; [left; reflexivity|right; exact Hb].
  - apply IH. intros x y Hx Hy. apply H; right; assumption.
Qed.

Lemma noop_edge_spec (noop : vertex -> bool) branch (g : graph) e : noop_edge noop branch g e = true ->
  exists u v, In u (g_vs g) /\ In v (g_vs g) /\ v_id u = e_src e /\ v_id v = e_dst e /\ reads_first g u v /\ noop v = true /\
    (branch = false -> List.length (filter (fun b => e_src b =? e_src e) (g_es g)) = 1).
Proof.
  unfold noop_edge. destruct (vfind g (e_src e)) as [u|] eqn:FU; [|discriminate].
  destruct (vfind g (e_dst e)) as [v|] eqn:FV; [|discriminate]. apply vfind_in in FU. apply vfind_in in FV.
  destruct FU as [Hu Iu]. destruct FV as [Hv Iv]. intros H. repeat (apply andb_true_iff in H; destruct H as [H ?]).
  exists u, v. do 4 (split; [assumption|]). split; [|split; [assumption|]].
  - split; [exact Hu|]. split; [exact Hv|]. split; [destruct (v_kind v); try discriminate; reflexivity|].
    destruct (v_ins v) as [|n l]; [discriminate|]. exists n. split; [reflexivity|]. apply smem_in. assumption.
  - intros ->. apply Nat.eqb_eq in H. unfold outdegree, out_edges in H. rewrite <- Iu. exact H.
Qed.

Lemma in_len {A} (x : A) l : In x l -> 1 <= List.length l.
Proof. destruct l; [intros []|simpl; lia]. Qed.

Theorem remove_noop_correct (noop : vertex -> bool) (g : graph) : good g ->
  (forall v, In v (g_vs g) -> noop v = true -> hands_on run v) ->
  exists g', remove_noop noop false g = Some g' /\ good g' /\ same_results run g g' /\
    ((forall v, In v (g_vs g) -> noop v = true -> inner g (v_id v)) ->
     forall u v w, reads_first g u v -> noop v = true ->
       List.length (filter (fun e => e_src e =? v_id u) (g_es g)) = 1 -> (exists e, In e (g_es g) /\ e_src e = v_id v) ->
       In w (g_vs g') -> v_id w <> v_id v).
Proof.
  intros G HN. unfold remove_noop.
  destruct (chains_of g (noop_edge noop false g) G) as [L [E [L2 [LP [LT [_ [LE [LI LJ]]]]]]]].
  { intros e He PE. destruct (noop_edge_spec _ _ _ _ PE) as [u [v [Hu [Hv [Iu [Iv [[_ [_ [K Q]]] [_ O]]]]]]]].
    split; [apply O; reflexivity|]. exists u, v. auto 10. }
  rewrite E. cbn [obind]. rewrite Forall_forall in L2.
  assert (CH : forall s, In s (map (@as_sequence X) L) -> chain g 0 s /\ edits g s /\ neutral run g 0 s).
  { intros s Hs. apply in_map_iff in Hs. destruct Hs as [l [<- Hl]]. apply noop_chain; auto.
    intros k a b Ha Hb. destruct (LP l a b k Hl Ha Hb) as [e [He [Ea Eb]]]. apply filter_In in He. destruct He as [He PE].
    destruct (noop_edge_spec _ _ _ _ PE) as [u [v [Hu [Hv [Iu [Iv [RF [NV O]]]]]]]]. exists u, v.
    split; [congruence|]. split; [congruence|]. split; [exact RF|]. split; [auto|]. intros _ e' He' Se'.
    rewrite <- Eb. f_equal. apply (only_edge (fun b => e_src b =? e_src e) (g_es g)); auto; apply Nat.eqb_eq; congruence. }
  assert (SP : separate g 0 (map (@as_sequence X) L)).
  { assert (FG : forall L', flat_map gone (map (@as_sequence X) L') = flat_map (@tl nat) L').
    { induction L' as [|l L' IH]; simpl; auto. rewrite IH. reflexivity. }
    constructor.
    + rewrite FG. exact LT.
    + intros s Hs _. rewrite FG. apply in_map_iff in Hs. destruct Hs as [l [<- Hl]]. cbn [as_sequence s_nodes]. intros F.
      apply in_flat_map in F. destruct F as [l' [Hl' Hin]]. apply (LI l' Hl') in Hin. apply in_map_iff in Hin.
      destruct Hin as [e [Q He]]. destruct (LE l e Hl He) as [N _]. congruence.
    + apply FOP_all. intros a b Ha _ RF. apply in_map_iff in Ha. destruct Ha as [l [<- _]]. discriminate.
    + assert (forall L', flat_map (fun s : sequence => match s_edit s with Some (_, e) => map (fun a => snd (fst a)) e | None => [] end)
        (map (@as_sequence X) L') = []) as ->; [|constructor].
      induction L' as [|l L' IH]; simpl; auto. }
  destruct (eliminate_correct run 0 g (map (@as_sequence X) L) G CH SP) as [g' [EQ [G' SR]]].
  exists g'. split; [exact EQ|]. split; [exact G'|]. split; [exact SR|]. intros IN u v w RF NV OU [e0 [He0 Se0]] Hw F.
  pose proof RF as RF'. destruct RF' as [Hu [Hv [K [n [NI NO]]]]].
  destruct (ok_reads _ G v n Hv K (nth_error_In _ _ NI)) as [u' [Hu' [Ou' [_ EW]]]].
  rewrite (ok_writer _ G u' u n Hu' Hu Ou' NO) in EW. clear u' Hu' Ou'.
  destruct (LJ (mkE (v_id u) (v_id v) n n)) as [l [Hl Hin]].
  { apply filter_In. split; [exact EW|]. unfold noop_edge. cbn [e_src e_dst].
    rewrite (in_vfind g u (ok_ids _ G) Hu), (in_vfind g v (ok_ids _ G) Hv), NV, K. unfold outdegree, out_edges. rewrite OU.
    assert (1 <=? List.length (filter (fun e => e_src e =? v_id v) (g_es g)) = true) as ->.
    { apply Nat.leb_le. assert (In e0 (filter (fun e => e_src e =? v_id v) (g_es g))) as Q.
      { apply filter_In. split; [exact He0|]. apply Nat.eqb_eq. exact Se0. }
      exact (in_len _ _ Q). }
    destruct (v_ins v) as [|m ms]; [discriminate|]. injection NI as ->. cbn [is_kop andb Nat.eqb]. rewrite (proj2 (smem_in n (v_outs u)) NO). reflexivity. }
  cbn [e_dst] in Hin.
  apply (eliminate_removes 0 g (map (@as_sequence X) L) g' G CH SP EQ (as_sequence l) w); auto.
  - apply in_map. exact Hl.
  - cbn [s_nodes as_sequence]. pose proof (L2 l Hl) as LL.
    assert (In (last l 0) (tl l)) as LT'.
    { destruct l as [|a [|b l]]; simpl in LL; try lia. change (In (last (b :: l) 0) (b :: l)). 
      pose proof (last_error (b :: l) ltac:(discriminate)) as Q. apply nth_error_In in Q. exact Q. }
    apply (LI l Hl) in LT'. apply in_map_iff in LT'. destruct LT' as [e [Q He]]. apply filter_In in He. destruct He as [He PE].
    destruct (noop_edge_spec _ _ _ _ PE) as [u1 [v1 [_ [Hv1 [_ [Iv1 [_ [NV1 _]]]]]]]]. rewrite <- Q, <- Iv1. apply IN; auto.
  - rewrite F. exact Hin.
Qed.

(** with branches: if no no-op follows another one *)
Theorem remove_noop_branch_correct (noop : vertex -> bool) (g : graph) : good g ->
  (forall v, In v (g_vs g) -> noop v = true -> hands_on run v) ->
  NoDup (map (fun e => (e_src e, e_dst e)) (g_es g)) ->
  (forall u v, reads_first g u v -> noop u = true -> noop v = true -> False) ->
  exists g', remove_noop noop true g = Some g' /\ good g' /\ same_results run g g' /\
    ((forall v, In v (g_vs g) -> noop v = true -> inner g (v_id v)) ->
     forall u v w, reads_first g u v -> noop v = true -> (exists e, In e (g_es g) /\ e_src e = v_id v) ->
       In w (g_vs g') -> v_id w <> v_id v).
Proof.
  intros G HN ND AP. unfold remove_noop. cbn [obind]. set (es := filter (noop_edge noop true g) (g_es g)).
  assert (ES : forall e, In e es -> exists u v, In u (g_vs g) /\ In v (g_vs g) /\ v_id u = e_src e /\ v_id v = e_dst e /\
            reads_first g u v /\ noop v = true).
  { intros e He. apply filter_In in He. destruct He as [He PE].
    destruct (noop_edge_spec _ _ _ _ PE) as [u [v [Hu [Hv [Iu [Iv [RF [NV O]]]]]]]]. exists u, v. auto 10. }
  assert (ids := ok_ids _ G).
  assert (NDd : NoDup (map e_dst es)).
  { assert (SM : forall e e', In e es -> In e' es -> e_dst e = e_dst e' -> e_src e = e_src e').
    { intros e e' He He' Q. destruct (ES e He) as [u [v [Hu [Hv [Iu [Iv [[_ [_ [_ [n [N1 N2]]]]] _]]]]]]].
      destruct (ES e' He') as [u' [v' [Hu' [Hv' [Iu' [Iv' [[_ [_ [_ [n' [N1' N2']]]]] _]]]]]]].
      assert (v = v') by (apply (id_inj g); auto; congruence). subst v'. assert (n = n') by congruence. subst n'.
      assert (u = u') by (apply (ok_writer _ G u u' n); auto). congruence. }
    assert (ND' : NoDup (map (fun e => (e_src e, e_dst e)) es)) by (apply NoDup_map_filter; exact ND).
    revert SM ND'. clear. induction es as [|e l IH]; simpl; intros SM ND; [constructor|].
    inversion ND as [|? ? N D]; subst. constructor; [|apply IH; auto].
    intros F. apply in_map_iff in F. destruct F as [e' [Q He']]. apply N. apply in_map_iff. exists e'. split; [|exact He'].
    f_equal; auto. }
  assert (FG : flat_map gone (map (@as_sequence X) (map (fun e => [e_src e; e_dst e]) es)) = map e_dst es).
  { clear. induction es as [|e l IH]; simpl; auto. f_equal. exact IH. }
  set (L := map (fun e => [e_src e; e_dst e]) es) in *.
  assert (CH : forall s, In s (map (@as_sequence X) L) -> chain g 0 s /\ edits g s /\ neutral run g 0 s).
  { intros s Hs. apply in_map_iff in Hs. destruct Hs as [l [<- Hl]]. apply in_map_iff in Hl. destruct Hl as [e [<- He]].
    apply noop_chain; auto. intros k a b Ha Hb. destruct k as [|[|k]]; try discriminate Hb. injection Ha as <-. injection Hb as <-.
    destruct (ES e He) as [u [v [Hu [Hv [Iu [Iv [RF NV]]]]]]]. exists u, v. split; [exact Iu|]. split; [exact Iv|].
    split; [exact RF|]. split; [auto|congruence]. }
  assert (SP : separate g 0 (map (@as_sequence X) L)).
  { constructor.
    + rewrite FG. exact NDd.
    + intros s Hs _. rewrite FG. apply in_map_iff in Hs. destruct Hs as [l [<- Hl]]. apply in_map_iff in Hl. destruct Hl as [e [<- He]].
      simpl. intros F. apply in_map_iff in F. destruct F as [e' [Q He']].
      destruct (ES e He) as [u [v [Hu [Hv [Iu [Iv [RF NV]]]]]]]. destruct (ES e' He') as [u' [v' [Hu' [Hv' [Iu' [Iv' [RF' NV']]]]]]].
      assert (v' = u) by (apply (id_inj g); auto; congruence). subst v'. apply (AP u v); auto.
    + apply FOP_all. intros a b Ha _ RF. apply in_map_iff in Ha. destruct Ha as [l [<- _]]. discriminate.
    + assert (forall L', flat_map (fun s : sequence => match s_edit s with Some (_, e) => map (fun a => snd (fst a)) e | None => [] end)
        (map (@as_sequence X) L') = []) as ->; [|constructor].
      induction L' as [|l L' IH]; simpl; auto. }
  destruct (eliminate_correct run 0 g (map (@as_sequence X) L) G CH SP) as [g' [EQ [G' SR]]].
  exists g'. split; [exact EQ|]. split; [exact G'|]. split; [exact SR|]. intros IN u v w RF NV [e0 [He0 Se0]] Hw F.
  pose proof RF as RF'. destruct RF' as [Hu [Hv [K [n [NI NO]]]]].
  destruct (ok_reads _ G v n Hv K (nth_error_In _ _ NI)) as [u' [Hu' [Ou' [_ EW]]]].
  rewrite (ok_writer _ G u' u n Hu' Hu Ou' NO) in EW. clear u' Hu' Ou'.
  assert (IE : In (mkE (v_id u) (v_id v) n n) es).
  { apply filter_In. split; [exact EW|]. unfold noop_edge. cbn [e_src e_dst].
    rewrite (in_vfind g u (ok_ids _ G) Hu), (in_vfind g v (ok_ids _ G) Hv), NV, K. unfold outdegree, out_edges.
    assert (LB : forall e i, In e (g_es g) -> e_src e = i -> 1 <=? List.length (filter (fun e => e_src e =? i) (g_es g)) = true).
    { intros e i He Se. apply Nat.leb_le. assert (In e (filter (fun e => e_src e =? i) (g_es g))) as Q.
      { apply filter_In. split; [exact He|]. apply Nat.eqb_eq. exact Se. }
      exact (in_len _ _ Q). }
    rewrite (LB e0 (v_id v)), (LB _ (v_id u) EW) by auto.
    destruct (v_ins v) as [|m ms]; [discriminate|]. injection NI as ->. cbn [is_kop andb]. rewrite (proj2 (smem_in n (v_outs u)) NO). reflexivity. }
  apply (eliminate_removes 0 g (map (@as_sequence X) L) g' G CH SP EQ (as_sequence [v_id u; v_id v]) w); auto.
  - apply in_map. apply in_map_iff. exists (mkE (v_id u) (v_id v) n n). auto.
  - apply (IN v Hv NV).
  - left. symmetry. exact F.
Qed.

(** * Chains of operators of one class *)
Lemma chain_edge_spec cls (g : graph) e : chain_edge (fun u v => cls u && cls v) g e = true ->
  exists u v n, In u (g_vs g) /\ In v (g_vs g) /\ v_id u = e_src e /\ v_id v = e_dst e /\ cls u = true /\ cls v = true /\
    nth_error (v_ins v) 0 = Some n /\ In n (v_outs u) /\ List.length (filter (fun b => e_src b =? e_src e) (g_es g)) = 1.
Proof.
  unfold chain_edge. destruct (vfind g (e_src e)) as [u|] eqn:FU; [|discriminate].
  destruct (vfind g (e_dst e)) as [v|] eqn:FV; [|discriminate]. apply vfind_in in FU. apply vfind_in in FV.
  destruct FU as [Hu Iu]. destruct FV as [Hv Iv]. intros H. repeat (apply andb_true_iff in H; destruct H as [H ?]).
  destruct (v_outs u) as [|o os] eqn:OU; [discriminate|]. destruct (v_ins v) as [|x xs] eqn:IV; [discriminate|].
  exists u, v, x. rewrite OU, IV. repeat (split; [assumption || reflexivity|]). split.
  - left. apply String.eqb_eq. assumption.
  - match goal with H : (outdegree _ _ =? 1) = true |- _ => apply Nat.eqb_eq in H; unfold outdegree, out_edges in H; rewrite <- Iu; exact H end.
Qed.

Lemma NoDup_concat_incl {A B} (f : A -> list B) (h : A -> list B) (L : list A) :
  (forall s, In s L -> NoDup (f s) /\ incl (f s) (h s)) -> NoDup (flat_map h L) -> NoDup (flat_map f L).
Proof.
  induction L as [|s L IH]; simpl; intros H ND; [constructor|].
  assert (IHH : NoDup (flat_map f L)) by (apply IH; [auto|apply (NoDup_app_l _ _ ND)]).
  destruct (H s (or_introl eq_refl)) as [N1 I1].
  assert (DIS : forall x, In x (f s) -> ~ In x (flat_map f L)).
  { intros x Hx F. apply in_flat_map in F. destruct F as [s' [Hs' Hx']].
    apply (EdgeProofs.NoDup_app_dis _ _ x ND); [apply I1; exact Hx|]. apply in_flat_map. exists s'. split; auto.
    apply (H s' (or_intror Hs')). exact Hx'. }
  revert N1 DIS. generalize (f s). intros l. induction l as [|x l IHl]; simpl; intros N1 DIS; auto.
  inversion N1 as [|? ? N D]; subst. constructor; [|apply IHl; auto].
  intros F. apply in_app_or in F. destruct F as [F|F]; [exact (N F)|]. apply (DIS x); auto.
Qed.

Lemma nodes_NoDup (L : list (list nat)) : (forall s, In s L -> s <> []) -> NoDup (flat_map (@tl nat) L) -> NoDup (map (hd 0) L) ->
  (forall s t, In s L -> In t L -> ~ In (hd 0 s) (tl t)) -> NoDup (flat_map (fun s => s) L).
Proof.
  induction L as [|s L IH]; simpl; intros NE A B C; [constructor|].
  inversion B as [|? ? NB DB]; subst.
  assert (IHH : NoDup (flat_map (fun s => s) L)) by (apply IH; auto; apply (NoDup_app_l _ _ A)).
  destruct s as [|a l]; [exfalso; apply (NE []); auto|]. simpl in *.
  assert (IN : forall x, In x (flat_map (fun s => s) L) -> exists t, In t L /\ (x = hd 0 t \/ In x (tl t))).
  { intros x Hx. apply in_flat_map in Hx. destruct Hx as [t [Ht Hx]]. exists t. split; auto.
    destruct t as [|b t]; [destruct Hx|]. simpl. destruct Hx as [->|Hx]; auto. }
  constructor.
  - intros F. apply in_app_or in F. destruct F as [F|F]; [apply (C (a :: l) (a :: l)); auto|].
    destruct (IN a F) as [t [Ht [Q|Q]]]; [apply NB; rewrite Q; apply in_map; exact Ht|].
    apply (C (a :: l) t); auto.
  - assert (DIS : forall x, In x l -> ~ In x (flat_map (fun s => s) L)).
    { intros x Hx F. destruct (IN x F) as [t [Ht [Q|Q]]].
      - apply (C t (a :: l)); auto. rewrite <- Q. exact Hx.
      - apply (EdgeProofs.NoDup_app_dis _ _ x A Hx). apply in_flat_map. eauto. }
    assert (NL : NoDup l) by (clear - A; induction l as [|x l IH]; [constructor|]; simpl in A; inversion A as [|? ? N D]; subst;
      constructor; [intros F; apply N; apply in_or_app; auto|apply IH; exact D]).
    revert NL DIS. clear - IHH. induction l as [|x l IHl]; simpl; intros NL DIS; auto.
    inversion NL as [|? ? N D]; subst. constructor; [|apply IHl; auto].
    intros F. apply in_app_or in F. destruct F as [F|F]; [exact (N F)|]. apply (DIS x); auto.
Qed.

Lemma only_or {A} (P Q : A -> bool) (l : list A) a : List.length (filter (fun b => P b && Q b) l) = 1 -> In a l -> P a = true -> Q a = true ->
  List.length (filter P l) = 1 \/ exists b, In b l /\ P b = true /\ Q b = false.
Proof.
  intros H Ha PA QA. destruct (filter (fun b => P b && negb (Q b)) l) as [|b r] eqn:E.
  - left. rewrite <- H. f_equal. apply filter_ext_in. intros b Hb. destruct (P b) eqn:PB; [|reflexivity]. destruct (Q b) eqn:QB; [reflexivity|].
    exfalso. assert (F : In b (filter (fun b => P b && negb (Q b)) l)) by (apply filter_In; rewrite PB, QB; auto). rewrite E in F. destruct F.
  - right. exists b. assert (F : In b (filter (fun b => P b && negb (Q b)) l)) by (rewrite E; left; reflexivity).
    apply filter_In in F. destruct F as [F1 F2]. apply andb_prop in F2. destruct F2 as [F2 F3]. destruct (Q b); [discriminate|auto].
Qed.

Lemma run_of_nth cls (g : graph) : forall l, 2 <= List.length l ->
  (forall k a b, nth_error l k = Some a -> nth_error l (S k) = Some b ->
     exists u v, v_id u = a /\ v_id v = b /\ cls u = true /\ cls v = true /\ reads_first g u v) -> run_of g cls l.
Proof.
  intros l _. induction l as [|a l IH]; intros H; [exact I|]. destruct l as [|b l]; [exact I|].
  split; [apply (H 0); reflexivity|]. apply IH. intros k x y Hx Hy. apply (H (S k)); auto.
Qed.

Theorem fuse_chains_correct (cls : vertex -> bool) (plan : list nat -> option sequence) (g : graph) : good g -> in_line g cls ->
  (forall l s, 2 <= List.length l -> run_of g cls l -> plan l = Some s ->
     s_nodes s = l /\ s_rl s = true /\ (s_rf s = true -> s_edit s = None) /\ edits g s /\ neutral run g 0 s /\ NoDup (names_of s)) ->
  (forall l1 l2 s1 s2 n, plan l1 = Some s1 -> plan l2 = Some s2 -> In n (names_of s1) -> In n (names_of s2) -> l1 = l2) ->
  exists g', fuse_chains (fun u v => cls u && cls v) plan g = Some g' /\ good g' /\ same_results run g g' /\
    ((forall v, In v (g_vs g) -> cls v = true -> inner g (v_id v)) ->
     (forall l, 2 <= List.length l -> run_of g cls l -> plan l <> None) ->
     forall u v w, cls u = true -> cls v = true -> reads_first g u v ->
       List.length (filter (fun e => e_src e =? v_id u) (g_es g)) = 1 -> In w (g_vs g') -> v_id w <> v_id v).
Proof.
  intros G RO HP HU. unfold fuse_chains. set (P := chain_edge (fun u v => cls u && cls v) g).
  assert (ids := ok_ids _ G).
  destruct (chains_of g P G) as [L [E [L2 [LP [LT [LH [LE [LI LJ]]]]]]]].
  { intros e He PE. destruct (chain_edge_spec _ _ _ PE) as [u [v [n [Hu [Hv [Iu [Iv [Cu [Cv [NI [NO O]]]]]]]]]]].
    split; [exact O|]. exists u, v. destruct (RO v Hv Cv) as [K _]. do 5 (split; [assumption|]). eauto. }
  set (es := filter P (g_es g)) in *. rewrite E. cbn [obind]. rewrite Forall_forall in L2.
  set (pl := fun c => match plan c with Some s => [s] | None => [] end).
  assert (LINK : forall l, In l L -> forall k a b, nth_error l k = Some a -> nth_error l (S k) = Some b ->
     exists u v n, In u (g_vs g) /\ In v (g_vs g) /\ v_id u = a /\ v_id v = b /\ cls u = true /\ cls v = true /\
       nth_error (v_ins v) 0 = Some n /\ In n (v_outs u) /\ only_to g a b /\ List.length (filter (fun b => e_src b =? a) (g_es g)) = 1).
  { intros l Hl k a b Ha Hb. destruct (LP l a b k Hl Ha Hb) as [e [He [Ea Eb]]]. apply filter_In in He. destruct He as [He PE].
    destruct (chain_edge_spec _ _ _ PE) as [u [v [n [Hu [Hv [Iu [Iv [Cu [Cv [NI [NO O]]]]]]]]]]].
    exists u, v, n. do 2 (split; [assumption|]). split; [congruence|]. split; [congruence|]. do 4 (split; [assumption|]).
    split; [|rewrite <- Ea; exact O].
    intros e' He' Se'. rewrite <- Eb. f_equal.
    apply (only_edge (fun b => e_src b =? e_src e) (g_es g)); auto; apply Nat.eqb_eq; congruence. }
  assert (ROF : forall l, In l L -> run_of g cls l).
  { intros l Hl. apply run_of_nth; auto. intros k a b Ha Hb.
    destruct (LINK l Hl k a b Ha Hb) as [u [v [n [Hu [Hv [Iu [Iv [Cu [Cv [NI [NO _]]]]]]]]]]]. exists u, v.
    do 4 (split; [assumption|]). destruct (RO v Hv Cv) as [K _]. split; [exact Hu|]. split; [exact Hv|]. split; [exact K|]. eauto. }
  assert (HD : forall l, In l L -> exists v, In v (g_vs g) /\ v_id v = hd 0 l /\ cls v = true).
  { intros l Hl. pose proof (L2 l Hl) as LL. destruct l as [|a [|b l]]; simpl in LL; try lia.
    destruct (LINK _ Hl 0 a b eq_refl eq_refl) as [u [v [n [Hu [_ [Iu [_ [Cu _]]]]]]]]. exists u. auto. }
  assert (SIN : forall s, In s (flat_map pl L) -> exists l, In l L /\ plan l = Some s /\ s_nodes s = l).
  { intros s Hs. apply in_flat_map in Hs. destruct Hs as [l [Hl Q]]. unfold pl in Q. destruct (plan l) as [s'|] eqn:PL; [|destruct Q].
    destruct Q as [->|[]]. exists l. split; auto. split; auto. apply (HP l s); auto. }
  assert (HT : forall l t, In l L -> In t L -> ~ In (hd 0 l) (tl t)).
  { intros l t Hl Ht F. apply (LI t Ht) in F. apply in_map_iff in F. destruct F as [e [Q He]].
    destruct (LE l e Hl He) as [N _]. congruence. }
  assert (NDN : NoDup (flat_map (fun s => s) L)).
  { apply nodes_NoDup; auto. intros s Hs ->. specialize (L2 _ Hs). simpl in L2. lia. }
  assert (CHS : forall s, In s (flat_map pl L) -> chain g 0 s /\ edits g s /\ neutral run g 0 s).
  { intros s Hs. destruct (SIN s Hs) as [l [Hl [PL SN]]].
    destruct (HP l s (L2 l Hl) (ROF l Hl) PL) as [_ [RL [RE [ED [NE _]]]]]. split; [|split; assumption].
    split; [exact RL|]. rewrite SN. pose proof (L2 l Hl) as LL. split; [destruct (s_rf s); lia|]. split; [|split; [exact RE|split]].
    + intros k a b Ha Hb. destruct (LINK l Hl k a b Ha Hb) as [u [v [n [Hu [Hv [Iu [Iv [Cu [Cv [NI [NO [OT _]]]]]]]]]]]].
      split; [|auto]. destruct (RO v Hv Cv) as [K [LO _]]. exists u, v, n. auto 10.
    + intros _. destruct (HD l Hl) as [v [Hv [Iv Cv]]]. destruct (RO v Hv Cv) as [K [LO [[n NI] _]]].
      destruct (v_outs v) as [|o [|]] eqn:OV; simpl in LO; try lia. exists v, n, o. auto.
    + intros _. destruct l as [|a [|b l]]; simpl in LL; try lia.
      destruct (LINK _ Hl 0 a b eq_refl eq_refl) as [_ [_ [_ [_ [_ [_ [_ [_ [_ [_ [_ [_ O]]]]]]]]]]]]. exact O. }
  assert (SEP : separate g 0 (flat_map pl L)).
  { assert (FM : forall {B} (f : sequence -> list B), flat_map f (flat_map pl L) = flat_map (fun l => match plan l with Some s => f s | None => [] end) L).
    { intros B f. clear. induction L as [|l L IH]; simpl; auto. rewrite flat_map_app, IH. f_equal. unfold pl.
      destruct (plan l); simpl; auto. apply app_nil_r. }
    constructor.
    + rewrite FM. apply NoDup_concat_incl with (h := fun s => s); auto. intros l Hl. destruct (plan l) as [s|] eqn:PL; [|split; [constructor|intros x []]].
      destruct (HP l s (L2 l Hl) (ROF l Hl) PL) as [SN _].
      assert (NDl : NoDup l).
      { clear - NDN Hl. induction L as [|l' L IH]; [destruct Hl|]. simpl in NDN. destruct Hl as [->|Hl].
        - clear - NDN. induction l as [|x l IH]; [constructor|]. simpl in NDN. inversion NDN as [|? ? N D]; subst.
          constructor; [intros F; apply N; apply in_or_app; auto|apply IH; exact D].
        - apply IH; auto. apply (NoDup_app_l _ _ NDN). }
      unfold gone. rewrite SN. destruct (s_rf s); split; auto; [apply incl_refl| |].
      * destruct l; [constructor|]. simpl. inversion NDl; assumption.
      * intros x Hx. destruct l; [destruct Hx|right; exact Hx].
    + intros s Hs RF F. destruct (SIN s Hs) as [l [Hl [PL SN]]]. rewrite SN in F. apply in_flat_map in F.
      destruct F as [t [Ht Hin]]. destruct (SIN t Ht) as [l' [Hl' [PL' SN']]]. unfold gone in Hin. rewrite SN' in Hin.
      destruct (s_rf t) eqn:RT; [|exact (HT l l' Hl Hl' Hin)].
      pose proof (L2 l' Hl') as LL. destruct l' as [|a l']; [simpl in LL; lia|]. destruct Hin as [Q|Hin]; [|apply (HT l (a :: l')); auto].
      assert (l = a :: l').
      { clear - LH Hl Hl' Q. induction L as [|x L IH]; [destruct Hl|]. simpl in LH. apply NoDup_cons_iff in LH. destruct LH as [N D].
        destruct Hl as [->|Hl]; destruct Hl' as [->|Hl']; auto.
        - exfalso. apply N. rewrite <- Q. apply in_map_iff. exists (a :: l'). auto.
        - exfalso. apply N. simpl. rewrite Q. apply in_map. exact Hl. }
      rewrite <- H in PL'. congruence.
    + apply FOP_all. intros s t Hs Ht RF u v n Hu Iu NI Hv Ov. destruct (SIN s Hs) as [l [Hl [PL SN]]].
      destruct (SIN t Ht) as [l' [Hl' [PL' SN']]]. rewrite SN in Iu. rewrite SN'.
      destruct (Nat.eq_dec (v_id v) (last l' 0)) as [F|F]; [|left; exact F].
      destruct (HD l Hl) as [u' [Hu' [Iu' Cu]]]. assert (u' = u) by (apply (id_inj g); auto; congruence). subst u'.
      assert (CV : cls v = true).
      { pose proof (L2 l' Hl') as LL.
        assert (exists a, nth_error l' (List.length l' - 2) = Some a) as [a Ha].
        { destruct (nth_error l' (List.length l' - 2)) eqn:Q; [eauto|]. apply nth_error_None in Q. lia. }
        assert (LE' : nth_error l' (S (List.length l' - 2)) = Some (last l' 0)).
        { rewrite <- last_error by (destruct l'; [simpl in LL; lia|discriminate]). f_equal. lia. }
        destruct (LINK l' Hl' _ a _ Ha LE') as [_ [w [_ [_ [Hw [_ [Iw [_ [Cw _]]]]]]]]].
        assert (w = v) by (apply (id_inj g); auto; congruence). congruence. }
      destruct (RO u Hu Cu) as [Ku [_ [_ [[e1 [He1 Se1]] _]]]]. destruct (RO v Hv CV) as [_ [LO [_ [_ O2]]]].
      specialize (O2 u Cu ltac:(split; [exact Hv|split; [exact Hu|split; [exact Ku|exists n; auto]]])).
      assert (O1 : 1 <=? List.length (filter (fun e => e_src e =? v_id u) (g_es g)) = true).
      { apply Nat.leb_le. apply (in_len e1). apply filter_In. split; [exact He1|]. apply Nat.eqb_eq. exact Se1. }
      destruct (ok_reads _ G u n Hu Ku) as [w [Hw [Ow [_ EW]]]]; [apply nth_error_In in NI; exact NI|].
      rewrite (ok_writer _ G w v n Hw Hv Ow Ov) in EW.
      destruct (only_or (fun e => e_src e =? v_id v) (fun e => e_dst e =? v_id u) (g_es g) (mkE (v_id v) (v_id u) n n))
        as [O3|[e [He [Se De]]]]; auto; try (cbn [e_src e_dst]; apply Nat.eqb_refl);
        [|right; exists e; apply Nat.eqb_eq in Se; apply Nat.eqb_neq in De; auto].
      exfalso.
      assert (IE : In (mkE (v_id v) (v_id u) n n) es).
      { apply filter_In. split; auto. unfold P, chain_edge. cbn [e_src e_dst]. rewrite (in_vfind g v ids Hv), (in_vfind g u ids Hu).
        rewrite CV, Cu. unfold outdegree, out_edges. rewrite O1, O3. cbn [andb Nat.eqb Nat.leb].
        destruct (v_outs v) as [|o [|]]; simpl in LO; try lia. destruct Ov as [->|[]].
        destruct (v_ins u) as [|m ms]; [discriminate|]. injection NI as ->. apply String.eqb_refl. }
      destruct (LE l' _ Hl' IE) as [_ N]. cbn [e_src] in N. congruence.
    + rewrite FM. change (NoDup (flat_map (fun l => match plan l with Some s => names_of s | None => [] end) L)).
      clear - HP HU L2 ROF NDN. assert (NL : NoDup L).
      { revert NDN L2. clear. induction L as [|l L IH]; simpl; intros ND L2; [constructor|]. constructor.
        - intros F. pose proof (L2 l (or_introl eq_refl)) as LL. destruct l as [|a l]; [simpl in LL; lia|].
          apply (EdgeProofs.NoDup_app_dis _ _ a ND); [left; reflexivity|]. apply in_flat_map. exists (a :: l). split; auto. left. reflexivity.
        - apply IH; auto. apply (NoDup_app_l _ _ ND). }
      clear NDN. induction L as [|l L IH]; simpl; [constructor|]. inversion NL as [|? ? N D]; subst.
      assert (IHH : NoDup (flat_map (fun l => match plan l with Some s => names_of s | None => [] end) L)) by (apply IH; auto; intros; [apply L2|apply ROF]; right; assumption).
      destruct (plan l) as [s|] eqn:PL; [|exact IHH].
      assert (NS : NoDup (names_of s)) by (apply (HP l s); auto; [apply L2|apply ROF]; left; reflexivity).
      assert (DIS : forall x, In x (names_of s) -> ~ In x (flat_map (fun l => match plan l with Some s => names_of s | None => [] end) L)).
      { intros x Hx F. apply in_flat_map in F. destruct F as [l' [Hl' Hin]]. destruct (plan l') as [s'|] eqn:PL'; [|destruct Hin].
        apply N. rewrite (HU l l' s s' x PL PL' Hx Hin). exact Hl'. }
      revert NS DIS. generalize (names_of s). intros ns. induction ns as [|x ns IHn]; simpl; intros NS DIS; auto.
      inversion NS as [|? ? N' D']; subst. constructor; [|apply IHn; auto].
      intros F. apply in_app_or in F. destruct F as [F|F]; [exact (N' F)|]. apply (DIS x); auto. }
  destruct (eliminate_correct run 0 g (flat_map pl L) G CHS SEP) as [g' [EQ [G' SR]]].
  exists g'. split; [exact EQ|]. split; [exact G'|]. split; [exact SR|]. intros IN PN u v w Cu Cv RF O2 Hw F.
  pose proof RF as RF'. destruct RF' as [Hu [Hv [K [n [NI NO]]]]].
  destruct (ok_reads _ G v n Hv K (nth_error_In _ _ NI)) as [u' [Hu' [Ou' [_ EW]]]].
  rewrite (ok_writer _ G u' u n Hu' Hu Ou' NO) in EW. clear u' Hu' Ou'.
  destruct (RO v Hv Cv) as [_ [_ [_ [[e1 [He1 Se1]] _]]]]. destruct (RO u Hu Cu) as [_ [LO _]].
  assert (O1 : 1 <=? List.length (filter (fun e => e_src e =? v_id v) (g_es g)) = true).
  { apply Nat.leb_le. apply (in_len e1). apply filter_In. split; [exact He1|]. apply Nat.eqb_eq. exact Se1. }
  destruct (LJ (mkE (v_id u) (v_id v) n n)) as [l [Hl Hin]].
  { apply filter_In. split; [exact EW|]. unfold P, chain_edge. cbn [e_src e_dst]. rewrite (in_vfind g v ids Hv), (in_vfind g u ids Hu).
    rewrite Cv, Cu. unfold outdegree, out_edges. rewrite O1, O2. cbn [andb Nat.eqb Nat.leb].
    destruct (v_outs u) as [|o [|]]; simpl in LO; try lia. destruct NO as [->|[]].
    destruct (v_ins v) as [|m ms]; [discriminate|]. injection NI as ->. apply String.eqb_refl. }
  cbn [e_dst] in Hin. destruct (plan l) as [s|] eqn:PL; [|exact (PN l (L2 l Hl) (ROF l Hl) PL)].
  destruct (HP l s (L2 l Hl) (ROF l Hl) PL) as [SN _].
  apply (eliminate_removes 0 g (flat_map pl L) g' G CHS SEP EQ s w); auto.
  - apply in_flat_map. exists l. split; [exact Hl|]. unfold pl. rewrite PL. left. reflexivity.
  - rewrite SN. pose proof (L2 l Hl) as LL.
    assert (exists a, nth_error l (List.length l - 2) = Some a) as [a Ha].
    { destruct (nth_error l (List.length l - 2)) eqn:Q; [eauto|]. apply nth_error_None in Q. lia. }
    assert (LE' : nth_error l (S (List.length l - 2)) = Some (last l 0)).
    { rewrite <- last_error by (destruct l; [simpl in LL; lia|discriminate]). f_equal. lia. }
    destruct (LINK l Hl _ a _ Ha LE') as [_ [w' [_ [_ [Hw' [_ [Iw [_ [Cw _]]]]]]]]]. rewrite <- Iw. apply IN; auto.
  - unfold gone. rewrite SN, F. destruct (s_rf s); [|exact Hin]. destruct l; [destruct Hin|right; exact Hin].
Qed.

(** * Transposes, gathers and reshapes *)
Section Simple.
Variables (g : graph) (cls : vertex -> bool) (act comp : X -> X -> X) (meets : X -> X -> Prop).
Hypothesis G : good g.
Hypothesis A : acting run g cls act.
Hypothesis O : in_line g cls.
Hypothesis M : forall u v p q, cls u = true -> cls v = true -> reads_first g u v ->
  constant_of g u p -> constant_of g v q -> meets p q.
Hypothesis C1 : forall p q x, meets p q -> act (act x p) q = act x (comp p q).
Hypothesis C2 : forall p q r, meets p q -> meets q r -> meets (comp p q) r.

Lemma cls_value inp V v d p o y : fits run inp V [] g -> In v (g_vs g) -> cls v = true -> v_ins v = [d; p] -> v_outs v = [o] ->
  param g (v_id v) = Some y -> exists x, V d = Some x /\ V o = Some (act x y) /\ V p = Some y.
Proof.
  intros F Hv Cv NI NO PY. destruct (A v Hv Cv) as [K [[d' [p' [u [NI' [_ [Hu [Ku [Ou _]]]]]]]] RV]].
  rewrite NI in NI'. injection NI' as <- <-.
  pose proof (F v Hv) as Q. rewrite K in Q. destruct Q as [xs [Q1 Q2]]. rewrite NI in Q1.
  destruct xs as [|x [|y' [|]]]; simpl in Q1; try discriminate. injection Q1 as Q1 Q3.
  pose proof (F u Hu) as QU. rewrite Ku in QU. specialize (QU p ltac:(rewrite Ou; left; reflexivity)).
  unfold param in PY. rewrite (in_vfind g v (ok_ids _ G) Hv) in PY. cbn [obind] in PY. rewrite NI in PY. cbn [nth_error obind] in PY.
  assert (y' = y) by congruence. subst y'. exists x. split; [exact Q1|]. split; [|exact Q3].
  rewrite (Q2 0 o) by (rewrite NO; reflexivity). unfold later. cbn [fold_left]. rewrite RV. reflexivity.
Qed.

Lemma cls_parts v : In v (g_vs g) -> cls v = true -> exists d p o y, v_ins v = [d; p] /\ d <> p /\ v_outs v = [o] /\
  param g (v_id v) = Some y /\ constant_of g v y.
Proof.
  intros Hv Cv. destruct (A v Hv Cv) as [K [[d [p [u [NI [N [Hu [Ku [Ou _]]]]]]]] _]]. destruct (O v Hv Cv) as [_ [LO _]].
  destruct (v_outs v) as [|o [|]] eqn:OV; simpl in LO; try lia.
  destruct (ok_const _ G u Hu Ku) as [n [y [On [B _]]]]. rewrite Ou in On. injection On as <-.
  exists d, p, o, y. split; [exact NI|]. split; [exact N|]. split; [reflexivity|]. split.
  - unfold param. rewrite (in_vfind g v (ok_ids _ G) Hv). cbn [obind]. rewrite NI. exact B.
  - exists p. rewrite NI. split; [reflexivity|exact B].
Qed.

(** the fused constant does what the chain does *)
Lemma fused_from inp V : fits run inp V [] g -> forall l a va x P0 P pa,
  In va (g_vs g) -> v_id va = a -> cls va = true -> run_of g cls (a :: l) -> param g a = Some pa ->
  (forall r, meets pa r -> meets P0 r) ->
  (forall o, v_outs va = [o] -> V o = Some (act x P0)) ->
  fold_opt (fun p b => obind (param g b) (fun q => Some (comp p q))) P0 l = Some P ->
  forall vl lo, In vl (g_vs g) -> v_id vl = last (a :: l) 0 -> v_outs vl = [lo] -> V lo = Some (act x P).
Proof.
  intros F. induction l as [|b l IH]; intros a va x P0 P pa Hva Ia Ca RO PA MM VO FO vl lo Hvl Il Ol.
  - injection FO as <-. simpl in Il. assert (vl = va) by (apply (id_inj g); auto; [apply (ok_ids _ G)|congruence]). subst vl.
    apply VO. exact Ol.
  - destruct RO as [[u [v [Iu [Iv [Cu [Cv RF]]]]]] RO]. pose proof RF as RF'. destruct RF' as [Hu [Hv [K [n [NI NO]]]]].
    assert (u = va) by (apply (id_inj g); auto; [apply (ok_ids _ G)|congruence]). subst u.
    destruct (cls_parts va Hva Ca) as [d [p [o [y [NIa [_ [NOa [PYa CYa]]]]]]]].
    destruct (cls_parts v Hv Cv) as [d' [p' [o' [y' [NIv [_ [NOv [PYv CYv]]]]]]]].
    assert (y = pa) by congruence. subst y.
    cbn [fold_opt] in FO. rewrite <- Iv, PYv in FO. cbn [obind] in FO.
    assert (ME : meets pa y') by (apply (M va v); auto).
    destruct (cls_value inp V v d' p' o' y' F Hv Cv NIv NOv PYv) as [x' [V1 [V2 _]]].
    assert (d' = o).
    { rewrite NIv in NI. simpl in NI. injection NI as ->. rewrite NOa in NO. destruct NO as [->|[]]. reflexivity. }
    subst d'. rewrite (VO o NOa) in V1. injection V1 as <-.
    refine (IH b v x (comp P0 y') P y' Hv Iv Cv RO _ _ _ FO vl lo Hvl Il Ol).
    + rewrite <- Iv. exact PYv.
    + intros r Hr. apply C2 with (q := y'); auto.
    + intros o1 Q. rewrite NOv in Q. injection Q as <-. rewrite V2, C1; auto.
Qed.

Lemma fused_constants : forall l P0 P, fold_opt (fun p b => obind (param g b) (fun q => Some (comp p q))) P0 l = Some P ->
  exists ps, constants g l ps /\ P = fold_left comp ps P0.
Proof.
  induction l as [|b l IH]; intros P0 P H.
  - injection H as <-. exists []. split; [constructor|reflexivity].
  - simpl in H. destruct (param g b) as [y|] eqn:PB; [|discriminate]. cbn [obind] in H.
    destruct (IH _ _ H) as [ps [CS ->]]. exists (y :: ps). split; [|reflexivity]. constructor; [|exact CS].
    unfold param in PB. destruct (vfind g b) as [v|] eqn:FV; [|discriminate]. cbn [obind] in PB.
    destruct (nth_error (v_ins v) 1) as [n|] eqn:NN; [|discriminate]. apply vfind_in in FV. destruct FV as [Hv Iv].
    exists v. split; [exact Hv|]. split; [exact Iv|]. exists n. auto.
Qed.

Lemma plan_total (same : list nat -> X -> bool) (name : list nat -> string) l : 2 <= List.length l -> run_of g cls l ->
  simple_plan comp same name g l <> None.
Proof.
  intros LN RO. unfold simple_plan. destruct l as [|a [|b l]]; simpl in LN; try lia.
  assert (MEM : forall l a b, run_of g cls (a :: b :: l) -> forall c, In c (a :: b :: l) -> exists v, In v (g_vs g) /\ v_id v = c /\ cls v = true).
  { clear. induction l as [|b' l IH]; intros a b H c Hc.
    - destruct H as [[u [v [Iu [Iv [Cu [Cv [Hu [Hv _]]]]]]]] _]. destruct Hc as [<-|[<-|[]]]; eauto.
    - destruct H as [[u [v [Iu [Iv [Cu [Cv [Hu [Hv _]]]]]]]] H]. destruct Hc as [<-|Hc]; [eauto|]. apply (IH b b' H c Hc). }
  specialize (MEM l a b RO).
  assert (TOT : forall l P0, (forall c, In c l -> exists y, param g c = Some y) ->
    fold_opt (fun p b => obind (param g b) (fun q => Some (comp p q))) P0 l <> None).
  { clear. induction l as [|c l IH]; intros P0 H; [discriminate|]. simpl. destruct (H c (or_introl eq_refl)) as [y ->].
    cbn [obind]. apply IH. intros d Hd. apply H. right. exact Hd. }
  assert (PAR : forall c, In c (a :: b :: l) -> exists y, param g c = Some y).
  { intros c Hc. destruct (MEM c Hc) as [v [Hv [Iv Cv]]]. destruct (cls_parts v Hv Cv) as [_ [_ [_ [y [_ [_ [_ [Q _]]]]]]]]. rewrite <- Iv. eauto. }
  destruct (MEM a (or_introl eq_refl)) as [v [Hv [Iv _]]]. cbn [fuse_params hd]. rewrite <- Iv, (in_vfind g v (ok_ids _ G) Hv), Iv.
  destruct (PAR a (or_introl eq_refl)) as [y ->]. cbn [obind].
  destruct (fold_opt _ _ (b :: l)) eqn:Q; [cbn [obind]; destruct (same _ _); discriminate|].
  exfalso. apply (TOT (b :: l) y); auto. intros c Hc. apply PAR. right. exact Hc.
Qed.

Theorem fuse_simple_correct (same : list nat -> X -> bool) (name : list nat -> string) :
  (forall l v n p0 ps inp x, 2 <= List.length l -> run_of g cls l -> constants g l (p0 :: ps) -> In v (g_vs g) -> v_id v = hd 0 l ->
     nth_error (v_ins v) 0 = Some n -> same l (fold_left comp ps p0) = true ->
     given g inp -> computes run g inp n x -> act x (fold_left comp ps p0) = x) ->
  (forall l, g_node g (name l) = None /\
     forall u, In u (g_vs g) -> ~ In (name l) (v_outs u) /\ ~ In (name l) (v_ins u) /\ name l <> v_name u) ->
  (forall l l', name l = name l' -> l = l') ->
  exists g', fuse_chains (fun u v => cls u && cls v) (simple_plan comp same name g) g = Some g' /\ good g' /\ same_results run g g' /\
    ((forall v, In v (g_vs g) -> cls v = true -> inner g (v_id v)) ->
     forall u v w, cls u = true -> cls v = true -> reads_first g u v ->
       List.length (filter (fun e => e_src e =? v_id u) (g_es g)) = 1 -> In w (g_vs g') -> v_id w <> v_id v).
Proof.
  intros SM FR NI.
  destruct (fuse_chains_correct cls (simple_plan comp same name g) g G O) as [g' [E1 [E2 [E3 E4]]]];
    [| |exists g'; do 3 (split; [assumption|]); intros IN; apply E4; [exact IN|exact (plan_total same name)]].
  - intros l s LN RO PL. unfold simple_plan in PL. destruct (fuse_params comp g l) as [P|] eqn:FP; [|discriminate]. cbn [obind] in PL.
    destruct (vfind g (hd 0 l)) as [v|] eqn:FV; [|discriminate]. cbn [obind] in PL. injection PL as PL.
    apply vfind_in in FV. destruct FV as [Hv Iv].
    destruct l as [|a [|b l]]; simpl in LN; try lia.
    pose proof RO as RO'. destruct RO' as [[u [w [Iu [Iw [Cu [Cw RF]]]]]] _].
    assert (u = v). { destruct RF as [Hu _]. apply (id_inj g); auto; [apply (ok_ids _ G)|]. simpl in Iv. congruence. }
    subst u. destruct (cls_parts v Hv Cu) as [d [p [o [y [NIa [Ndp [NOa [PYa CYa]]]]]]]].
    simpl in FP. rewrite <- Iu, PYa in FP. cbn [obind] in FP.
    assert (VAL : forall inp V vl lo, fits run inp V [] g -> In vl (g_vs g) -> v_id vl = last (a :: b :: l) 0 -> v_outs vl = [lo] ->
              exists x, V d = Some x /\ V p = Some y /\ V lo = Some (act x P)).
    { intros inp V vl lo F Hvl Il Ol. destruct (cls_value inp V v d p o y F Hv Cu NIa NOa PYa) as [x [V1 [V2 V3]]].
      exists x. split; [exact V1|]. split; [exact V3|]. refine (fused_from inp V F (b :: l) a v x y P y Hv Iu Cu RO _ _ _ FP vl lo Hvl Il Ol); auto.
      - rewrite <- Iu. exact PYa.
      - intros o1 Q. rewrite NOa in Q. injection Q as <-. exact V2. }
    destruct (same (a :: b :: l) P) eqn:SA; subst s; cbn [s_nodes s_rl s_rf s_edit].
    + split; [reflexivity|]. split; [reflexivity|]. split; [reflexivity|]. split; [intros ? ? ? ? ? ? Q; discriminate|].
      split; [|constructor]. intros inp vl lo GV Hvl Il Ol. cbn [s_edit s_rf s_nodes nth] in *. intros v1 n x Hv1 Iv1 NIv1 CX.
      assert (v1 = v) by (apply (id_inj g); auto; [apply (ok_ids _ G)|congruence]). subst v1.
      assert (n = d) by (rewrite NIa in NIv1; simpl in NIv1; congruence). subst n.
      destruct (good_fits run inp g G GV) as [V [F [CV _]]]. destruct (VAL inp V vl lo F Hvl Il Ol) as [x' [V1 [_ V3]]].
      assert (x' = x) by (apply (computes_fun run inp g d); auto). subst x'. apply CV. rewrite V3.
      destruct (fused_constants (b :: l) y P FP) as [ps [CS ->]].
      f_equal. apply (SM (a :: b :: l) v d y ps inp x); auto. constructor; [|exact CS]. exists v. auto.
    + split; [reflexivity|]. split; [reflexivity|]. split; [discriminate|]. split; [|split].
      * intros c e v1 i n x Q Hin Hv1 Iv1. injection Q as <- <-. destruct Hin as [Q|[]]. injection Q as <- <- <-. cbn [s_nodes hd] in Iv1.
        assert (v1 = v) by (apply (id_inj g); auto; [apply (ok_ids _ G)|congruence]). subst v1.
        destruct (FR (a :: b :: l)) as [FR1 FR2]. split; [exact FR1|]. split; [exact FR2|].
        destruct (A v Hv Cu) as [_ [[d' [p' [u [NI' [_ [Hu [Ku [Ou ED]]]]]]]] _]]. rewrite NIa in NI'. injection NI' as <- <-.
        exists p, u. rewrite NIa. split; [reflexivity|]. split; [|split; [exact Hu|split; [exact Ku|split; [rewrite Ou; left; reflexivity|exact ED]]]].
        intros [|[|j]] Q; simpl in Q; auto; [congruence|]. destruct j; discriminate.
      * intros inp vl lo GV Hvl Il Ol. cbn [s_edit s_rf s_nodes hd] in *. intros v1 xs x Hv1 Iv1 F2 CX.
        assert (v1 = v) by (apply (id_inj g); auto; [apply (ok_ids _ G)|congruence]). subst v1.
        destruct (good_fits run inp g G GV) as [V [F [CV _]]]. destruct (VAL inp V vl lo F Hvl Il Ol) as [x0 [V1 [V2 V3]]].
        rewrite NIa in F2. inversion F2 as [|? x1 ? l1 H1 F3]; subst. inversion F3 as [|? x2 ? l2 H2 F4]; subst. inversion F4; subst.
        cbn [fold_left fst snd put]. destruct (A v Hv Cu) as [_ [_ RV]]. rewrite RV.
        assert (x1 = x0) by (apply (computes_fun run inp g d); auto). subst x1.
        apply (computes_fun run inp g lo); auto.
      * simpl. constructor; [intros []|constructor].
  - intros l1 l2 s1 s2 n P1 P2 H1 H2. apply NI. unfold simple_plan in P1, P2.
    destruct (fuse_params comp g l1); [|discriminate]. destruct (fuse_params comp g l2); [|discriminate]. cbn [obind] in *.
    destruct (vfind g (hd 0 l1)); [|discriminate]. destruct (vfind g (hd 0 l2)); [|discriminate]. cbn [obind] in *.
    injection P1 as <-. injection P2 as <-. destruct (same l1 _); [destruct H1|]. destruct (same l2 _); [destruct H2|].
    simpl in H1, H2. destruct H1 as [H1|[]]. destruct H2 as [H2|[]]. congruence.
Qed.
End Simple.
End Pass.
