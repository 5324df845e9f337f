(* Proofs about inserting a node behind a node of the traced graph. *)
From Coq Require Import List Arith Bool Lia.
From Verif Require Import TraceSpec TraceModel TraceProofs.
Import ListNotations.

(* ------------------------------------------------------------------ *)
(* Lists and dictionaries *)

Lemma assoc_In : forall A (l : list (nat * A)) x v, assoc l x = Some v -> In (x, v) l.
Proof.
  induction l as [|[k a] t IH]; cbn; intros x v H; [discriminate|].
  destruct (Nat.eqb_spec k x) as [->|]; [inversion H; now left | right; auto].
Qed.

Lemma assoc_dom : forall A (l : list (nat * A)) x, In x (map fst l) -> exists v, assoc l x = Some v.
Proof.
  induction l as [|[k a] t IH]; cbn; intros x H; [contradiction|].
  destruct (Nat.eqb_spec k x) as [->|]; [eauto|]. destruct H as [H|H]; [congruence|auto].
Qed.

Lemma dict_In : forall A (l : list (nat * A)) x v, dict_get l x = Some v -> In (x, v) l.
Proof. intros A l x v H. apply assoc_In in H. now apply in_rev. Qed.

Lemma dict_dom : forall A (l : list (nat * A)) x, In x (map fst l) -> exists v, dict_get l x = Some v.
Proof. intros A l x H. apply assoc_dom. rewrite map_rev. now apply -> in_rev. Qed.

Lemma dict_none : forall A (l : list (nat * A)) x, ~ In x (map fst l) -> dict_get l x = None.
Proof.
  intros A l x H. destruct (dict_get l x) as [v|] eqn:E; [|reflexivity].
  exfalso. apply H. apply dict_In in E. apply in_map_iff. now exists (x, v).
Qed.

Lemma map_fst_combine : forall A B (l : list A) (m : list B), length l <= length m -> map fst (combine l m) = l.
Proof.
  induction l as [|a l IH]; intros m H; cbn; [reflexivity|]. destruct m as [|b m]; cbn in *; [lia|].
  now rewrite IH by lia.
Qed.

Lemma map_snd_combine : forall A B (l : list A) (m : list B), length m <= length l -> map snd (combine l m) = m.
Proof.
  intros A B l m. revert l. induction m as [|b m IH]; intros l H; cbn; [now destruct l|].
  destruct l as [|a l]; cbn in *; [lia|]. now rewrite IH by lia.
Qed.

Lemma index_of_split : forall x l i, index_of x l = Some i ->
  exists l1 l2, l = l1 ++ x :: l2 /\ length l1 = i /\ ~ In x l1.
Proof.
  induction l as [|y t IH]; cbn; intros i H; [discriminate|].
  destruct (Nat.eqb_spec y x) as [->|Hn].
  - inversion H; subst. exists [], t. auto.
  - destruct (index_of x t) as [j|] eqn:E; [|discriminate]. cbn in H. inversion H; subst.
    destruct (IH j eq_refl) as [l1 [l2 [-> [<- Hni]]]].
    exists (y :: l1), l2. repeat split; auto. intros [|]; auto.
Qed.

Lemma index_of_In : forall x l, In x l -> exists i, index_of x l = Some i.
Proof.
  induction l as [|y t IH]; intro H; [contradiction|]. cbn.
  destruct (Nat.eqb_spec y x); [eauto|]. destruct H as [|H]; [congruence|].
  destruct (IH H) as [i ->]. cbn. eauto.
Qed.

Lemma insert_at_split : forall l1 l2 (x w : nat),
  insert_at (l1 ++ x :: l2) (S (length l1)) w = l1 ++ x :: w :: l2.
Proof.
  intros. unfold insert_at.
  replace (l1 ++ x :: l2) with ((l1 ++ [x]) ++ l2) by (rewrite <- app_assoc; reflexivity).
  replace (S (length l1)) with (length (l1 ++ [x])) by (rewrite app_length; cbn; lia).
  rewrite firstn_app, firstn_all, Nat.sub_diag, skipn_app, skipn_all, Nat.sub_diag.
  cbn. now rewrite app_nil_r, <- app_assoc.
Qed.

Lemma as_tensor_all : forall ts, traverse as_tensor (map TT ts) = Some ts.
Proof. induction ts as [|t ts IH]; cbn; [reflexivity|]. now rewrite IH. Qed.

Lemma produced_TT : forall n ts, outputs_of n ts -> produced n = ts.
Proof.
  intros n ts H. unfold produced. rewrite H. clear H.
  induction ts as [|t ts IH]; cbn; [reflexivity|]. now f_equal.
Qed.

(* an update of the nodes of a list, possibly several times *)
Definition touch (f : node -> node) (l : list nat) (g : graph) : graph :=
  fold_left (fun g' y => upd g' y (f (g_node g' y))) l g.

Lemma touch_frame : forall f l g,
  g_in (touch f l g) = g_in g /\ g_fwd (touch f l g) = g_fwd g /\ g_out (touch f l g) = g_out g /\
  g_const (touch f l g) = g_const g /\ g_fresh (touch f l g) = g_fresh g /\
  g_tensor (touch f l g) = g_tensor g /\ g_shape (touch f l g) = g_shape g.
Proof.
  intros f l. induction l as [|y t IH]; intro g; cbn; [repeat split|].
  specialize (IH (upd g y (f (g_node g y)))). exact IH.
Qed.

Lemma touch_node : forall f l g z, f (f (g_node g z)) = f (g_node g z) ->
  g_node (touch f l g) z = if mem z l then f (g_node g z) else g_node g z.
Proof.
  intros f l. induction l as [|y t IH]; intros g z H; [reflexivity|].
  change (touch f (y :: t) g) with (touch f t (upd g y (f (g_node g y)))).
  cbn [mem]. destruct (Nat.eqb_spec z y) as [->|Hn].
  - rewrite IH; rewrite !upd_node, !Nat.eqb_refl; [|now rewrite H].
    cbn [orb]. destruct (mem y t); [exact H|reflexivity].
  - rewrite IH; rewrite !upd_node; destruct (Nat.eqb_spec z y); try congruence.
    reflexivity.
Qed.

(* ------------------------------------------------------------------ *)
(* Renaming *)

Definition sub (x w : nat) (r : ref) : ref :=
  if r_name r =? x then mkref false w (r_idx r) else r.

Lemma rename_fold : forall x w xc idxs names, x <> w ->
  (forall r, In r names -> r_name r = x -> r_self r = xc) ->
  fold_left (fun k i => rename (mkref xc x i) (mkref false w i) k) idxs names =
  map (fun r => if (r_name r =? x) && existsb (list_eqb (r_idx r)) idxs then mkref false w (r_idx r) else r) names.
Proof.
  intros x w xc idxs. induction idxs as [|i t IH]; intros names Hxw Hs.
  - cbn. rewrite <- (map_id names) at 1. apply map_ext. intro r. now rewrite andb_false_r.
  - cbn [fold_left]. rewrite IH; [|exact Hxw|].
    + unfold rename. rewrite map_map. apply map_ext_in. intros r Hr. cbn [existsb].
      destruct (ref_eqb r (mkref xc x i)) eqn:E.
      * apply ref_eqb_eq in E. subst r. cbn [r_name r_idx].
        rewrite Nat.eqb_refl. replace (w =? x) with false by (symmetry; apply Nat.eqb_neq; congruence).
        replace (list_eqb i i) with true by (symmetry; now apply list_eqb_eq). reflexivity.
      * destruct (Nat.eqb_spec (r_name r) x) as [Hnx|Hnx]; [|reflexivity]. cbn [andb].
        destruct (list_eqb (r_idx r) i) eqn:El; [|reflexivity].
        exfalso. apply list_eqb_eq in El. rewrite <- not_true_iff_false, ref_eqb_eq in E. apply E.
        rewrite <- (Hs _ Hr Hnx), <- Hnx, <- El. now destruct r.
    + intros r Hr Hn. unfold rename in Hr. apply in_map_iff in Hr as [r0 [E Hr0]].
      destruct (ref_eqb r0 (mkref xc x i)).
      * rewrite <- E in Hn. cbn in Hn. congruence.
      * rewrite E in Hr0. auto.
Qed.

Lemma rename_kind_fold : forall x w xc idxs c names,
  fold_left (fun k i => rename_kind (mkref xc x i) (mkref false w i) k) idxs (KFun c names) =
  KFun c (fold_left (fun k i => rename (mkref xc x i) (mkref false w i) k) idxs names).
Proof. intros x w xc idxs. induction idxs as [|i t IH]; intros; cbn; [reflexivity|]. apply IH. Qed.

Lemma rename_kind_other : forall x w xc idxs k, (forall c names, k <> KFun c names) ->
  fold_left (fun k i => rename_kind (mkref xc x i) (mkref false w i) k) idxs k = k.
Proof.
  intros x w xc idxs. induction idxs as [|i t IH]; intros k H; cbn; [reflexivity|].
  destruct k; try (rewrite IH; [reflexivity|exact H]). exfalso. eapply H. reflexivity.
Qed.

(* ------------------------------------------------------------------ *)
(* Running a list of lines *)

Section Sem.
  Variable V : Type.
  Variable pick : V -> nat -> option V.

  (* the environments before and behind the insertion *)
  Definition moved (x w : nat) (e e' : env V) : Prop :=
    (forall y, y <> x -> y <> w -> e' y = e y) /\ e' w = e x.

  Lemma moved_reads : forall x w attr e e' rs, moved x w e e' ->
    (forall r, In r rs -> r_name r <> w) ->
    (forall r, In r rs -> r_name r = x -> r_self r = false) ->
    traverse (read pick attr e') (map (sub x w) rs) = traverse (read pick attr e) rs.
  Proof.
    intros x w attr e e' rs [H1 H2]. induction rs as [|r t IH]; intros Hw Hs; cbn; [reflexivity|].
    rewrite IH; [|intros; apply Hw; now right|intros; apply Hs; [now right|assumption]].
    f_equal. unfold sub. destruct (Nat.eqb_spec (r_name r) x) as [E|E].
    - unfold read. rewrite (Hs r (or_introl eq_refl) E). cbn. rewrite H2, E. reflexivity.
    - apply read_agree. intros _. apply H1; [exact E|]. apply Hw. now left.
  Qed.

  (* the same with a constant [x]: its attribute is moved *)
  Lemma const_reads : forall x w (attr attr' : nat -> option V) e e' rs,
    (forall y, y <> x -> attr' y = attr y) -> (forall y, y <> w -> e' y = e y) -> attr x = e' w ->
    (forall r, In r rs -> r_name r <> w) ->
    (forall r, In r rs -> r_name r = x -> r_self r = true) ->
    traverse (read pick attr' e') (map (sub x w) rs) = traverse (read pick attr e) rs.
  Proof.
    intros x w attr attr' e e' rs Ha He Hx. induction rs as [|r t IH]; intros Hw Hs; cbn; [reflexivity|].
    rewrite IH; [|intros; apply Hw; now right|intros; apply Hs; [now right|assumption]].
    f_equal. unfold sub. destruct (Nat.eqb_spec (r_name r) x) as [E|E].
    - unfold read. rewrite (Hs r (or_introl eq_refl) E). cbn. now rewrite <- Hx, E.
    - unfold read. rewrite (Ha _ E), (He (r_name r)) by (apply Hw; now left). reflexivity.
  Qed.

  Variable attr : nat -> option V.
  Variable sem : nat -> list V -> option V.

  Lemma exec_app : forall a b e,
    exec pick attr sem (a ++ b) e = bind (exec pick attr sem a e) (exec pick attr sem b).
  Proof.
    induction a as [|s a IH]; intros b e; cbn; [reflexivity|].
    destruct (step pick attr sem e s); cbn; auto.
  Qed.
End Sem.

(* the lines [lines] are run in related environments with related results *)
Section Lines.
  Variable V : Type.
  Variable pick : V -> nat -> option V.
  Variables attr attr' : nat -> option V.
  Variables sem sem' : nat -> list V -> option V.
  Variable rel : env V -> env V -> Prop.
  Variable f : ref -> ref.
  Variable ok : nat -> list ref -> Prop.
  Hypothesis Hread : forall x e e' rs, ok x rs -> rel e e' ->
    traverse (read pick attr' e') (map f rs) = traverse (read pick attr e) rs.
  Hypothesis Hset : forall x e e' v, rel e e' -> (exists rs, ok x rs) -> rel (bindv e x v) (bindv e' x v).
  Hypothesis Hsem : forall x vs, (exists rs, ok x rs) -> sem' x vs = sem x vs.

  Definition related (o o' : option (env V)) : Prop :=
    match o, o' with Some e, Some e' => rel e e' | None, None => True | _, _ => False end.

  Lemma exec_lines : forall (l : list (nat * list ref)) e e', rel e e' ->
    (forall x rs, In (x, rs) l -> ok x rs) ->
    related (exec pick attr sem (map (fun p => Assign (fst p) (snd p)) l) e)
            (exec pick attr' sem' (map (fun p => Assign (fst p) (map f (snd p))) l) e').
  Proof.
    induction l as [|[x rs] t IH]; intros e e' Hr Hok; [exact Hr|].
    pose proof (Hok x rs (or_introl eq_refl)) as Hx.
    cbn [map fst snd exec step]. rewrite (Hread x e e' rs Hx Hr).
    destruct (traverse (read pick attr e) rs) as [vs|]; cbn [bind]; [|exact I].
    rewrite (Hsem x vs) by eauto. destruct (sem x vs) as [v|]; cbn [bind]; [|exact I].
    apply IH; [apply Hset; eauto|]. intros y rs' Hy. apply Hok. now right.
  Qed.
End Lines.

(* ------------------------------------------------------------------ *)
(* The graph behind insert_after *)

Lemma NoDup_insert : forall (a b c : list nat) w, NoDup (a ++ b ++ c) -> ~ In w (a ++ b ++ c) ->
  NoDup (a ++ (w :: b) ++ c).
Proof.
  intros a b c w H Hw. cbn. apply NoDup_Add with (a := w) (l := a ++ b ++ c).
  - apply Add_app.
  - auto.
Qed.

Lemma refs_eq : forall g h x,
  n_prevs (g_node h x) = n_prevs (g_node g x) -> n_previ (g_node h x) = n_previ (g_node g x) ->
  (forall p, In p (n_prevs (g_node g x)) -> is_const (n_kind (g_node h p)) = is_const (n_kind (g_node g p))) ->
  refs h x = refs g x.
Proof.
  intros g h x H1 H2 H3. unfold refs. rewrite H1, H2. apply map_ext_in. intros [p i] Hp. cbn.
  rewrite H3; [reflexivity|]. now apply in_combine_l in Hp.
Qed.

Lemma refs_In : forall g x r, In r (refs g x) ->
  exists i p idx, nth_error (n_prevs (g_node g x)) i = Some p /\ nth_error (n_previ (g_node g x)) i = Some idx /\
    r = mkref (is_const (n_kind (g_node g p))) p idx.
Proof.
  intros g x r H. unfold refs in H. apply in_map_iff in H as [[p idx] [<- H]].
  apply In_nth_error in H as [i Hi].
  exists i, p, idx. cbn. split; [|split; [|reflexivity]].
  - revert Hi. generalize (n_previ (g_node g x)) as m. generalize (n_prevs (g_node g x)) as l. clear.
    revert p idx. induction i as [|i IH]; intros p idx [|a l] [|b m] H; cbn in *; try discriminate.
    + congruence. + eauto.
  - revert Hi. generalize (n_previ (g_node g x)) as m. generalize (n_prevs (g_node g x)) as l. clear.
    revert p idx. induction i as [|i IH]; intros p idx [|a l] [|b m] H; cbn in *; try discriminate.
    + congruence. + eauto.
Qed.

Lemma nth_combine : forall A B (l : list A) (m : list B) i a b,
  nth_error l i = Some a -> nth_error m i = Some b -> nth_error (combine l m) i = Some (a, b).
Proof.
  induction l as [|x l IH]; intros m i a b H1 H2; [destruct i; discriminate|].
  destruct m as [|y m]; [destruct i; discriminate|]. destruct i; cbn in *; [congruence|eauto].
Qed.

Section After.
  Variable g : graph.
  Variable x : nat.
  Variable k : kind.
  Variable given : option nat.
  Variable ts : list nat.
  Hypothesis L : linked g.
  Hypothesis Hx : In x (g_in g) \/ In x (g_fwd g) \/ In x (g_const g).
  Hypothesis Hout : outputs_of (g_node g x) ts.
  Hypothesis Hne : ts <> [].
  Hypothesis Hgiven : match given with Some m => length ts <= m | None => True end.

  Let n := g_node g x.
  Let w := g_fresh g.
  Let xc := is_const (n_kind n).
  Let cs := clones g (length ts) given.
  Let d := combine ts cs.

  Hypothesis Hk : k = KMod \/ exists c, k = KFun c [mkref xc x []].

  Definition new_fwd : list nat :=
    if mem x (g_in g) || mem x (g_const g) then w :: g_fwd g
    else match index_of x (g_fwd g) with Some i => insert_at (g_fwd g) (S i) w | None => [] end.

  Let new := mknode k [x] (n_nexts n) (map fst d) (map (fun p => TT (snd p)) d) (map (fun _ => []) d) 0 false.
  Let g1 := mkgraph (g_node g) (g_in g) new_fwd (g_out g) (g_const g) (S w) (g_tensor g + length cs) (shapes g given ts cs).
  Let g2 := upd (upd g1 w new) x (set_nexts n [w]).
  Let h := touch (rewire_after x w xc d) (n_nexts n) g2.

  Lemma xw : x <> w.
  Proof.
    intro E. assert (x < w); [|lia]. apply (lk_fresh _ L).
    destruct Hx as [H|[H|H]]; [now left | right; left; now left | right; now right].
  Qed.

  Lemma x_not_out : ~ In x (g_out g).
  Proof.
    intro Ho. destruct Hx as [H|[H|H]].
    - pose proof (lk_in _ L x H). pose proof (lk_out _ L x Ho). congruence.
    - pose proof (rd_fwd _ (lk_rendered _ L) x H) as K. rewrite (lk_out _ L x Ho) in K. exact K.
    - pose proof (lk_const _ L x H). pose proof (lk_out _ L x Ho). congruence.
  Qed.

  Lemma insert_after_eq : insert_after g x k given = Some h.
  Proof.
    unfold insert_after. fold w.
    assert (E : (if mem x (g_in g) || mem x (g_const g) then Some (w :: g_fwd g)
        else if mem x (g_out g) then None
        else bind (index_of x (g_fwd g)) (fun i => Some (insert_at (g_fwd g) (S i) w))) = Some new_fwd).
    { unfold new_fwd. destruct (mem x (g_in g) || mem x (g_const g)) eqn:E; [reflexivity|].
      apply orb_false_iff in E as [E1 E2]. apply mem_false in E1, E2.
      destruct (mem x (g_out g)) eqn:E3; [apply mem_In in E3; now apply x_not_out in E3|].
      destruct (index_of_In x (g_fwd g)) as [i Hi]; [tauto|]. now rewrite Hi. }
    rewrite E. cbn [bind]. rewrite Hout, as_tensor_all. cbn [bind]. reflexivity.
  Qed.

  Lemma len_cs : length ts <= length cs.
  Proof. unfold cs, clones. rewrite seq_length. destruct given; [exact Hgiven|lia]. Qed.

  Lemma dom_d : map fst d = ts.
  Proof. apply map_fst_combine, len_cs. Qed.

  Lemma d_some : forall t, In t ts -> exists t', dict_get d t = Some t' /\ In t' (map snd d).
  Proof.
    intros t Ht. destruct (dict_dom _ d t) as [t' Ht']; [now rewrite dom_d|]. exists t'. split; [exact Ht'|].
    apply dict_In in Ht'. apply in_map_iff. now exists (t, t').
  Qed.

  Lemma d_none : forall t, ~ In t ts -> dict_get d t = None.
  Proof. intros t Ht. apply dict_none. now rewrite dom_d. Qed.

  Lemma snd_d : forall t, In t (map snd d) -> g_tensor g <= t < g_tensor g + length cs.
  Proof.
    intros t Ht. apply in_map_iff in Ht as [[a b] [<- Hab]]. cbn. apply in_combine_r in Hab.
    unfold cs, clones in *. apply in_seq in Hab. rewrite seq_length. lia.
  Qed.

  Lemma ts_old : forall t, In t ts -> t < g_tensor g.
  Proof. intros t Ht. apply (lk_tensor _ L x). now rewrite (produced_TT _ _ Hout). Qed.

  Lemma d_val_none : forall t t', dict_get d t = Some t' -> dict_get d t' = None.
  Proof.
    intros t t' H. apply d_none. intro K. apply ts_old in K. apply dict_In in H.
    assert (H' : In t' (map snd d)) by (apply in_map_iff; now exists (t, t')).
    apply snd_d in H'. lia.
  Qed.

  Definition moved_t (t : nat) : nat := match dict_get d t with Some t' => t' | None => t end.

  Lemma rewire_idem : forall m, rewire_after x w xc d (rewire_after x w xc d m) = rewire_after x w xc d m.
  Proof.
    intro m. pose proof xw as Hxw. unfold rewire_after. cbn [n_kind n_prevs n_nexts n_prevt n_nextt n_previ n_order n_rev].
    f_equal.
    - match goal with |- fold_left _ ?l ?k = _ => assert (El : l = []) end; [|now rewrite El].
      generalize (n_previ m) as is. generalize (n_prevt m) as l.
      induction l as [|t l IH]; intros [|i is]; cbn; try reflexivity.
      replace (dict_get d match dict_get d t with Some t' => t' | None => t end) with (@None nat).
      + apply IH.
      + symmetry. destruct (dict_get d t) as [t'|] eqn:E; [eapply d_val_none; eauto | exact E].
    - rewrite map_map. apply map_ext. intro p. destruct (Nat.eqb_spec p x) as [->|Hp].
      + destruct (Nat.eqb_spec w x); congruence.
      + destruct (Nat.eqb_spec p x); congruence.
    - rewrite map_map. apply map_ext. intro t. destruct (dict_get d t) as [t'|] eqn:E.
      + now rewrite (d_val_none _ _ E).
      + now rewrite E.
  Qed.

  Lemma w_not_next : forall p, ~ In w (n_nexts (g_node g p)).
  Proof. intros p H. apply (lk_fresh_next _ L) in H. unfold w in H. lia. Qed.

  Lemma node_w : g_node h w = new.
  Proof.
    unfold h. rewrite touch_node by apply rewire_idem.
    assert (E : mem w (n_nexts n) = false) by (apply mem_false, w_not_next). rewrite E.
    unfold g2. rewrite upd_node. destruct (Nat.eqb_spec w x) as [E2|]; [now destruct xw|].
    rewrite upd_node, Nat.eqb_refl. reflexivity.
  Qed.

  Lemma node_x_nexts : n_nexts (g_node h x) = [w].
  Proof.
    unfold h. rewrite touch_node by apply rewire_idem.
    assert (E : g_node g2 x = set_nexts n [w]) by (unfold g2; now rewrite upd_node, Nat.eqb_refl).
    rewrite E. destruct (mem x (n_nexts n)); reflexivity.
  Qed.

  (* every other node *)
  Lemma node_y : forall y, y <> w ->
    exists m, n_kind m = n_kind (g_node g y) /\ n_prevs m = n_prevs (g_node g y) /\
      n_prevt m = n_prevt (g_node g y) /\ n_nextt m = n_nextt (g_node g y) /\
      n_previ m = n_previ (g_node g y) /\ n_rev m = n_rev (g_node g y) /\
      (y <> x -> n_nexts m = n_nexts (g_node g y)) /\
      g_node h y = if mem y (n_nexts n) then rewire_after x w xc d m else m.
  Proof.
    intros y Hy. exists (g_node g2 y).
    assert (E : g_node g2 y = if y =? x then set_nexts n [w] else g_node g y).
    { unfold g2. rewrite upd_node. destruct (y =? x); [reflexivity|]. rewrite upd_node.
      destruct (Nat.eqb_spec y w); [congruence|reflexivity]. }
    assert (E2 : g_node h y = if mem y (n_nexts n) then rewire_after x w xc d (g_node g2 y) else g_node g2 y)
      by (apply touch_node, rewire_idem).
    rewrite E2, E. destruct (Nat.eqb_spec y x) as [->|Hyx]; repeat (split; [reflexivity|]); split; auto; congruence.
  Qed.

  Lemma n_isconst_fold : forall y m, n_kind m = n_kind (g_node g y) ->
    is_const (n_kind (rewire_after x w xc d m)) = is_const (n_kind (g_node g y)).
  Proof.
    intros y m Hm. unfold rewire_after. cbn [n_kind]. rewrite Hm.
    destruct (n_kind (g_node g y)) eqn:E; try (rewrite rename_kind_other; [reflexivity|discriminate]).
    rewrite rename_kind_fold. reflexivity.
  Qed.

  Lemma h_const : forall y, y <> w -> is_const (n_kind (g_node h y)) = is_const (n_kind (g_node g y)).
  Proof.
    intros y Hy. destruct (node_y y Hy) as [m [H1 [_ [_ [_ [_ [_ [_ ->]]]]]]]].
    destruct (mem y (n_nexts n)); [now apply n_isconst_fold | now rewrite H1].
  Qed.

  Lemma h_const_w : is_const (n_kind (g_node h w)) = false.
  Proof. rewrite node_w. cbn. destruct Hk as [->|[c ->]]; reflexivity. Qed.

  Lemma h_nexts : forall y, y <> w -> y <> x -> n_nexts (g_node h y) = n_nexts (g_node g y).
  Proof.
    intros y Hy Hyx. destruct (node_y y Hy) as [m [_ [_ [_ [_ [_ [_ [H ->]]]]]]]].
    destruct (mem y (n_nexts n)); cbn; auto.
  Qed.

  Lemma h_nextt : forall y, y <> w -> n_nextt (g_node h y) = n_nextt (g_node g y).
  Proof.
    intros y Hy. destruct (node_y y Hy) as [m [_ [_ [_ [H [_ [_ [_ ->]]]]]]]].
    destruct (mem y (n_nexts n)); cbn; auto.
  Qed.

  Lemma h_rev : forall y, y <> w -> n_rev (g_node h y) = n_rev (g_node g y).
  Proof.
    intros y Hy. destruct (node_y y Hy) as [m [_ [_ [_ [_ [_ [H [_ ->]]]]]]]].
    destruct (mem y (n_nexts n)); cbn; auto.
  Qed.

  Lemma h_previ : forall y, y <> w -> n_previ (g_node h y) = n_previ (g_node g y).
  Proof.
    intros y Hy. destruct (node_y y Hy) as [m [_ [_ [_ [_ [H [_ [_ ->]]]]]]]].
    destruct (mem y (n_nexts n)); cbn; auto.
  Qed.

  (* what a live node reads goes through the new one *)
  Lemma h_prevs : forall y, live g y -> y <> w ->
    n_prevs (g_node h y) = map (fun p => if p =? x then w else p) (n_prevs (g_node g y)).
  Proof.
    intros y Hl Hy. destruct (node_y y Hy) as [m [_ [H [_ [_ [_ [_ [_ ->]]]]]]]].
    destruct (mem y (n_nexts n)) eqn:E; cbn; rewrite H; [reflexivity|].
    apply mem_false in E. rewrite <- (map_id (n_prevs (g_node g y))) at 1. apply map_ext_in. intros p Hp.
    destruct (Nat.eqb_spec p x) as [->|]; [|reflexivity]. exfalso. apply E.
    apply In_nth_error in Hp as [i Hi]. now apply (lk_prev _ L y i x Hl Hi).
  Qed.

  Lemma h_prevt : forall y i t, live g y -> y <> w -> i < length (n_prevs (g_node g y)) ->
    nth_error (n_prevt (g_node g y)) i = Some t ->
    nth_error (n_prevt (g_node h y)) i =
      Some (if nth i (n_prevs (g_node g y)) 0 =? x then moved_t t else t).
  Proof.
    intros y i t Hl Hy Hi Ht. destruct (node_y y Hy) as [m [_ [_ [H [_ [_ [_ [_ ->]]]]]]]].
    assert (Hp : nth_error (n_prevs (g_node g y)) i = Some (nth i (n_prevs (g_node g y)) 0))
      by (now apply nth_error_nth').
    destruct (lk_prev _ L y i _ Hl Hp) as [_ [Hin [t0 [Ht0 Hprod]]]].
    assert (t0 = t) by congruence. subst t0.
    destruct (mem y (n_nexts n)) eqn:E; cbn [n_prevt rewire_after]; rewrite H.
    - rewrite nth_error_map, Ht. cbn [option_map]. f_equal. fold (moved_t t).
      destruct (Nat.eqb_spec (nth i (n_prevs (g_node g y)) 0) x) as [Ex|Ex]; [reflexivity|].
      unfold moved_t. rewrite d_none; [reflexivity|]. intro K. apply Ex.
      apply mem_In in E. pose proof (lk_own _ L y i x t Hl E Ht) as Ho.
      rewrite (produced_TT _ _ Hout) in Ho. specialize (Ho K Hi). congruence.
    - apply mem_false in E. rewrite Ht. f_equal.
      destruct (Nat.eqb_spec (nth i (n_prevs (g_node g y)) 0) x) as [Ex|Ex]; [|reflexivity].
      rewrite Ex in Hin. contradiction.
  Qed.

  Lemma h_refs_w : refs h w = [mkref xc x []].
  Proof.
    unfold refs. rewrite node_w. unfold new. cbn [n_prevs n_previ].
    assert (Ed : exists e t, d = e :: t).
    { unfold d. pose proof len_cs as Hc. destruct ts as [|t0 tt]; [congruence|].
      destruct cs as [|c0 cc]; cbn in *; [lia|]. eauto. }
    destruct Ed as [e [t Ed]]. rewrite Ed. cbn [combine map fst snd]. rewrite h_const by exact xw. reflexivity.
  Qed.

  Lemma map_combine_l : forall A B C (f : A -> C) (l : list A) (m : list B),
    combine (map f l) m = map (fun p => (f (fst p), snd p)) (combine l m).
  Proof. induction l as [|a l IH]; intros [|b m]; cbn; try reflexivity. now rewrite IH. Qed.

  Lemma h_refs : forall y, live g y -> y <> w -> refs h y = map (sub x w) (refs g y).
  Proof.
    intros y Hl Hy. unfold refs. rewrite (h_prevs y Hl Hy), (h_previ y Hy), map_combine_l, !map_map.
    apply map_ext_in. intros [p i] Hp. cbn. unfold sub. cbn.
    destruct (Nat.eqb_spec p x) as [->|Hpx]; [now rewrite h_const_w|].
    apply in_combine_l in Hp. rewrite h_const; [reflexivity|].
    pose proof (lk_fresh_prev _ L y p Hl Hp). unfold w. lia.
  Qed.

  Lemma h_kind : forall y, live g y -> y <> w ->
    n_kind (g_node h y) =
      match n_kind (g_node g y) with
      | KFun c names => KFun c (map (sub x w) names)
      | k' => k'
      end.
  Proof.
    intros y Hl Hy. destruct (node_y y Hy) as [m [H1 [H2 [H3 [_ [H5 [_ [_ ->]]]]]]]].
    assert (Hfun : forall c names, n_kind (g_node g y) = KFun c names -> names = refs g y).
    { intros c names E. destruct Hl as [Hf|Ho].
      - pose proof (rd_fwd _ (lk_rendered _ L) y Hf) as K. rewrite E in K. tauto.
      - rewrite (lk_out _ L y Ho) in E. discriminate. }
    destruct (mem y (n_nexts n)) eqn:E; cbn [n_kind rewire_after]; rewrite H1.
    - destruct (n_kind (g_node g y)) eqn:Ek; try (rewrite rename_kind_other; [reflexivity|discriminate]).
      rewrite rename_kind_fold. f_equal. pose proof (Hfun _ _ eq_refl) as Hn.
      rewrite rename_fold; [|exact xw|].
      + apply map_ext_in. intros r Hr. unfold sub.
        destruct (Nat.eqb_spec (r_name r) x) as [Er|]; [|reflexivity]. cbn [andb].
        match goal with |- (if ?b then _ else _) = _ => assert (Eb : b = true) end; [|now rewrite Eb].
        apply existsb_exists. rewrite Hn in Hr. apply refs_In in Hr as [i [p [idx [Hp [Hi ->]]]]].
        cbn in Er. subst p. exists idx. split; [|now apply list_eqb_eq].
        destruct (lk_prev _ L y i x Hl Hp) as [_ [_ [t [Ht Hprod]]]].
        rewrite (produced_TT _ _ Hout) in Hprod. destruct (d_some t Hprod) as [t' [Hd _]].
        apply in_flat_map. exists (t, idx). split.
        * rewrite H3, H5. eapply nth_error_In. apply nth_combine; eauto.
        * cbn. rewrite Hd. now left.
      + intros r Hr Er. rewrite Hn in Hr. apply refs_In in Hr as [i [p [idx [Hp [Hi ->]]]]].
        cbn in *. now subst p.
    - destruct (n_kind (g_node g y)) eqn:Ek; try reflexivity. f_equal.
      pose proof (Hfun _ _ eq_refl) as Hn. rewrite <- (map_id names) at 1. apply map_ext_in. intros r Hr.
      unfold sub. destruct (Nat.eqb_spec (r_name r) x) as [Er|]; [|reflexivity]. exfalso.
      rewrite Hn in Hr. apply refs_In in Hr as [i [p [idx [Hp [Hi ->]]]]]. cbn in Er. subst p.
      apply mem_false in E. apply E. now apply (lk_prev _ L y i x Hl Hp).
  Qed.

  Lemma h_idle : forall y, live g y -> y <> w -> idle (g_node h y) = idle (g_node g y).
  Proof.
    intros y Hl Hy. unfold idle. rewrite (h_kind y Hl Hy), (h_nextt y Hy).
    assert (E : (n_prevt (g_node h y) = [] <-> n_prevt (g_node g y) = [])).
    { destruct (node_y y Hy) as [m [_ [_ [H [_ [_ [_ [_ ->]]]]]]]].
      destruct (mem y (n_nexts n)); cbn; rewrite H; [|tauto].
      destruct (n_prevt (g_node g y)); cbn; split; intro; congruence. }
    destruct (n_kind (g_node g y)); try reflexivity.
    destruct (n_prevt (g_node g y)), (n_prevt (g_node h y)); try reflexivity.
    - exfalso. destruct E as [_ E]. now specialize (E eq_refl).
    - exfalso. destruct E as [E _]. now specialize (E eq_refl).
  Qed.

  Lemma fwd_split : In x (g_fwd g) -> ~ In x (g_in g) -> ~ In x (g_const g) ->
    exists l1 l2, g_fwd g = l1 ++ x :: l2 /\ new_fwd = l1 ++ x :: w :: l2.
  Proof.
    intros H H1 H2. unfold new_fwd.
    assert (E : mem x (g_in g) || mem x (g_const g) = false)
      by (apply orb_false_iff; split; now apply mem_false).
    rewrite E. destruct (index_of_In x (g_fwd g) H) as [i Hi]. rewrite Hi.
    destruct (index_of_split x (g_fwd g) i Hi) as [l1 [l2 [El [Ei _]]]].
    exists l1, l2. split; [exact El|]. rewrite El, <- Ei. apply insert_at_split.
  Qed.

  Lemma front : In x (g_in g) \/ In x (g_const g) -> new_fwd = w :: g_fwd g.
  Proof.
    intro H. unfold new_fwd. assert (E : mem x (g_in g) || mem x (g_const g) = true).
    { apply orb_true_iff. destruct H; [left|right]; now apply mem_In. }
    now rewrite E.
  Qed.

  Lemma fwd_cases : (In x (g_in g) \/ In x (g_const g)) \/
    (In x (g_fwd g) /\ ~ In x (g_in g) /\ ~ In x (g_const g)).
  Proof.
    destruct (in_dec Nat.eq_dec x (g_in g)); [tauto|]. destruct (in_dec Nat.eq_dec x (g_const g)); tauto.
  Qed.

  Lemma new_fwd_In : forall y, In y new_fwd <-> y = w \/ In y (g_fwd g).
  Proof.
    intro y. destruct fwd_cases as [H|[H1 [H2 H3]]].
    - rewrite (front H). cbn. intuition.
    - destruct (fwd_split H1 H2 H3) as [l1 [l2 [-> ->]]]. rewrite !in_app_iff. cbn. intuition.
  Qed.

  Lemma w_new : ~ In w (g_in g ++ g_fwd g ++ g_out g).
  Proof.
    intro H. rewrite !in_app_iff in H. assert (w < g_fresh g); [|unfold w in *; lia].
    apply (lk_fresh _ L). unfold live. tauto.
  Qed.

  Lemma h_frame : g_in h = g_in g /\ g_fwd h = new_fwd /\ g_out h = g_out g /\ g_const h = g_const g /\
    g_fresh h = S w /\ g_tensor h = g_tensor g + length cs.
  Proof.
    destruct (touch_frame (rewire_after x w xc d) (n_nexts n) g2) as [H1 [H2 [H3 [H4 [H5 [H6 _]]]]]].
    fold h in H1, H2, H3, H4, H5, H6. rewrite H1, H2, H3, H4, H5, H6. repeat split.
  Qed.

  Lemma live_h : forall y, live h y <-> y = w \/ live g y.
  Proof.
    intro y. destruct h_frame as [_ [H2 [H3 _]]]. unfold live. rewrite H2, H3, new_fwd_In. tauto.
  Qed.

  Lemma live_ne : forall y, live g y -> y <> w.
  Proof. intros y H ->. apply w_new. rewrite !in_app_iff. destruct H; auto. Qed.

  Lemma produced_w : produced (g_node h w) = map snd d.
  Proof.
    rewrite node_w. apply produced_TT. unfold outputs_of, new. cbn. now rewrite map_map.
  Qed.

  Lemma d_ne : exists e t, d = e :: t.
  Proof.
    unfold d. pose proof len_cs as Hc. destruct ts as [|t0 tt]; [congruence|].
    destruct cs as [|c0 cc]; cbn in *; [lia|]. eauto.
  Qed.

  Lemma linked_after : linked h.
  Proof.
    pose proof (lk_rendered _ L) as R. destruct h_frame as [F1 [F2 [F3 [F4 [F5 F6]]]]].
    constructor.
    - constructor.
      + rewrite F1, F2, F3. pose proof w_new as Hw. pose proof (rd_nodup _ R) as Hn.
        destruct fwd_cases as [H|[H1 [H2 H3]]].
        * rewrite (front H). apply NoDup_insert; assumption.
        * destruct (fwd_split H1 H2 H3) as [l1 [l2 [E ->]]]. rewrite E in Hn, Hw.
          replace (g_in g ++ (l1 ++ x :: w :: l2) ++ g_out g)
            with ((g_in g ++ l1 ++ [x]) ++ (w :: l2) ++ g_out g)
            by (rewrite <- !app_assoc; reflexivity).
          assert (Es : g_in g ++ (l1 ++ x :: l2) ++ g_out g = (g_in g ++ l1 ++ [x]) ++ l2 ++ g_out g)
            by (rewrite <- !app_assoc; reflexivity).
          rewrite Es in Hn, Hw. apply NoDup_insert; assumption.
      + intros y Hy. apply live_h in Hy as [->|Hy].
        * rewrite node_w. destruct d_ne as [e [t Ed]]. unfold new. cbn. rewrite Ed. cbn. lia.
        * pose proof (live_ne y Hy) as Hw. rewrite (h_prevs y Hy Hw), (h_previ y Hw), map_length.
          now apply (rd_align _ R).
      + intros y Hy. rewrite F2 in Hy. apply new_fwd_In in Hy as [->|Hy].
        * rewrite h_refs_w, node_w. cbn. destruct Hk as [->|[c ->]]; [exact I|]. split; [reflexivity|discriminate].
        * assert (Hl : live g y) by (now left). pose proof (live_ne y Hl) as Hw.
          rewrite (h_kind y Hl Hw), (h_refs y Hl Hw). pose proof (rd_fwd _ R y Hy) as Hk'.
          destruct (n_kind (g_node g y)); try exact Hk'. destruct Hk' as [-> Hc]. split; [reflexivity|].
          intros C E. apply (Hc C). now destruct (refs g y).
      + intros y Hy. rewrite F3 in Hy. assert (Hl : live g y) by (now right).
        rewrite (h_prevs y Hl (live_ne y Hl)). intro E. apply (rd_out _ R y Hy).
        now destruct (n_prevs (g_node g y)).
    - intros y Hy. rewrite F1 in Hy. pose proof (lk_in _ L y Hy) as Hi.
      assert (Hw : y <> w) by (intros ->; apply w_new; rewrite in_app_iff; auto).
      destruct (node_y y Hw) as [m [H1 [_ [_ [_ [_ [_ [_ ->]]]]]]]].
      destruct (mem y (n_nexts n)); [|congruence]. unfold rewire_after. cbn [n_kind].
      rewrite H1, Hi. apply rename_kind_other. discriminate.
    - intros y Hy. rewrite F3 in Hy. assert (Hl : live g y) by (now right).
      rewrite (h_kind y Hl (live_ne y Hl)). now rewrite (lk_out _ L y Hy).
    - intros y Hy. rewrite F4 in Hy. pose proof (lk_const _ L y Hy) as Hc.
      assert (Hw : y <> w).
      { intros ->. assert (w < g_fresh g) by (apply (lk_fresh _ L); auto). unfold w in *; lia. }
      destruct (node_y y Hw) as [m [H1 [_ [_ [_ [_ [_ [_ ->]]]]]]]].
      destruct (mem y (n_nexts n)); [|congruence]. unfold rewire_after. cbn [n_kind].
      rewrite H1, Hc. apply rename_kind_other. discriminate.
    - intros y i p Hy Hp. apply live_h in Hy as [->|Hy].
      + rewrite node_w in *. unfold new in Hp. cbn [n_prevs] in Hp.
        destruct i as [|i]; [|destruct i; discriminate]. cbn in Hp. assert (p = x) by congruence. subst p.
        split; [|split].
        * unfold defined. rewrite F1, F2, new_fwd_In, h_const by exact xw.
          destruct Hx as [H|[H|H]]; [tauto|tauto|]. right; right. now rewrite (lk_const _ L x H).
        * rewrite node_x_nexts. now left.
        * assert (Et : exists t0, nth_error ts 0 = Some t0) by (destruct ts; [congruence|cbn; eauto]).
          destruct Et as [t0 Et]. exists t0. split.
          -- unfold new. cbn [n_prevt]. rewrite dom_d. exact Et.
          -- unfold produced. rewrite h_nextt by exact xw. fold (produced (g_node g x)).
             rewrite (produced_TT _ _ Hout). now apply nth_error_In in Et.
      + pose proof (live_ne y Hy) as Hw. rewrite (h_prevs y Hy Hw), nth_error_map in Hp.
        destruct (nth_error (n_prevs (g_node g y)) i) as [p0|] eqn:Hp0; [|discriminate].
        cbn in Hp. destruct (lk_prev _ L y i p0 Hy Hp0) as [Hd [Hnx [t [Ht Hpr]]]].
        assert (Hi : i < length (n_prevs (g_node g y))) by (apply nth_error_Some; congruence).
        pose proof (h_prevt y i t Hy Hw Hi Ht) as Ht'.
        rewrite (nth_error_nth _ _ 0 Hp0) in Ht'.
        destruct (Nat.eqb_spec p0 x) as [->|Hpx].
        * assert (p = w) by congruence. subst p. split; [|split].
          -- unfold defined. rewrite F2, new_fwd_In. tauto.
          -- rewrite node_w. unfold new. exact Hnx.
          -- eexists. split; [exact Ht'|]. rewrite produced_w.
             rewrite (produced_TT _ _ Hout) in Hpr. destruct (d_some t Hpr) as [t' [Hd' Hi']].
             unfold moved_t. now rewrite Hd'.
        * assert (p = p0) by congruence. subst p.
          assert (Hpw : p0 <> w).
          { apply nth_error_In in Hp0. pose proof (lk_fresh_prev _ L y p0 Hy Hp0). unfold w. lia. }
          split; [|split].
          -- unfold defined in *. rewrite F1, F2, new_fwd_In, h_const by exact Hpw. tauto.
          -- now rewrite h_nexts.
          -- exists t. split; [exact Ht'|]. unfold produced. now rewrite h_nextt.
    - intros y i p t Hy Hnx Ht Hpr Hi. apply live_h in Hy as [->|Hy].
      + rewrite node_w in *. unfold new in *. cbn [n_prevs n_prevt] in *. cbn in Hi.
        assert (i = 0) by lia. subst i. cbn.
        destruct (Nat.eq_dec p w) as [->|Hpw].
        { rewrite node_w in Hnx. unfold new in Hnx. cbn in Hnx. now apply w_not_next in Hnx. }
        destruct (Nat.eq_dec p x) as [->|Hpx]; [reflexivity|].
        rewrite h_nexts in Hnx by assumption. now apply w_not_next in Hnx.
      + pose proof (live_ne y Hy) as Hw. rewrite (h_prevs y Hy Hw) in *. rewrite map_length in Hi.
        assert (Hp0 : nth_error (n_prevs (g_node g y)) i = Some (nth i (n_prevs (g_node g y)) 0))
          by (now apply nth_error_nth').
        rewrite nth_error_map, Hp0. cbn [option_map].
        set (p0 := nth i (n_prevs (g_node g y)) 0) in *.
        destruct (lk_prev _ L y i p0 Hy Hp0) as [Hd0 [Hnx0 [t0 [Ht0 Hpr0]]]].
        pose proof (h_prevt y i t0 Hy Hw Hi Ht0) as Ht'. fold p0 in Ht'.
        destruct (Nat.eq_dec p w) as [->|Hpw].
        { rewrite produced_w in Hpr. apply snd_d in Hpr. pose proof (lk_tensor _ L p0 t0 Hpr0).
          destruct (Nat.eqb_spec p0 x); [reflexivity|]. exfalso. assert (t = t0) by congruence. lia. }
        destruct (Nat.eq_dec p x) as [->|Hpx].
        { exfalso. rewrite node_x_nexts in Hnx. destruct Hnx as [<-|[]]. now apply Hw. }
        rewrite h_nexts in Hnx by assumption. unfold produced in Hpr. rewrite h_nextt in Hpr by assumption.
        fold (produced (g_node g p)) in Hpr. pose proof (lk_tensor _ L p t Hpr) as Hlt.
        destruct (Nat.eqb_spec p0 x) as [Ep|Ep].
        * exfalso. rewrite Ep in Hpr0. rewrite (produced_TT _ _ Hout) in Hpr0.
          destruct (d_some t0 Hpr0) as [t' [Hd' Hi']]. unfold moved_t in Ht'. rewrite Hd' in Ht'.
          apply snd_d in Hi'. assert (t = t') by congruence. lia.
        * assert (t = t0) by congruence. subst t0.
          pose proof (lk_own _ L y i p t Hy Hnx Ht0 Hpr Hi). congruence.
    - intros y Hy. rewrite F1, F4, F5 in *. unfold live in Hy. rewrite F2, F3, new_fwd_In in Hy.
      assert (y = w \/ y < w); [|lia]. destruct Hy as [Hy|[[[Hy|Hy]|Hy]|Hy]]; auto; right; apply (lk_fresh _ L); unfold live; tauto.
    - intros y p Hy Hp. rewrite F5. apply live_h in Hy as [->|Hy].
      + rewrite node_w in Hp. unfold new in Hp. cbn in Hp. destruct Hp as [<-|[]].
        assert (x < w); [|lia]. apply (lk_fresh _ L). unfold live. tauto.
      + rewrite (h_prevs y Hy (live_ne y Hy)) in Hp. apply in_map_iff in Hp as [p0 [<- Hp]].
        destruct (p0 =? x); [lia|]. pose proof (lk_fresh_prev _ L y p0 Hy Hp). unfold w. lia.
    - intros y p Hy. rewrite F5. destruct (Nat.eq_dec p w) as [->|Hpw].
      { rewrite node_w in Hy. unfold new in Hy. cbn in Hy. apply (lk_fresh_next _ L) in Hy. unfold w; lia. }
      destruct (Nat.eq_dec p x) as [->|Hpx].
      { rewrite node_x_nexts in Hy. destruct Hy as [<-|[]]. lia. }
      rewrite h_nexts in Hy by assumption. apply (lk_fresh_next _ L) in Hy. unfold w; lia.
    - intros y t Ht. rewrite F6. destruct (Nat.eq_dec y w) as [->|Hyw].
      { rewrite produced_w in Ht. apply snd_d in Ht. lia. }
      unfold produced in Ht. rewrite h_nextt in Ht by assumption. apply (lk_tensor _ L) in Ht. lia.
  Qed.

  Lemma x_busy : idle (g_node g x) = false.
  Proof.
    unfold idle. rewrite Hout. destruct (n_kind (g_node g x)), (n_prevt (g_node g x)); try reflexivity.
    destruct ts; [congruence|reflexivity].
  Qed.

  Lemma w_busy : idle (g_node h w) = false.
  Proof.
    rewrite node_w. unfold idle, new. cbn [n_kind n_prevt n_nextt]. destruct d_ne as [e [t Ed]]. rewrite Ed.
    cbn. destruct k; reflexivity.
  Qed.

  Lemma filter_old : forall l, (forall y, In y l -> In y (g_fwd g)) ->
    filter (fun y => negb (idle (g_node h y))) l = filter (fun y => negb (idle (g_node g y))) l.
  Proof.
    intros l Hl. apply filter_ext_in. intros y Hy. assert (L' : live g y) by (left; auto).
    now rewrite (h_idle y L' (live_ne y L')).
  Qed.

  Lemma lines_old : forall l, (forall y, In y l -> In y (g_fwd g)) ->
    map (fun y => Assign y (refs h y)) l =
    map (fun p => Assign (fst p) (map (sub x w) (snd p))) (map (fun y => (y, refs g y)) l).
  Proof.
    intros l Hl. rewrite map_map. apply map_ext_in. intros y Hy. cbn. assert (L' : live g y) by (left; auto).
    now rewrite (h_refs y L' (live_ne y L')).
  Qed.

  Lemma ret_old :
    p_ret (plain h) = map (map (sub x w)) (p_ret (plain g)).
  Proof.
    unfold plain. cbn [p_ret]. destruct h_frame as [_ [_ [F3 _]]]. rewrite F3, map_map. apply map_ext_in.
    intros y Hy. assert (L' : live g y) by (now right). pose proof (live_ne y L') as Hw.
    rewrite (h_rev y Hw), (h_refs y L' Hw). destruct (n_rev (g_node g y)); [reflexivity|].
    now destruct (refs g y).
  Qed.

  Lemma refs_fresh : forall y r, live g y -> In r (refs g y) -> r_name r <> w.
  Proof.
    intros y r Hl Hr. apply refs_In in Hr as [i [p [idx [Hp [_ ->]]]]]. cbn.
    apply nth_error_In in Hp. pose proof (lk_fresh_prev _ L y p Hl Hp). unfold w. lia.
  Qed.

  Lemma refs_self : forall y r, In r (refs g y) -> r_name r = x -> r_self r = xc.
  Proof. intros y r Hr E. apply refs_In in Hr as [i [p [idx [Hp [_ ->]]]]]. cbn in *. now subst p. Qed.

  Lemma ret_refs : forall rs r, In rs (p_ret (plain g)) -> In r rs -> exists y, live g y /\ In r (refs g y).
  Proof.
    intros rs r Hrs Hr. unfold plain in Hrs. cbn [p_ret] in Hrs. apply in_map_iff in Hrs as [y [<- Hy]].
    exists y. split; [now right|]. destruct (n_rev (g_node g y)); [exact Hr|].
    destruct (refs g y); cbn in *; [contradiction|]. destruct Hr as [->|[]]; now left.
  Qed.

  Lemma fwd_ne : forall l1 l2 y, g_fwd g = l1 ++ x :: l2 -> In y l1 \/ In y l2 -> y <> x.
  Proof.
    intros l1 l2 y E Hy ->. pose proof (rd_nodup _ (lk_rendered _ L)) as Hn.
    rewrite E in Hn.
    assert (Hn2 : NoDup (l1 ++ x :: l2)).
    { revert Hn. clear. intro Hn. induction (g_in g) as [|a t IH]; cbn in Hn.
      - induction (g_out g) as [|b t IH] using rev_ind; [now rewrite app_nil_r in Hn|].
        rewrite app_assoc in Hn. apply NoDup_remove_1 in Hn. rewrite app_nil_r in Hn. auto.
      - inversion Hn; auto. }
    apply NoDup_remove_2 in Hn2. apply Hn2. apply in_or_app. exact Hy.
  Qed.

  Section AfterSem.
    Variable V : Type.
    Variable pick : V -> nat -> option V.
    Variable attr : nat -> option V.
    Variable sem : nat -> list V -> option V.
    Variable f : V -> option V.

    Let sem_h := with_sem sem w (call1 f).
    Let sem_g := with_sem sem x (then_f f (sem x)).

    Definition ok_line (b : bool) (y : nat) (rs : list ref) : Prop :=
      y <> x /\ y <> w /\ (forall r, In r rs -> r_name r <> w) /\
      (forall r, In r rs -> r_name r = x -> r_self r = b).

    Lemma moved_set : forall y e e' v, moved V x w e e' -> y <> x -> y <> w ->
      moved V x w (bindv e y v) (bindv e' y v).
    Proof.
      intros y e e' v [H1 H2] Hy1 Hy2. unfold bindv. split.
      - intros z Hz1 Hz2. destruct (z =? y); auto.
      - destruct (Nat.eqb_spec w y); [congruence|]. destruct (Nat.eqb_spec x y); [congruence|exact H2].
    Qed.

    Lemma exec_moved : forall sm sm' l e e',
      (forall y vs, y <> x -> y <> w -> sm' y vs = sm y vs) -> xc = false ->
      moved V x w e e' -> (forall y, In y l -> In y (g_fwd g) /\ y <> x) ->
      related V (moved V x w)
        (exec pick attr sm (map (fun y => Assign y (refs g y)) l) e)
        (exec pick attr sm' (map (fun y => Assign y (refs h y)) l) e').
    Proof.
      intros sm sm' l e e' Hsm Hxc Hm Hl. rewrite lines_old by (intros; now apply Hl).
      replace (map (fun y => Assign y (refs g y)) l)
        with (map (fun p => Assign (fst p) (snd p)) (map (fun y => (y, refs g y)) l))
        by (rewrite map_map; reflexivity).
      apply exec_lines with (ok := ok_line false).
      - intros y a a' rs [_ [_ [H3 H4]]] Hr. now apply moved_reads.
      - intros y a a' v Hr [rs [H1 [H2 _]]]. now apply moved_set.
      - intros y vs [rs [H1 [H2 _]]]. now apply Hsm.
      - exact Hm.
      - intros y rs Hin. apply in_map_iff in Hin as [z [Ez Hz]]. inversion Ez; subst z rs. clear Ez.
        destruct (Hl y Hz) as [Hf Hne']. assert (L' : live g y) by (now left).
        repeat split; [exact Hne' | now apply live_ne | intros r Hr; eapply refs_fresh; eauto |].
        intros r Hr E. rewrite <- Hxc. eapply refs_self; eauto.
    Qed.

    Lemma ret_moved : forall e e', moved V x w e e' -> xc = false ->
      traverse (traverse (read pick attr e')) (p_ret (plain h)) =
      traverse (traverse (read pick attr e)) (p_ret (plain g)).
    Proof.
      intros e e' Hm Hxc. rewrite ret_old.
      assert (Hall : forall rs, In rs (p_ret (plain g)) ->
                traverse (read pick attr e') (map (sub x w) rs) = traverse (read pick attr e) rs).
      { intros rs Hrs. apply moved_reads; [exact Hm| |].
        - intros r Hr. destruct (ret_refs rs r Hrs Hr) as [y [Hl Hy]]. eapply refs_fresh; eauto.
        - intros r Hr E. destruct (ret_refs rs r Hrs Hr) as [y [Hl Hy]]. rewrite <- Hxc. eapply refs_self; eauto. }
      revert Hall. generalize (p_ret (plain g)). induction l as [|rs t IH]; intro H; cbn; [reflexivity|].
      rewrite (H rs) by (now left). rewrite IH; [reflexivity|]. intros; apply H; now right.
    Qed.

    Lemma params_None : forall xs (vs : list V) e y, params xs vs = Some e -> ~ In y xs -> e y = None.
    Proof.
      induction xs as [|a xs IH]; intros [|v vs] e y H Hy; cbn in H; try discriminate.
      - inversion H; reflexivity.
      - destruct (params xs vs) as [e0|] eqn:E; [|discriminate]. cbn in H. inversion H; subst.
        unfold bindv. destruct (Nat.eqb_spec y a); [exfalso; apply Hy; now left|].
        eapply IH; eauto. intro; apply Hy; now right.
    Qed.

    Lemma w_not_in : ~ In w (g_in g).
    Proof. intro H. apply w_new. rewrite in_app_iff. auto. Qed.

    Theorem run_after_fwd : forall vs, In x (g_fwd g) ->
      run pick attr sem_h (plain h) vs = run pick attr sem_g (plain g) vs.
    Proof.
      intros vs Hf. pose proof (rd_fwd _ (lk_rendered _ L) x Hf) as Hkx.
      assert (Hxc : xc = false) by (unfold xc, n; destruct (n_kind (g_node g x)); try reflexivity; contradiction).
      assert (Hni : ~ In x (g_in g)) by (intro K; rewrite (lk_in _ L x K) in Hkx; exact Hkx).
      assert (Hnc : ~ In x (g_const g)) by (intro K; rewrite (lk_const _ L x K) in Hkx; exact Hkx).
      destruct (fwd_split Hf Hni Hnc) as [l1 [l2 [El El']]].
      destruct h_frame as [F1 [F2 _]].
      unfold run. replace (p_params (plain h)) with (g_in g) by (symmetry; exact F1).
      cbn [plain p_params p_body]. destruct (params (g_in g) vs) as [e|] eqn:Ep; cbn [bind]; [|reflexivity].
      change (map (fun x0 => if n_rev (g_node g x0) then refs g x0 else firstn 1 (refs g x0)) (g_out g))
        with (p_ret (plain g)).
      rewrite F2, El', El. rewrite !filter_app. cbn [filter].
      rewrite x_busy, w_busy. rewrite h_idle, x_busy; [|now left|exact xw]. cbn [negb].
      rewrite (filter_old l1) by (intros y Hy; rewrite El; apply in_or_app; now left).
      rewrite (filter_old l2) by (intros y Hy; rewrite El; apply in_or_app; right; now right).
      rewrite !map_app. cbn [map]. rewrite !exec_app.
      assert (Hsm : forall y vs, y <> x -> y <> w -> sem_h y vs = sem_g y vs).
      { intros y us H1 H2. unfold sem_h, sem_g, with_sem.
        destruct (Nat.eqb_spec y w); [congruence|]. destruct (Nat.eqb_spec y x); [congruence|]. reflexivity. }
      assert (Hm0 : moved V x w e e).
      { split; [auto|]. rewrite (params_None _ _ _ w Ep w_not_in). now rewrite (params_None _ _ _ x Ep Hni). }
      pose proof (exec_moved sem_g sem_h (filter (fun y => negb (idle (g_node g y))) l1) e e Hsm Hxc Hm0) as H1.
      destruct (exec pick attr sem_g (map (fun y => Assign y (refs g y)) (filter (fun y => negb (idle (g_node g y))) l1)) e) as [a|] eqn:E1;
      destruct (exec pick attr sem_h (map (fun y => Assign y (refs h y)) (filter (fun y => negb (idle (g_node g y))) l1)) e) as [a'|] eqn:E2;
        cbn [bind];
        (assert (H1' := H1 ltac:(intros y Hy; apply filter_In in Hy as [Hy _]; split;
            [rewrite El; apply in_or_app; now left | eapply fwd_ne; eauto])));
        try (exact (match H1' with end)); [|reflexivity].
      cbn [related] in H1'. clear H1.
      cbn [exec step]. assert (Lx : live g x) by (now left). rewrite (h_refs x Lx xw).
      rewrite (moved_reads V pick x w attr a a' (refs g x) H1').
      2: { intros r Hr. eapply refs_fresh; eauto. }
      2: { intros r Hr E. rewrite <- Hxc. eapply refs_self; eauto. }
      destruct (traverse (read pick attr a) (refs g x)) as [us|]; cbn [bind]; [|reflexivity].
      replace (sem_h x us) with (sem x us)
        by (unfold sem_h, with_sem; destruct (Nat.eqb_spec x w) as [K|]; [now destruct xw|reflexivity]).
      replace (sem_g x us) with (bind (sem x us) f)
        by (unfold sem_g, with_sem; rewrite Nat.eqb_refl; reflexivity).
      destruct (sem x us) as [v|]; cbn [bind]; [|reflexivity].
      rewrite h_refs_w, Hxc. cbn [traverse]. unfold read at 1. cbn [r_self r_name r_idx picks].
      unfold bindv at 1. rewrite Nat.eqb_refl. cbn [bind].
      replace (sem_h w [v]) with (f v)
        by (unfold sem_h, with_sem; rewrite Nat.eqb_refl; reflexivity).
      destruct (f v) as [u|] eqn:Ef; cbn [bind]; [|reflexivity].
      assert (Hm2 : moved V x w (bindv a x (Some u)) (bindv (bindv a' x (Some v)) w (Some u))).
      { destruct H1' as [M1 M2]. split.
        - intros y Hy1 Hy2. unfold bindv. destruct (Nat.eqb_spec y w); [congruence|].
          destruct (Nat.eqb_spec y x); [congruence|]. auto.
        - unfold bindv. now rewrite !Nat.eqb_refl. }
      pose proof (exec_moved sem_g sem_h (filter (fun y => negb (idle (g_node g y))) l2) _ _ Hsm Hxc Hm2) as H2.
      assert (H2' := H2 ltac:(intros y Hy; apply filter_In in Hy as [Hy _]; split;
            [rewrite El; apply in_or_app; right; now right | eapply fwd_ne; eauto])).
      destruct (exec pick attr sem_g (map (fun y => Assign y (refs g y)) (filter (fun y => negb (idle (g_node g y))) l2)) (bindv a x (Some u))) as [b|];
      destruct (exec pick attr sem_h (map (fun y => Assign y (refs h y)) (filter (fun y => negb (idle (g_node g y))) l2)) (bindv (bindv a' x (Some v)) w (Some u))) as [b'|];
        try (exact (match H2' with end)); [|reflexivity].
      cbn [related] in H2'. cbn [bind]. now apply ret_moved.
    Qed.

    Lemma params_through : forall xs (vs : list V) i, NoDup xs -> nth_error xs i = Some x ->
      match params xs vs with
      | Some e => exists v, e x = Some v /\
          match f v with
          | Some u => exists vs' e', nth_through f i vs = Some vs' /\ params xs vs' = Some e' /\
              e' x = Some u /\ forall y, y <> x -> e' y = e y
          | None => nth_through f i vs = None
          end
      | None => bind (nth_through f i vs) (fun vs' => params xs vs') = None
      end.
    Proof.
      induction xs as [|a xs IH]; intros vs i Hn Hi; [destruct i; discriminate|].
      inversion Hn as [|? ? Ha Hn']; subst.
      destruct vs as [|v vs]; cbn [params].
      - destruct i; reflexivity.
      - destruct i as [|i]; cbn in Hi.
        + assert (a = x) by congruence. subst a. destruct (params xs vs) as [e|] eqn:E; cbn [bind].
          * exists v. unfold bindv at 1. rewrite Nat.eqb_refl. split; [reflexivity|].
            cbn [nth_through]. destruct (f v) as [u|] eqn:Ef; cbn [bind]; [|reflexivity].
            exists (u :: vs), (bindv e x (Some u)). split; [reflexivity|]. cbn [params]. rewrite E. cbn [bind].
            split; [reflexivity|]. unfold bindv. rewrite Nat.eqb_refl. split; [reflexivity|].
            intros y Hy. destruct (Nat.eqb_spec y x); congruence.
          * cbn [nth_through]. destruct (f v); cbn [bind params]; [|reflexivity]. now rewrite E.
        + specialize (IH vs i Hn' Hi). assert (Hax : a <> x) by (intros ->; apply Ha; eapply nth_error_In; eauto).
          destruct (params xs vs) as [e|] eqn:E; cbn [bind].
          * destruct IH as [v0 [H1 H2]]. exists v0. split.
            { unfold bindv. destruct (Nat.eqb_spec x a); [congruence|exact H1]. }
            destruct (f v0) as [u|].
            -- destruct H2 as [vs' [e' [K1 [K2 [K3 K4]]]]]. exists (v :: vs'), (bindv e' a (Some v)).
               cbn [nth_through]. rewrite K1. cbn [bind params]. rewrite K2. cbn [bind].
               split; [reflexivity|]. split; [reflexivity|]. unfold bindv. split.
               { destruct (Nat.eqb_spec x a); [congruence|exact K3]. }
               intros y Hy. destruct (y =? a); auto.
            -- cbn [nth_through]. now rewrite H2.
          * cbn [nth_through]. destruct (nth_through f i vs) as [vs'|]; cbn [bind] in *; [|reflexivity].
            cbn [params]. now rewrite IH.
    Qed.

    Lemma NoDup_in : NoDup (g_in g).
    Proof.
      pose proof (rd_nodup _ (lk_rendered _ L)) as Hn. revert Hn.
      generalize (g_fwd g ++ g_out g). intro m. induction m as [|b t IH] using rev_ind; intro Hn; [now rewrite app_nil_r in Hn|].
      apply IH. rewrite app_assoc in Hn. apply NoDup_remove_1 in Hn. now rewrite app_nil_r in Hn.
    Qed.

    Theorem run_after_in : forall vs i, nth_error (g_in g) i = Some x ->
      run pick attr sem_h (plain h) vs = bind (nth_through f i vs) (run pick attr sem (plain g)).
    Proof.
      intros vs i Hi. assert (Hin : In x (g_in g)) by (eapply nth_error_In; eauto).
      assert (Hxc : xc = false) by (unfold xc, n; now rewrite (lk_in _ L x Hin)).
      assert (Hnf : ~ In x (g_fwd g)).
      { intro K. pose proof (rd_fwd _ (lk_rendered _ L) x K) as K2. rewrite (lk_in _ L x Hin) in K2. exact K2. }
      destruct h_frame as [F1 [F2 _]].
      pose proof (params_through (g_in g) vs i NoDup_in Hi) as HP.
      assert (Hbody : forall e, exec pick attr sem_h (p_body (plain h)) e =
         bind (step pick attr sem_h e (Assign w [mkref false x []]))
           (exec pick attr sem_h (map (fun y => Assign y (refs h y)) (filter (fun y => negb (idle (g_node g y))) (g_fwd g))))).
      { intro e. unfold plain. cbn [p_body]. rewrite F2, front by (now left). cbn [filter]. rewrite w_busy. cbn [negb].
        rewrite (filter_old (g_fwd g)) by auto. cbn [map exec]. now rewrite h_refs_w, Hxc. }
      unfold run at 1. replace (p_params (plain h)) with (g_in g) by (symmetry; exact F1).
      destruct (params (g_in g) vs) as [e|] eqn:Ep; cbn [bind].
      - rewrite Hbody. destruct HP as [v [Hv HP]].
        cbn [step traverse]. unfold read at 1. cbn [r_self r_name r_idx]. rewrite Hv. cbn [bind picks].
        replace (sem_h w [v]) with (f v) by (unfold sem_h, with_sem; rewrite Nat.eqb_refl; reflexivity).
        destruct (f v) as [u|]; cbn [bind].
        + destruct HP as [vs' [e' [K1 [K2 [K3 K4]]]]]. rewrite K1. cbn [bind]. unfold run.
          cbn [plain p_params p_body]. rewrite K2. cbn [bind].
          change (map (fun x0 => if n_rev (g_node g x0) then refs g x0 else firstn 1 (refs g x0)) (g_out g))
            with (p_ret (plain g)).
          assert (Hm : moved V x w e' (bindv e w (Some u))).
          { split.
            - intros y H1 H2. unfold bindv. destruct (Nat.eqb_spec y w); [congruence|]. symmetry. now apply K4.
            - unfold bindv. rewrite Nat.eqb_refl. now rewrite K3. }
          assert (Hsm : forall y us, y <> x -> y <> w -> sem_h y us = sem y us).
          { intros y us H1 H2. unfold sem_h, with_sem. destruct (Nat.eqb_spec y w); [congruence|]. reflexivity. }
          pose proof (exec_moved sem sem_h (filter (fun y => negb (idle (g_node g y))) (g_fwd g)) _ _ Hsm Hxc Hm) as H2.
          assert (H2' := H2 ltac:(intros y Hy; apply filter_In in Hy as [Hy _]; split;
             [exact Hy | intros ->; exact (Hnf Hy)])).
          destruct (exec pick attr sem (map (fun y => Assign y (refs g y)) (filter (fun y => negb (idle (g_node g y))) (g_fwd g))) e') as [b|];
          destruct (exec pick attr sem_h (map (fun y => Assign y (refs h y)) (filter (fun y => negb (idle (g_node g y))) (g_fwd g))) (bindv e w (Some u))) as [b'|];
            try (exact (match H2' with end)); [|reflexivity].
          cbn [related] in H2'. cbn [bind]. now apply ret_moved.
        + rewrite HP. reflexivity.
      - destruct (nth_through f i vs) as [vs'|]; cbn [bind] in *; [|reflexivity].
        unfold run. cbn [plain p_params]. rewrite HP. reflexivity.
    Qed.

    Theorem run_after_const : forall vs, In x (g_const g) ->
      run pick attr sem_h (plain h) vs =
      bind (bind (attr x) f) (fun v => run pick (fun y => if y =? x then Some v else attr y) sem (plain g) vs).
    Proof.
      intros vs Hc. pose proof (lk_const _ L x Hc) as Hkx.
      assert (Hxc : xc = true) by (unfold xc, n; now rewrite Hkx).
      assert (Hnf : ~ In x (g_fwd g)).
      { intro K. pose proof (rd_fwd _ (lk_rendered _ L) x K) as K2. rewrite Hkx in K2. exact K2. }
      destruct h_frame as [F1 [F2 _]].
      unfold run at 1. replace (p_params (plain h)) with (g_in g) by (symmetry; exact F1).
      destruct (params (g_in g) vs) as [e|] eqn:Ep; cbn [bind].
      2: { destruct (bind (attr x) f); cbn [bind]; [|reflexivity]. unfold run. cbn [plain p_params]. now rewrite Ep. }
      assert (Hbody : exec pick attr sem_h (p_body (plain h)) e =
         bind (step pick attr sem_h e (Assign w [mkref true x []]))
           (exec pick attr sem_h (map (fun y => Assign y (refs h y)) (filter (fun y => negb (idle (g_node g y))) (g_fwd g))))).
      { unfold plain. cbn [p_body]. rewrite F2, front by (now right). cbn [filter]. rewrite w_busy. cbn [negb].
        rewrite (filter_old (g_fwd g)) by auto. cbn [map exec]. now rewrite h_refs_w, Hxc. }
      rewrite Hbody. cbn [step traverse]. unfold read at 1. cbn [r_self r_name r_idx].
      destruct (attr x) as [v|] eqn:Ea; cbn [bind picks]; [|reflexivity].
      replace (sem_h w [v]) with (f v) by (unfold sem_h, with_sem; rewrite Nat.eqb_refl; reflexivity).
      destruct (f v) as [u|]; cbn [bind]; [|reflexivity].
      set (attr2 := fun y => if y =? x then Some u else attr y).
      unfold run. cbn [plain p_params p_body]. rewrite Ep. cbn [bind].
      change (map (fun x0 => if n_rev (g_node g x0) then refs g x0 else firstn 1 (refs g x0)) (g_out g))
        with (p_ret (plain g)).
      set (rel := fun e e' : env V => (forall y, y <> w -> e' y = e y) /\ e' w = Some u).
      assert (Hrd : forall e e' rs, rel e e' -> (forall r, In r rs -> r_name r <> w) ->
                (forall r, In r rs -> r_name r = x -> r_self r = true) ->
                traverse (read pick attr e') (map (sub x w) rs) = traverse (read pick attr2 e) rs).
      { intros a a' rs [M1 M2] H1 H2. apply const_reads; auto.
        - intros y Hy. unfold attr2. destruct (Nat.eqb_spec y x); congruence.
        - unfold attr2. rewrite Nat.eqb_refl. now rewrite M2. }
      assert (H2 : related V rel
        (exec pick attr2 sem (map (fun y => Assign y (refs g y)) (filter (fun y => negb (idle (g_node g y))) (g_fwd g))) e)
        (exec pick attr sem_h (map (fun y => Assign y (refs h y)) (filter (fun y => negb (idle (g_node g y))) (g_fwd g))) (bindv e w (Some u)))).
      { rewrite lines_old by (intros y Hy; now apply filter_In in Hy).
        replace (map (fun y => Assign y (refs g y)) (filter (fun y => negb (idle (g_node g y))) (g_fwd g)))
          with (map (fun p => Assign (fst p) (snd p)) (map (fun y => (y, refs g y)) (filter (fun y => negb (idle (g_node g y))) (g_fwd g))))
          by (rewrite map_map; reflexivity).
        apply exec_lines with (ok := ok_line true).
        - intros y a a' rs [_ [_ [H3 H4]]] Hr. now apply Hrd.
        - intros y a a' v0 [M1 M2] [rs [K1 [K2 _]]]. unfold bindv. split.
          + intros z Hz. destruct (z =? y); auto.
          + destruct (Nat.eqb_spec w y); [congruence|exact M2].
        - intros y us [rs [K1 [K2 _]]]. unfold sem_h, with_sem. destruct (Nat.eqb_spec y w); [congruence|reflexivity].
        - split.
          + intros y Hy. unfold bindv. destruct (Nat.eqb_spec y w); [congruence|reflexivity].
          + unfold bindv. now rewrite Nat.eqb_refl.
        - intros y rs Hin. apply in_map_iff in Hin as [z [Ez Hz]]. inversion Ez; subst z rs. clear Ez.
          apply filter_In in Hz as [Hz _]. assert (L' : live g y) by (now left).
          repeat split; [intros ->; contradiction | now apply live_ne | intros r Hr; eapply refs_fresh; eauto |].
          intros r Hr E. rewrite <- Hxc. eapply refs_self; eauto. }
      destruct (exec pick attr2 sem (map (fun y => Assign y (refs g y)) (filter (fun y => negb (idle (g_node g y))) (g_fwd g))) e) as [b|];
      destruct (exec pick attr sem_h (map (fun y => Assign y (refs h y)) (filter (fun y => negb (idle (g_node g y))) (g_fwd g))) (bindv e w (Some u))) as [b'|];
        try (exact (match H2 with end)); [|reflexivity].
      cbn [related] in H2. cbn [bind]. rewrite ret_old.
      assert (Hall : forall rs, In rs (p_ret (plain g)) ->
                traverse (read pick attr b') (map (sub x w) rs) = traverse (read pick attr2 b) rs).
      { intros rs Hrs. apply Hrd; [exact H2| |].
        - intros r Hr. destruct (ret_refs rs r Hrs Hr) as [y [Hl Hy]]. eapply refs_fresh; eauto.
        - intros r Hr E. destruct (ret_refs rs r Hrs Hr) as [y [Hl Hy]]. rewrite <- Hxc. eapply refs_self; eauto. }
      revert Hall. generalize (p_ret (plain g)). induction l as [|rs t IH]; intro H; cbn; [reflexivity|].
      rewrite (H rs) by (now left). rewrite IH; [reflexivity|]. intros; apply H; now right.
    Qed.
  End AfterSem.
End After.

(* the code of the edited graph against the code of the graph *)
Section AfterCode.
  Variable g : graph.
  Variable x : nat.
  Variable k : kind.
  Variable given : option nat.
  Variable ts : list nat.
  Hypothesis L : linked g.
  Hypothesis Hout : outputs_of (g_node g x) ts.
  Hypothesis Hne : ts <> [].
  Hypothesis Hgiven : match given with Some m => length ts <= m | None => True end.
  Hypothesis Hk : k = KMod \/ exists c, k = KFun c [mkref (is_const (n_kind (g_node g x))) x []].

  Theorem code_after_fwd : In x (g_fwd g) ->
    exists h p q, insert_after g x k given = Some h /\ linked h /\
      gen (recompute g) = Some p /\ gen (recompute h) = Some q /\
      forall V pick attr (sem : nat -> list V -> option V) f vs,
        run pick attr (with_sem sem (g_fresh g) (call1 f)) q vs =
        run pick attr (with_sem sem x (then_f f (sem x))) p vs.
  Proof.
    intro Hx. assert (Hx' : In x (g_in g) \/ In x (g_fwd g) \/ In x (g_const g)) by tauto.
    pose proof (linked_after g x k given ts L Hx' Hout Hne Hgiven Hk) as Lh.
    destruct (gen_recompute g (lk_rendered _ L)) as [p [Ep [_ Rp]]].
    destruct (gen_recompute _ (lk_rendered _ Lh)) as [q [Eq [_ Rq]]].
    eexists _, p, q. split; [eapply insert_after_eq; eauto|]. split; [exact Lh|]. split; [exact Ep|]. split; [exact Eq|].
    intros. rewrite Rp, Rq. now apply run_after_fwd.
  Qed.

  Theorem code_after_in : forall i, nth_error (g_in g) i = Some x ->
    exists h p q, insert_after g x k given = Some h /\ linked h /\
      gen (recompute g) = Some p /\ gen (recompute h) = Some q /\
      forall V pick attr (sem : nat -> list V -> option V) f vs,
        run pick attr (with_sem sem (g_fresh g) (call1 f)) q vs =
        bind (nth_through f i vs) (run pick attr sem p).
  Proof.
    intros i Hx. assert (Hx' : In x (g_in g) \/ In x (g_fwd g) \/ In x (g_const g))
      by (left; eapply nth_error_In; eauto).
    pose proof (linked_after g x k given ts L Hx' Hout Hne Hgiven Hk) as Lh.
    destruct (gen_recompute g (lk_rendered _ L)) as [p [Ep [_ Rp]]].
    destruct (gen_recompute _ (lk_rendered _ Lh)) as [q [Eq [_ Rq]]].
    eexists _, p, q. split; [eapply insert_after_eq; eauto|]. split; [exact Lh|]. split; [exact Ep|]. split; [exact Eq|].
    intros. rewrite Rq, (run_after_in g x k given ts L Hx' Hout Hne Hgiven Hk V pick attr sem f vs i Hx).
    destruct (nth_through f i vs); cbn; [now rewrite Rp|reflexivity].
  Qed.

  Theorem code_after_const : In x (g_const g) ->
    exists h p q, insert_after g x k given = Some h /\ linked h /\
      gen (recompute g) = Some p /\ gen (recompute h) = Some q /\
      forall V pick attr (sem : nat -> list V -> option V) f vs,
        run pick attr (with_sem sem (g_fresh g) (call1 f)) q vs =
        bind (bind (attr x) f) (fun v => run pick (fun y => if y =? x then Some v else attr y) sem p vs).
  Proof.
    intro Hx. assert (Hx' : In x (g_in g) \/ In x (g_fwd g) \/ In x (g_const g)) by tauto.
    pose proof (linked_after g x k given ts L Hx' Hout Hne Hgiven Hk) as Lh.
    destruct (gen_recompute g (lk_rendered _ L)) as [p [Ep [_ Rp]]].
    destruct (gen_recompute _ (lk_rendered _ Lh)) as [q [Eq [_ Rq]]].
    eexists _, p, q. split; [eapply insert_after_eq; eauto|]. split; [exact Lh|]. split; [exact Ep|]. split; [exact Eq|].
    intros. rewrite Rq, (run_after_const g x k given ts L Hx' Hout Hne Hgiven Hk V pick attr sem f vs Hx).
    destruct (bind (attr x) f); cbn; [now rewrite Rp|reflexivity].
  Qed.
End AfterCode.
