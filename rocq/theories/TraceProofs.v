(* Proofs about the code generator of the tracer. *)
From Coq Require Import List Arith Bool Lia.
From Verif Require Import TraceSpec TraceModel.
Import ListNotations.

(* ------------------------------------------------------------------ *)
(* Basics *)

Lemma mem_In : forall x l, mem x l = true <-> In x l.
Proof.
  induction l as [|y t IH]; cbn; [split; [discriminate|tauto]|].
  rewrite orb_true_iff, Nat.eqb_eq, IH. split; intros [H|H]; auto.
Qed.

Lemma mem_false : forall x l, mem x l = false <-> ~ In x l.
Proof.
  intros x l. rewrite <- mem_In. destruct (mem x l); split; intro H; congruence.
Qed.

Lemma list_eqb_eq : forall a b, list_eqb a b = true <-> a = b.
Proof.
  induction a as [|x a IH]; destruct b as [|y b]; cbn; split; intro H; try reflexivity; try discriminate.
  - apply andb_true_iff in H as [H1 H2]. apply Nat.eqb_eq in H1. apply IH in H2. congruence.
  - inversion H; subst. rewrite Nat.eqb_refl. cbn. now apply IH.
Qed.

Lemma ref_eqb_eq : forall a b, ref_eqb a b = true <-> a = b.
Proof.
  intros [s n i] [s' n' i']. unfold ref_eqb; cbn.
  rewrite !andb_true_iff, Bool.eqb_true_iff, Nat.eqb_eq, list_eqb_eq.
  split; [intros [[-> ->] ->]; reflexivity | intro H; inversion H; auto].
Qed.

Lemma traverse_ext : forall A B (f h : A -> option B) l,
  (forall a, In a l -> f a = h a) -> traverse f l = traverse h l.
Proof.
  induction l as [|a t IH]; intro H; cbn; [reflexivity|].
  rewrite (H a) by (now left). rewrite IH; [reflexivity|]. intros b Hb. apply H. now right.
Qed.

Lemma traverse_some : forall A B (f : A -> option B) (h : A -> B) l,
  (forall a, In a l -> f a = Some (h a)) -> traverse f l = Some (map h l).
Proof.
  induction l as [|a t IH]; intro H; cbn; [reflexivity|].
  rewrite (H a) by (now left). cbn. rewrite IH; [reflexivity|]. intros b Hb. apply H. now right.
Qed.

Lemma traverse_ok : forall A B (f : A -> option B) l,
  (forall a, In a l -> exists b, f a = Some b) -> exists bs, traverse f l = Some bs.
Proof.
  induction l as [|a t IH]; intro H; cbn; [eauto|].
  destruct (H a (or_introl eq_refl)) as [b ->]. cbn.
  destruct IH as [bs ->]; [intros c Hc; apply H; now right|]. cbn. eauto.
Qed.

Lemma traverse_In : forall A B (f : A -> option B) l bs b,
  traverse f l = Some bs -> In b bs -> exists a, In a l /\ f a = Some b.
Proof.
  induction l as [|a t IH]; cbn; intros bs b H Hb; [inversion H; subst; contradiction|].
  destruct (f a) as [b0|] eqn:E; [|discriminate]. cbn in H.
  destruct (traverse f t) as [bs0|] eqn:E2; [|discriminate]. cbn in H. inversion H; subst.
  destruct Hb as [->|Hb]; [eauto|]. destruct (IH bs0 b eq_refl Hb) as [a' [H1 H2]]. eauto.
Qed.

Lemma traverse_seq : forall A B C (f : nat -> option B) (h : A * C -> B) (l : list A) (m : list C) k,
  length l <= length m ->
  (forall i a c, nth_error l i = Some a -> nth_error m i = Some c -> f (k + i) = Some (h (a, c))) ->
  traverse f (seq k (length l)) = Some (map h (combine l m)).
Proof.
  induction l as [|a l IH]; intros m k Hlen H; cbn; [reflexivity|].
  destruct m as [|c m]; cbn in Hlen; [lia|].
  pose proof (H 0 a c eq_refl eq_refl) as H0. rewrite Nat.add_0_r in H0. rewrite H0. cbn.
  rewrite (IH m (S k)); [reflexivity|lia|].
  intros i a' c' H1 H2. specialize (H (S i) a' c' H1 H2). rewrite Nat.add_succ_r in H. exact H.
Qed.

(* ------------------------------------------------------------------ *)
(* Programs without early releases *)

Definition used_in (rs : list ref) (x : nat) : Prop := exists r, In r rs /\ r_self r = false /\ r_name r = x.

Fixpoint used (body : list stmt) (ret : list (list ref)) (x : nat) : Prop :=
  match body with
  | [] => exists rs, In rs ret /\ used_in rs x
  | Assign _ args :: t => used_in args x \/ used t ret x
  | Release _ :: t => used t ret x
  end.

Fixpoint safe (body : list stmt) (ret : list (list ref)) : Prop :=
  match body with
  | [] => True
  | Assign _ _ :: t => safe t ret
  | Release x :: t => ~ used t ret x /\ safe t ret
  end.

Section Run.
  Variable V : Type.
  Variable pick : V -> nat -> option V.
  Variable attr : nat -> option V.
  Variable sem : nat -> list V -> option V.

  Lemma read_agree : forall (e e' : env V) r,
    (r_self r = false -> e (r_name r) = e' (r_name r)) -> read pick attr e r = read pick attr e' r.
  Proof. intros e e' [s n i] H. unfold read; cbn in *. destruct s; [reflexivity|]. now rewrite H. Qed.

  Lemma reads_agree : forall (e e' : env V) rs,
    (forall x, used_in rs x -> e x = e' x) ->
    traverse (read pick attr e) rs = traverse (read pick attr e') rs.
  Proof.
    intros e e' rs H. apply traverse_ext. intros r Hr. apply read_agree. intro Hs. apply H. exists r; auto.
  Qed.

  Lemma exec_safe : forall body ret e e',
    safe body ret -> (forall x, used body ret x -> e x = e' x) ->
    bind (exec pick attr sem body e) (fun a => traverse (traverse (read pick attr a)) ret) =
    bind (exec pick attr sem (filter keeps body) e') (fun a => traverse (traverse (read pick attr a)) ret).
  Proof.
    induction body as [|s t IH]; intros ret e e' Hs Hu.
    - cbn. apply traverse_ext. intros rs Hrs. apply reads_agree. intros x Hx. apply Hu. exists rs; auto.
    - destruct s as [x args|x]; cbn in Hs.
      + cbn [filter keeps exec step].
        rewrite (reads_agree e e' args) by (intros y Hy; apply Hu; now left).
        destruct (traverse (read pick attr e') args) as [vs|]; cbn; [|reflexivity].
        destruct (sem x vs) as [v|]; cbn; [|reflexivity].
        apply IH; [exact Hs|]. intros y Hy. unfold bindv. destruct (y =? x); [reflexivity|].
        apply Hu. now right.
      + cbn [filter keeps exec step bind]. destruct Hs as [Hn Hs].
        apply IH; [exact Hs|]. intros y Hy. unfold bindv. destruct (Nat.eqb_spec y x) as [->|]; [contradiction|].
        now apply Hu.
  Qed.

  Lemma run_safe : forall p vs, safe (p_body p) (p_ret p) ->
    run pick attr sem p vs = run pick attr sem (unreleased p) vs.
  Proof.
    intros p vs H. unfold run. cbn [p_params p_body p_ret unreleased].
    destruct (params (p_params p) vs) as [e|]; cbn; [|reflexivity].
    apply exec_safe; auto.
  Qed.
End Run.

(* ------------------------------------------------------------------ *)
(* recompute_forward_order *)

(* the same graph but for the next nodes and the order *)
Record alike (g h : graph) : Prop := {
  al_in : g_in h = g_in g;
  al_fwd : g_fwd h = g_fwd g;
  al_out : g_out h = g_out g;
  al_const : g_const h = g_const g;
  al_fresh : g_fresh h = g_fresh g;
  al_tensor : g_tensor h = g_tensor g;
  al_kind : forall x, n_kind (g_node h x) = n_kind (g_node g x);
  al_prevs : forall x, n_prevs (g_node h x) = n_prevs (g_node g x);
  al_prevt : forall x, n_prevt (g_node h x) = n_prevt (g_node g x);
  al_nextt : forall x, n_nextt (g_node h x) = n_nextt (g_node g x);
  al_previ : forall x, n_previ (g_node h x) = n_previ (g_node g x);
  al_rev : forall x, n_rev (g_node h x) = n_rev (g_node g x);
  al_nexts : forall x y, In y (n_nexts (g_node g x)) -> In y (n_nexts (g_node h x))
}.

Lemma alike_refl : forall g, alike g g.
Proof. intro g. constructor; auto. Qed.

Lemma alike_trans : forall a b c, alike a b -> alike b c -> alike a c.
Proof.
  intros a b c H K. destruct H, K. constructor; try congruence; try (intros; congruence).
  intros x y Hy. auto.
Qed.

Lemma upd_node : forall g x n y, g_node (upd g x n) y = if y =? x then n else g_node g y.
Proof. reflexivity. Qed.

Lemma alike_upd : forall g x n,
  n_kind n = n_kind (g_node g x) -> n_prevs n = n_prevs (g_node g x) ->
  n_prevt n = n_prevt (g_node g x) -> n_nextt n = n_nextt (g_node g x) ->
  n_previ n = n_previ (g_node g x) -> n_rev n = n_rev (g_node g x) ->
  (forall y, In y (n_nexts (g_node g x)) -> In y (n_nexts n)) -> alike g (upd g x n).
Proof.
  intros g x n H1 H2 H3 H4 H5 H6 H7.
  constructor; try reflexivity; intros y; rewrite upd_node; destruct (Nat.eqb_spec y x) as [->|]; auto.
Qed.

Definition link1 (x : nat) (g' : graph) (p : nat) : graph :=
  let n := g_node g' p in
  if mem x (n_nexts n) then g' else upd g' p (set_nexts n (n_nexts n ++ [x])).

Lemma link1_spec : forall x g p,
  alike g (link1 x g p) /\ In x (n_nexts (g_node (link1 x g p) p)) /\
  (forall y, n_order (g_node (link1 x g p) y) = n_order (g_node g y)).
Proof.
  intros x g p. unfold link1. destruct (mem x (n_nexts (g_node g p))) eqn:E.
  - split; [apply alike_refl|]. split; [now apply mem_In|reflexivity].
  - split; [|split].
    + apply alike_upd; cbn; try reflexivity. intros y Hy. apply in_or_app. now left.
    + rewrite upd_node, Nat.eqb_refl. cbn. apply in_or_app. right. now left.
    + intro y. rewrite upd_node. destruct (Nat.eqb_spec y p) as [->|]; reflexivity.
Qed.

Lemma fold_link : forall x l g,
  let h := fold_left (link1 x) l g in
  alike g h /\ (forall p, In p l -> In x (n_nexts (g_node h p))) /\
  (forall y, n_order (g_node h y) = n_order (g_node g y)).
Proof.
  intros x l. induction l as [|p t IH]; intros g; cbn [fold_left].
  - split; [apply alike_refl|]. split; [intros ? []|reflexivity].
  - destruct (link1_spec x g p) as [A [B C]]. destruct (IH (link1 x g p)) as [A' [B' C']].
    split; [eapply alike_trans; eauto|]. split.
    + intros q [<-|Hq]; [apply (al_nexts _ _ A'); exact B | now apply B'].
    + intro y. rewrite C'. apply C.
Qed.

Lemma relink_spec : forall g x,
  alike g (relink g x) /\ (forall p, In p (n_prevs (g_node g x)) -> In x (n_nexts (g_node (relink g x) p))) /\
  (forall y, n_order (g_node (relink g x) y) = n_order (g_node g y)).
Proof. intros g x. exact (fold_link x (n_prevs (g_node g x)) g). Qed.

Lemma number_spec : forall l g k, NoDup l ->
  let h := number g l k in
  alike g h /\
  (forall x p, In x l -> In p (n_prevs (g_node g x)) -> In x (n_nexts (g_node h p))) /\
  (forall i x, nth_error l i = Some x -> n_order (g_node h x) = k + i) /\
  (forall x, ~ In x l -> n_order (g_node h x) = n_order (g_node g x)).
Proof.
  induction l as [|x t IH]; intros g k Hnd; cbn [number].
  - split; [apply alike_refl|]. split; [intros ? ? []|]. split; [intros [|i] y H; discriminate|reflexivity].
  - inversion Hnd as [|? ? Hx Ht]; subst.
    set (g1 := upd g x (set_order (g_node g x) k)).
    assert (A1 : alike g g1) by (apply alike_upd; cbn; auto).
    destruct (relink_spec g1 x) as [A2 [B2 C2]].
    destruct (IH (relink g1 x) (S k) Ht) as [A3 [B3 [C3 D3]]].
    pose proof (alike_trans _ _ _ A1 A2) as A12.
    split; [eapply alike_trans; eauto|]. split; [|split].
    + intros y p [<-|Hy] Hp.
      * apply (al_nexts _ _ A3). apply B2. rewrite (al_prevs _ _ A1). exact Hp.
      * apply B3; [exact Hy|]. rewrite (al_prevs _ _ A12). exact Hp.
    + intros [|i] y H; cbn in H.
      * inversion H; subst. rewrite D3 by exact Hx. rewrite C2. unfold g1. rewrite upd_node, Nat.eqb_refl. cbn. lia.
      * rewrite (C3 i y H). lia.
    + intros y Hy. rewrite D3 by (intro; apply Hy; now right). rewrite C2. unfold g1. rewrite upd_node.
      destruct (Nat.eqb_spec y x) as [->|]; [exfalso; apply Hy; now left|reflexivity].
Qed.

Lemma alike_refs : forall g h x, alike g h -> refs h x = refs g x.
Proof.
  intros g h x A. unfold refs. rewrite (al_prevs _ _ A), (al_previ _ _ A).
  apply map_ext. intros [p i]. cbn. now rewrite (al_kind _ _ A).
Qed.

Lemma alike_idle : forall g h x, alike g h -> idle (g_node h x) = idle (g_node g x).
Proof. intros g h x A. unfold idle. now rewrite (al_kind _ _ A), (al_prevt _ _ A), (al_nextt _ _ A). Qed.

Lemma alike_plain : forall g h, alike g h -> plain h = plain g.
Proof.
  intros g h A. unfold plain. rewrite (al_in _ _ A), (al_fwd _ _ A), (al_out _ _ A). f_equal.
  - rewrite (filter_ext _ (fun x => negb (idle (g_node g x)))) by (intro x; now rewrite (alike_idle g h x A)).
    apply map_ext. intro x. now rewrite (alike_refs g h x A).
  - apply map_ext. intro x. now rewrite (alike_refs g h x A), (al_rev _ _ A).
Qed.

Lemma alike_live : forall g h x, alike g h -> live h x <-> live g x.
Proof. intros g h x A. unfold live. rewrite (al_fwd _ _ A), (al_out _ _ A). tauto. Qed.

Lemma alike_rendered : forall g h, alike g h -> rendered g -> rendered h.
Proof.
  intros g h A [H1 H2 H3 H4]. constructor.
  - now rewrite (al_in _ _ A), (al_fwd _ _ A), (al_out _ _ A).
  - intros x Hx. rewrite (al_prevs _ _ A), (al_previ _ _ A). apply H2. now apply (alike_live g h x A).
  - intros x Hx. rewrite (al_kind _ _ A). rewrite (alike_refs g h x A). apply H3. now rewrite <- (al_fwd _ _ A).
  - intros x Hx. rewrite (al_prevs _ _ A). apply H4. now rewrite <- (al_out _ _ A).
Qed.

(* ------------------------------------------------------------------ *)
(* The lines *)

Lemma prev_ref_refs : forall g x, length (n_prevs (g_node g x)) <= length (n_previ (g_node g x)) ->
  traverse (prev_ref g x) (seq 0 (length (n_prevs (g_node g x)))) = Some (refs g x).
Proof.
  intros g x H. unfold refs.
  apply traverse_seq with (h := fun pi => mkref (is_const (n_kind (g_node g (fst pi)))) (fst pi) (snd pi)); [exact H|].
  intros i p idx H1 H2. cbn [Nat.add]. unfold prev_ref. now rewrite H1, H2.
Qed.

Lemma prev_ref_0 : forall g x, length (n_prevs (g_node g x)) <= length (n_previ (g_node g x)) ->
  prev_ref g x 0 = nth_error (refs g x) 0.
Proof.
  intros g x H. unfold prev_ref, refs.
  destruct (n_prevs (g_node g x)) as [|p ps]; [reflexivity|].
  destruct (n_previ (g_node g x)) as [|i is]; [cbn in H; lia|]. reflexivity.
Qed.

Lemma line_spec : forall g x, rendered g -> In x (g_fwd g) ->
  line g x = Some (if idle (g_node g x) then None else Some (Assign x (refs g x))).
Proof.
  intros g x R Hx. pose proof (rd_align _ R x (or_introl Hx)) as Hal. pose proof (rd_fwd _ R x Hx) as Hk.
  unfold line, idle. destruct (n_kind (g_node g x)) as [| | | |cls names] eqn:E; try contradiction.
  - destruct (n_prevt (g_node g x)) as [|t ts] eqn:E1; [destruct (n_nextt (g_node g x)) eqn:E2|];
      try reflexivity; rewrite prev_ref_refs by exact Hal; reflexivity.
  - destruct Hk as [-> Hc]. pose proof (prev_ref_0 g x Hal) as H0.
    destruct (refs g x) as [|r t] eqn:E1.
    + destruct cls; [exfalso; now apply Hc | reflexivity].
    + rewrite H0. destruct cls; reflexivity.
Qed.

Lemma gen_out_spec : forall g x, rendered g -> In x (g_out g) ->
  gen_out g x = Some (if n_rev (g_node g x) then refs g x else firstn 1 (refs g x)).
Proof.
  intros g x R Hx. pose proof (rd_align _ R x (or_intror Hx)) as Hal. unfold gen_out.
  destruct (n_rev (g_node g x)); [now apply prev_ref_refs|].
  rewrite prev_ref_0 by exact Hal. pose proof (rd_out _ R x Hx) as Hne. unfold refs.
  destruct (n_prevs (g_node g x)) as [|p ps]; [congruence|].
  destruct (n_previ (g_node g x)) as [|i is]; [cbn in Hal; lia|]. reflexivity.
Qed.

Lemma max_list_some : forall l, l <> [] -> exists m, max_list l = Some m.
Proof.
  induction l as [|x t IH]; intro H; [congruence|]. destruct t as [|y t]; [now exists x|].
  destruct IH as [m Hm]; [discriminate|]. cbn [max_list] in *. rewrite Hm. cbn. eauto.
Qed.

Lemma max_list_ge : forall l m x, max_list l = Some m -> In x l -> x <= m.
Proof.
  induction l as [|y t IH]; intros m x H Hx; [contradiction|].
  destruct t as [|z t].
  - cbn in H. inversion H; subst. destruct Hx as [->|[]]. lia.
  - change (max_list (y :: z :: t)) with (bind (max_list (z :: t)) (fun m => Some (Nat.max y m))) in H.
    destruct (max_list (z :: t)) as [m0|] eqn:E; [|discriminate]. cbn in H. inversion H; subst.
    destruct Hx as [->|Hx]; [lia|]. specialize (IH m0 x eq_refl Hx). lia.
Qed.

Lemma distinct_In : forall l seen x, In x (distinct seen l) -> In x l.
Proof.
  induction l as [|y t IH]; cbn; intros seen x H; [contradiction|].
  destruct (mem y seen); [right; eauto|]. destruct H as [->|H]; [now left|right; eauto].
Qed.

(* what is released behind a line *)
Lemma releases_spec : forall g x,
  (forall p, In p (n_prevs (g_node g x)) -> In x (n_nexts (g_node g p))) ->
  exists rs, releases g x = Some rs /\
    forall s, In s rs -> exists p, s = Release p /\
      forall y, In y (n_nexts (g_node g p)) -> n_order (g_node g y) <= n_order (g_node g x).
Proof.
  intros g x H. unfold releases.
  match goal with |- context [traverse ?f ?l] => destruct (traverse_ok _ _ f l) as [ls Hls] end.
  - intros p Hp. apply distinct_In in Hp. specialize (H p Hp).
    destruct (max_list_some (map (fun y => n_order (g_node g y)) (n_nexts (g_node g p)))) as [m Hm].
    + destruct (n_nexts (g_node g p)); [contradiction|discriminate].
    + rewrite Hm. cbn. eauto.
  - rewrite Hls. cbn. exists (concat ls). split; [reflexivity|].
    intros s Hs. apply in_concat in Hs as [l [Hl Hs]].
    destruct (traverse_In _ _ _ _ _ _ Hls Hl) as [p [Hp Hf]].
    destruct (max_list (map (fun y => n_order (g_node g y)) (n_nexts (g_node g p)))) as [m|] eqn:Hm; [|discriminate].
    cbn in Hf. inversion Hf; subst. clear Hf.
    destruct (Nat.eqb_spec (n_order (g_node g x)) m) as [Hm'|]; cbn in Hs; [|contradiction].
    destruct (is_const (n_kind (g_node g p))); cbn in Hs; [contradiction|].
    destruct Hs as [<-|[]]. exists p. split; [reflexivity|]. intros y Hy. rewrite Hm'.
    eapply max_list_ge; [exact Hm|]. apply in_map_iff. exists y. auto.
Qed.

Lemma used_app_releases : forall rs t ret x, (forall s, In s rs -> exists p, s = Release p) ->
  used (rs ++ t) ret x <-> used t ret x.
Proof.
  induction rs as [|s rs IH]; intros t ret x H; cbn; [tauto|].
  destruct (H s (or_introl eq_refl)) as [p ->]. apply IH. intros s Hs. apply H. now right.
Qed.

Lemma safe_app_releases : forall rs t ret,
  (forall s, In s rs -> exists p, s = Release p /\ ~ used t ret p) -> safe t ret -> safe (rs ++ t) ret.
Proof.
  induction rs as [|s rs IH]; intros t ret H Ht; cbn; [exact Ht|].
  destruct (H s (or_introl eq_refl)) as [p [-> Hp]]. split.
  - rewrite used_app_releases; [exact Hp|]. intros s Hs. destruct (H s (or_intror Hs)) as [q [-> _]]. eauto.
  - apply IH; [|exact Ht]. intros s Hs. apply H. now right.
Qed.

Lemma keeps_app_releases : forall rs t, (forall s, In s rs -> exists p, s = Release p) ->
  filter keeps (rs ++ t) = filter keeps t.
Proof.
  induction rs as [|s rs IH]; intros t H; cbn; [reflexivity|].
  destruct (H s (or_introl eq_refl)) as [p ->]. cbn. apply IH. intros s Hs. apply H. now right.
Qed.

Lemma used_in_refs : forall g x p, used_in (refs g x) p -> In p (n_prevs (g_node g x)).
Proof.
  intros g x p [r [Hr [Hs Hn]]]. unfold refs in Hr. apply in_map_iff in Hr as [[q i] [<- Hq]].
  cbn in Hn. subst q. now apply in_combine_l in Hq.
Qed.

Section Body.
  Variable g : graph.
  Hypothesis R : rendered g.
  Hypothesis Hnext : forall x p, live g x -> In p (n_prevs (g_node g x)) -> In x (n_nexts (g_node g p)).
  Variable ret : list (list ref).
  Hypothesis Hret : forall rs p, In rs ret -> used_in rs p ->
    exists y, In y (g_out g) /\ In p (n_prevs (g_node g y)).

  (* the orders of [l] are increasing and below those of the outputs *)
  Fixpoint rising (l : list nat) : Prop :=
    match l with
    | [] => True
    | x :: t =>
      (forall y, In y t -> n_order (g_node g x) < n_order (g_node g y)) /\
      (forall y, In y (g_out g) -> n_order (g_node g x) < n_order (g_node g y)) /\ rising t
    end.

  Lemma gen_body : forall l, (forall x, In x l -> In x (g_fwd g)) -> rising l ->
    exists bodies, traverse (gen_node g) l = Some bodies /\
      filter keeps (concat bodies) =
        map (fun x => Assign x (refs g x)) (filter (fun x => negb (idle (g_node g x))) l) /\
      safe (concat bodies) ret /\
      (forall p, used (concat bodies) ret p ->
        exists y, (In y l \/ In y (g_out g)) /\ In p (n_prevs (g_node g y))).
  Proof.
    induction l as [|x t IH]; intros Hl Hr.
    - exists []. cbn. repeat split; auto.
      intros p [rs [Hrs Hp]]. destruct (Hret rs p Hrs Hp) as [y [Hy Hy']]. eauto.
    - destruct Hr as [Hr1 [Hr2 Hr3]].
      destruct IH as [bodies [E [F [Sf U]]]]; [intros y Hy; apply Hl; now right | exact Hr3 |].
      assert (Hx : In x (g_fwd g)) by (apply Hl; now left).
      cbn [traverse]. unfold gen_node at 1. rewrite (line_spec g x R Hx). cbn [bind filter].
      destruct (idle (g_node g x)) eqn:Ei; cbn [bind negb].
      + rewrite E. cbn [bind]. exists ([] :: bodies). cbn [concat app]. repeat split; auto.
        intros p Hp. destruct (U p Hp) as [y [Hy Hy']]. exists y. split; [cbn; tauto|exact Hy'].
      + destruct (releases_spec g x) as [rs [Hrs Hr]]; [intros p Hp; apply Hnext; [now left|exact Hp]|].
        rewrite Hrs. cbn [bind]. rewrite E. cbn [bind].
        exists ((Assign x (refs g x) :: rs) :: bodies). split; [reflexivity|].
        assert (Hrel : forall s, In s rs -> exists p, s = Release p)
          by (intros s Hs; destruct (Hr s Hs) as [p [-> _]]; eauto).
        cbn [concat app filter keeps map]. split; [|split].
        * rewrite keeps_app_releases by exact Hrel. rewrite F. reflexivity.
        * cbn [safe]. apply safe_app_releases; [|exact Sf].
          intros s Hs. destruct (Hr s Hs) as [p [-> Hp]]. exists p. split; [reflexivity|].
          intro Hu. destruct (U p Hu) as [y [Hy Hy']].
          assert (Hlive : live g y)
            by (destruct Hy as [Hy|Hy]; [left; apply Hl; now right | now right]).
          specialize (Hp y (Hnext y p Hlive Hy')).
          destruct Hy as [Hy|Hy]; [specialize (Hr1 y Hy) | specialize (Hr2 y Hy)]; lia.
        * intros p [Hp|Hp].
          -- exists x. split; [left; now left|]. now apply used_in_refs.
          -- rewrite used_app_releases in Hp by exact Hrel.
             destruct (U p Hp) as [y [Hy Hy']]. exists y. split; [cbn; tauto|exact Hy'].
  Qed.
End Body.

Lemma rising_app : forall g l pre suf, l = pre ++ suf ->
  (forall i x, nth_error l i = Some x -> n_order (g_node g x) = i) ->
  forall f o, suf = f ++ o -> g_out g = o -> rising g f.
Proof.
  intros g l pre suf El Hord f. revert pre suf El.
  induction f as [|x f IH]; intros pre suf El o Es Eo; cbn; [exact I|].
  assert (Hx : n_order (g_node g x) = length pre).
  { apply Hord. rewrite El, Es. rewrite nth_error_app2 by lia. now rewrite Nat.sub_diag. }
  assert (Hlater : forall y, In y (f ++ o) -> length pre < n_order (g_node g y)).
  { intros y Hy. apply In_nth_error in Hy as [j Hj].
    rewrite (Hord (length pre + S j) y); [lia|].
    rewrite El, Es. rewrite nth_error_app2 by lia.
    replace (length pre + S j - length pre) with (S j) by lia. exact Hj. }
  split; [|split].
  - intros y Hy. rewrite Hx. apply Hlater. apply in_or_app. now left.
  - intros y Hy. rewrite Hx. apply Hlater. apply in_or_app. right. now rewrite <- Eo.
  - apply (IH (pre ++ [x]) (f ++ o)) with (o := o); [|reflexivity|exact Eo].
    rewrite El, Es, <- app_assoc. reflexivity.
Qed.

Theorem gen_recompute : forall g, rendered g ->
  exists p, gen (recompute g) = Some p /\ unreleased p = plain g /\
    forall V pick attr sem (vs : list V), run pick attr sem p vs = run pick attr sem (plain g) vs.
Proof.
  intros g R. unfold recompute.
  destruct (number_spec (g_in g ++ g_fwd g ++ g_out g) g 0 (rd_nodup _ R)) as [A [B [C D]]].
  set (h := number g (g_in g ++ g_fwd g ++ g_out g) 0) in *.
  pose proof (alike_rendered g h A R) as Rh.
  set (ret := map (fun x => if n_rev (g_node h x) then refs h x else firstn 1 (refs h x)) (g_out h)).
  assert (Hret : forall rs p, In rs ret -> used_in rs p ->
            exists y, In y (g_out h) /\ In p (n_prevs (g_node h y))).
  { intros rs p Hrs Hp. unfold ret in Hrs. apply in_map_iff in Hrs as [y [<- Hy]]. exists y. split; [exact Hy|].
    apply used_in_refs. destruct (n_rev (g_node h y)); [exact Hp|].
    destruct Hp as [r [Hr Hr']]. exists r. split; [|exact Hr'].
    destruct (refs h y) as [|r0 t]; cbn in *; [contradiction|]. destruct Hr as [->|[]]. now left. }
  assert (Hnext : forall x p, live h x -> In p (n_prevs (g_node h x)) -> In x (n_nexts (g_node h p))).
  { intros x p Hx Hp. rewrite (al_prevs _ _ A) in Hp. apply B; [|exact Hp].
    apply (alike_live g h x A) in Hx. destruct Hx; repeat (apply in_or_app; auto; right). }
  destruct (gen_body h Rh Hnext ret Hret (g_fwd h)) as [bodies [E [F [Sf U]]]]; [auto| |].
  { apply (rising_app h (g_in g ++ g_fwd g ++ g_out g) (g_in g) (g_fwd g ++ g_out g) eq_refl) with (o := g_out g).
    - intros i x Hi. now rewrite (C i x Hi).
    - now rewrite (al_fwd _ _ A).
    - exact (al_out _ _ A). }
  assert (Eret : traverse (gen_out h) (g_out h) = Some ret)
    by (apply traverse_some; intros x Hx; now apply gen_out_spec).
  exists (mkprog (g_in h) (concat bodies) ret).
  assert (Eu : unreleased (mkprog (g_in h) (concat bodies) ret) = plain g).
  { rewrite <- (alike_plain g h A). unfold unreleased, plain. cbn [p_params p_body p_ret]. now rewrite F. }
  split; [unfold gen; rewrite E; cbn [bind]; rewrite Eret; reflexivity|].
  split; [exact Eu|]. intros V pick attr sem vs. rewrite <- Eu. apply run_safe. exact Sf.
Qed.
