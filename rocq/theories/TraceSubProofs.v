(* Proofs about the removal of dead nodes. *)
From Coq Require Import List Arith Bool Lia.
From Verif Require Import TraceSpec TraceModel TraceProofs TraceAfterProofs TraceSubSpec TraceSubModel.
Import ListNotations.

(* ------------------------------------------------------------------ *)
(* The detection *)

Section Detect.
  Variable g : graph.

  Definition pn (x : nat) : list nat := n_prevs (g_node g x).

  Lemma detect_incl : forall f q act r, detect g f q act = Some r ->
    (forall x, In x act \/ In x q -> In x r).
  Proof.
    induction f as [|f IH]; intros [|x q] act r H; cbn in H; try discriminate;
      try (injection H as <-; intros y [Hy|[]]; exact Hy).
    destruct (mem x act) eqn:E; intros y Hy.
    - apply (IH _ _ _ H). destruct Hy as [Hy|[<-|Hy]]; auto. left. now apply mem_In.
    - apply (IH _ _ _ H). destruct Hy as [Hy|[<-|Hy]].
      + left. now right.
      + left. now left.
      + right. apply in_or_app. now left.
  Qed.

  Lemma detect_closed : forall f q act r, detect g f q act = Some r ->
    (forall x p, In x act -> In p (pn x) -> In p act \/ In p q) ->
    forall x p, In x r -> In p (pn x) -> In p r.
  Proof.
    induction f as [|f IH]; intros [|x q] act r H Hc; cbn in H; try discriminate;
      try (injection H as <-; intros y p Hy Hp; destruct (Hc y p Hy Hp) as [K|[]]; exact K).
    destruct (mem x act) eqn:E.
    - apply (IH _ _ _ H). intros y p Hy Hp. destruct (Hc y p Hy Hp) as [K|[<-|K]]; auto.
      left. now apply mem_In.
    - apply (IH _ _ _ H). intros y p [<-|Hy] Hp.
      + right. apply in_or_app. now right.
      + destruct (Hc y p Hy Hp) as [K|[<-|K]]; [left; now right|left; now left|right; apply in_or_app; now left].
  Qed.

  Lemma detect_sound : forall (P : nat -> Prop), (forall x p, P x -> In p (pn x) -> P p) ->
    forall f q act r, detect g f q act = Some r ->
    (forall x, In x act \/ In x q -> P x) -> forall x, In x r -> P x.
  Proof.
    intros P Hp. induction f as [|f IH]; intros [|x q] act r H Hc; cbn in H; try discriminate;
      try (injection H as <-; intros y Hy; apply Hc; now left).
    destruct (mem x act) eqn:E.
    - apply (IH _ _ _ H). intros y [Hy|Hy]; apply Hc; [now left|right; now right].
    - apply (IH _ _ _ H). intros y [[<-|Hy]|Hy].
      + apply Hc. right. now left.
      + apply Hc. now left.
      + apply in_app_or in Hy as [Hy|Hy]; [apply Hc; right; now right|].
        apply (Hp x); [apply Hc; right; now left|exact Hy].
  Qed.

  Definition universe : list nat := g_in g ++ g_fwd g ++ g_out g.
  Definition load (act u : list nat) : nat :=
    list_sum (map (fun x => if mem x act then 0 else length (pn x)) u).

  Lemma load_cons : forall act y u,
    load act (y :: u) = (if mem y act then 0 else length (pn y)) + load act u.
  Proof. reflexivity. Qed.

  Lemma load_le : forall x act u, load (x :: act) u <= load act u.
  Proof.
    intros x act. induction u as [|y u IH]; [cbn; lia|]. rewrite !load_cons. cbn [mem].
    destruct (y =? x); cbn [orb]; destruct (mem y act); lia.
  Qed.

  Lemma load_less : forall x act u, mem x act = false -> In x u ->
    load (x :: act) u + length (pn x) <= load act u.
  Proof.
    intros x act u Hx. induction u as [|y u IH]; intro Hu; [contradiction|].
    pose proof (load_le x act u) as Hle. rewrite !load_cons. cbn [mem].
    destruct (Nat.eqb_spec y x) as [->|Hne]; cbn [orb].
    - rewrite Hx. lia.
    - destruct Hu as [->|Hu]; [congruence|]. specialize (IH Hu). destruct (mem y act); lia.
  Qed.

  Lemma load_nil : forall u, load [] u = list_sum (map (fun x => length (pn x)) u).
  Proof. reflexivity. Qed.

  Definition inner (x : nat) : Prop := In x universe \/ pn x = [].

  Lemma load_push : forall x act, mem x act = false -> inner x ->
    load (x :: act) universe + length (pn x) <= load act universe.
  Proof.
    intros x act Hx [Hu|Hu]; [now apply load_less|]. rewrite Hu. cbn. pose proof (load_le x act universe). lia.
  Qed.

  Hypothesis Hin : forall x p, inner x -> In p (pn x) -> inner p.

  Lemma detect_total : forall f q act, (forall x, In x q -> inner x) ->
    length q + load act universe <= f -> exists r, detect g f q act = Some r.
  Proof.
    induction f as [|f IH]; intros [|x q] act Hq Hf; cbn in Hf; cbn [detect]; eauto; [lia|].
    destruct (mem x act) eqn:E.
    - apply IH; [intros y Hy; apply Hq; now right|lia].
    - apply IH.
      + intros y Hy. apply in_app_or in Hy as [Hy|Hy]; [apply Hq; now right|].
        apply (Hin x); [apply Hq; now left|exact Hy].
      + rewrite app_length. pose proof (load_push x act E (Hq x (or_introl eq_refl))).
        change (n_prevs (g_node g x)) with (pn x). lia.
  Qed.

  Lemma load_links : forall act, load act universe <= links g.
  Proof.
    intro act. change (links g) with (load [] universe).
    induction universe as [|y u IH]; [cbn; lia|]. rewrite !load_cons. cbn [mem]. destruct (mem y act); lia.
  Qed.

  Lemma detect_all_total : forall roots act, (forall x, In x roots -> inner x) ->
    exists r, detect_all g roots act = Some r.
  Proof.
    induction roots as [|x t IH]; intros act Hr; cbn [detect_all]; [eauto|].
    destruct (detect_total (S (links g)) [x] act) as [r Er].
    - intros y [<-|[]]. apply Hr. now left.
    - cbn [length]. pose proof (load_links act). lia.
    - rewrite Er. cbn [bind]. apply IH. intros y Hy. apply Hr. now right.
  Qed.

  Lemma detect_all_spec : forall roots act r, detect_all g roots act = Some r ->
    (forall x p, In x act -> In p (pn x) -> In p act) ->
    (forall x, In x act \/ In x roots -> In x r) /\
    (forall x p, In x r -> In p (pn x) -> In p r) /\
    (forall (P : nat -> Prop), (forall x p, P x -> In p (pn x) -> P p) ->
       (forall x, In x act \/ In x roots -> P x) -> forall x, In x r -> P x).
  Proof.
    induction roots as [|y t IH]; intros act r H Hc; cbn [detect_all] in H.
    - injection H as <-. split; [intros x [Hx|[]]; exact Hx|]. split; [exact Hc|].
      intros P HP Ha x Hx. apply Ha. now left.
    - destruct (detect g (S (links g)) [y] act) as [a|] eqn:E; [|discriminate]. cbn [bind] in H.
      assert (Ha : forall x p, In x a -> In p (pn x) -> In p a).
      { apply (detect_closed _ _ _ _ E). intros x p Hx Hp. left. eauto. }
      destruct (IH a r H Ha) as [I1 [I2 I3]]. split; [|split; [exact I2|]].
      + intros x Hx. pose proof (detect_incl _ _ _ _ E) as K. apply I1.
        destruct Hx as [Hx|[<-|Hx]]; [left; apply K; now left|left; apply K; right; now left|now right].
      + intros P HP Hr. apply I3; [exact HP|]. intros x [Hx|Hx]; [|apply Hr; right; now right].
        apply (detect_sound P HP _ _ _ _ E); [|exact Hx].
        intros z [Hz|[<-|[]]]; apply Hr; [now left|right; now left].
  Qed.
End Detect.

Lemma distinct_all : forall l seen x, In x l -> In x seen \/ In x (distinct seen l).
Proof.
  induction l as [|y t IH]; intros seen x H; [contradiction|]. cbn.
  destruct (mem y seen) eqn:E.
  - destruct H as [<-|H]; [left; now apply mem_In|]. now apply IH.
  - destruct H as [<-|H]; [right; now left|]. destruct (IH (y :: seen) x H) as [[<-|K]|K];
      [right; now left|now left|right; now right].
Qed.

(* what the pass returns *)
Definition reduced (g : graph) (keep : nat -> bool) (consts : list nat) : graph :=
  mkgraph (g_node g) (filter keep (g_in g)) (filter keep (g_fwd g)) (g_out g) consts (g_fresh g)
    (g_tensor g) (g_shape g).

Lemma eliminate_spec : forall g,
  (forall x p, inner g x -> In p (n_prevs (g_node g x)) -> inner g p) ->
  exists keep consts, eliminate g = Some (reduced g keep consts) /\
    (forall x, keep x = true <-> needed g [] (g_out g) x) /\
    (forall c, In c consts <-> is_const (n_kind (g_node g c)) = true /\
       exists x, In c (n_prevs (g_node g x)) /\ (In x (filter keep (g_fwd g)) \/ In x (g_out g))).
Proof.
  intros g Hin. unfold eliminate.
  destruct (detect_all_total g Hin (g_out g) []) as [act Ea].
  { intros x Hx. left. unfold universe. apply in_or_app. right. apply in_or_app. now right. }
  rewrite Ea. cbn [bind]. destruct (detect_all_spec g (g_out g) [] act Ea) as [I1 [I2 I3]]; [intros x p []|].
  exists (fun x => mem x act). eexists. split; [reflexivity|].
  assert (K : forall x, mem x act = true <-> needed g [] (g_out g) x).
  { intro x. rewrite mem_In. split.
    - apply I3.
      + intros y p Hy Hp. apply (needed_prev _ _ _ y); auto.
      + intros y [[]|Hy]. now apply needed_root.
    - induction 1 as [y Hy|y p Hy IH Hs Hp]; [apply I1; now right|]. eapply I2; eauto. }
  split; [exact K|]. intro c. split.
  - intro Hc. apply distinct_In in Hc. apply in_flat_map in Hc as [x [Hx Hc]]. apply filter_In in Hc as [Hc Hk].
    split; [exact Hk|]. exists x. split; [exact Hc|]. apply in_app_or in Hx as [Hx|Hx]; [now left|].
    right. now apply filter_In in Hx as [Hx _].
  - intros [Hk [x [Hc Hx]]].
    match goal with |- In c (distinct [] ?l) => destruct (distinct_all l [] c) as [[]|H]; [|exact H] end.
    apply in_flat_map. exists x. split; [|apply filter_In; auto]. apply in_or_app. destruct Hx as [Hx|Hx]; [now left|].
    right. apply filter_In. split; [exact Hx|]. apply K. now apply needed_root.
Qed.

(* ------------------------------------------------------------------ *)
(* The code of the reduced graph *)

Lemma NoDup_filter_app : forall (f : nat -> bool) a b c, NoDup (a ++ b ++ c) -> NoDup (filter f a ++ filter f b ++ c).
Proof.
  intros f a b c. induction a as [|x a IH]; cbn [app filter].
  - induction b as [|x b IH]; cbn [app filter]; [auto|]. intro H. inversion H as [|? ? Hx Ht]; subst.
    destruct (f x); [|auto]. cbn [app]. constructor; [|auto]. intro K. apply Hx. apply in_app_or in K as [K|K]; apply in_or_app.
    + left. now apply filter_In in K as [K _].
    + now right.
  - intro H. inversion H as [|? ? Hx Ht]; subst. destruct (f x); [|auto]. cbn [app]. constructor; [|auto].
    intro K. apply Hx. apply in_app_or in K as [K|K]; [apply in_or_app; left; now apply filter_In in K as [K _]|].
    apply in_or_app. right. apply in_app_or in K as [K|K]; apply in_or_app; [left; now apply filter_In in K as [K _]|now right].
Qed.

Lemma reduced_linked : forall g keep consts, linked g ->
  (forall x, keep x = true <-> needed g [] (g_out g) x) ->
  (forall c, In c consts -> is_const (n_kind (g_node g c)) = true /\
     exists x, In c (n_prevs (g_node g x)) /\ (In x (filter keep (g_fwd g)) \/ In x (g_out g))) ->
  linked (reduced g keep consts).
Proof.
  intros g keep consts L K C. destruct L as [R L1 L2 L3 L4 L5 L6 L7 L8 L9].
  assert (Hl : forall x, live (reduced g keep consts) x -> live g x).
  { intros x [Hx|Hx]; [left; now apply filter_In in Hx as [Hx _]|now right]. }
  assert (Hn : forall x, live (reduced g keep consts) x -> needed g [] (g_out g) x).
  { intros x [Hx|Hx]; [apply filter_In in Hx as [_ Hx]; now apply K|now apply needed_root]. }
  constructor.
  - destruct R as [R1 R2 R3 R4]. constructor.
    + now apply NoDup_filter_app.
    + intros x Hx. apply R2. auto.
    + intros x Hx. apply filter_In in Hx as [Hx _]. exact (R3 x Hx).
    + exact R4.
  - intros x Hx. apply filter_In in Hx as [Hx _]. exact (L1 x Hx).
  - exact L2.
  - intros x Hx. destruct (C x Hx) as [Hc _]. cbn. destruct (n_kind (g_node g x)); try discriminate. reflexivity.
  - intros x i p Hx Hi. destruct (L4 x i p (Hl x Hx) Hi) as [Hd H]. split; [|exact H].
    assert (Hp : keep p = true).
    { apply K. apply (needed_prev _ _ _ x); [exact (Hn x Hx)|auto|]. eapply nth_error_In; exact Hi. }
    destruct Hd as [Hd|[Hd|Hd]].
    + left. apply filter_In. auto.
    + right; left. apply filter_In. auto.
    + right; right. exact Hd.
  - intros x i p t Hx. apply L5. auto.
  - intros x [Hx|[Hx|Hx]].
    + apply L6. left. now apply filter_In in Hx as [Hx _].
    + apply L6. right; left. auto.
    + destruct (C x Hx) as [_ [y [Hy Hy']]]. apply (L7 y); [|exact Hy].
      destruct Hy' as [Hy'|Hy']; [left; now apply filter_In in Hy' as [Hy' _]|now right].
  - intros x p Hx. apply L7. auto.
  - exact L8.
  - exact L9.
Qed.

Lemma filter_comm : forall A (f h : A -> bool) l, filter f (filter h l) = filter h (filter f l).
Proof.
  induction l as [|a t IH]; cbn; [reflexivity|].
  destruct (h a) eqn:Eh, (f a) eqn:Ef; cbn; rewrite ?Ef, ?Eh, ?IH; reflexivity.
Qed.

Section Sim.
  Variable V : Type.
  Variable pick : V -> nat -> option V.
  Variable attr : nat -> option V.
  Variable sem : nat -> list V -> option V.
  Variable keep : nat -> bool.

  Definition agree (e e' : env V) : Prop := forall x, keep x = true -> e x = e' x.

  Lemma exec_keep : forall (rs : nat -> list ref) l e e' e1, agree e e' ->
    (forall x p, In x l -> keep x = true -> used_in (rs x) p -> keep p = true) ->
    exec pick attr sem (map (fun x => Assign x (rs x)) l) e = Some e1 ->
    exists e1', exec pick attr sem (map (fun x => Assign x (rs x)) (filter keep l)) e' = Some e1' /\ agree e1 e1'.
  Proof.
    intros rs. induction l as [|x l IH]; intros e e' e1 A Hk H.
    - cbn in H. injection H as <-. exists e'. split; [reflexivity|exact A].
    - cbn [map exec step] in H. destruct (traverse (read pick attr e) (rs x)) as [vs|] eqn:Ev; [|discriminate].
      cbn [bind] in H. destruct (sem x vs) as [v|] eqn:Es; [|discriminate]. cbn [bind] in H.
      cbn [filter]. destruct (keep x) eqn:Ex.
      + cbn [map exec step]. rewrite <- (reads_agree V pick attr e e' (rs x)).
        2:{ intros p Hp. apply A. apply (Hk x p); [now left|exact Ex|exact Hp]. }
        rewrite Ev. cbn [bind]. rewrite Es. cbn [bind]. apply (IH (bindv e x (Some v))); [|auto|exact H].
        * intros y Hy. unfold bindv. destruct (y =? x); [reflexivity|]. now apply A.
        * intros y p Hy. apply Hk. now right.
      + apply (IH (bindv e x (Some v))); [|auto|exact H].
        * intros y Hy. unfold bindv. destruct (Nat.eqb_spec y x) as [->|]; [congruence|]. now apply A.
        * intros y p Hy. apply Hk. now right.
  Qed.

  Lemma params_keep : forall xs vs e, params xs vs = Some e ->
    exists e', params (filter keep xs) (marked (map keep xs) vs) = Some e' /\ agree e e'.
  Proof.
    induction xs as [|x xs IH]; intros [|v vs] e H; cbn in H; try discriminate.
    - injection H as <-. exists (fun _ => None). split; [reflexivity|]. intros y _. reflexivity.
    - destruct (params xs vs) as [e0|] eqn:E; [|discriminate]. cbn in H. injection H as <-.
      destruct (IH vs e0 E) as [e' [E' A]]. cbn [filter map marked]. destruct (keep x) eqn:Ex.
      + cbn [params]. rewrite E'. cbn [bind]. eexists. split; [reflexivity|].
        intros y Hy. unfold bindv. destruct (y =? x); [reflexivity|]. now apply A.
      + exists e'. split; [exact E'|]. intros y Hy. unfold bindv.
        destruct (Nat.eqb_spec y x) as [->|]; [congruence|]. now apply A.
  Qed.
End Sim.

Lemma used_first : forall n rs p, used_in (firstn n rs) p -> used_in rs p.
Proof.
  intros n rs p [r [Hr H]]. exists r. split; [|exact H]. rewrite <- (firstn_skipn n rs). apply in_or_app. now left.
Qed.

Lemma run_reduced : forall g keep consts V pick attr sem (vs : list V) r,
  (forall x, keep x = true <-> needed g [] (g_out g) x) ->
  run pick attr sem (plain g) vs = Some r ->
  run pick attr sem (plain (reduced g keep consts)) (marked (map keep (g_in g)) vs) = Some r.
Proof.
  intros g keep consts V pick attr sem vs r K H. unfold run in *. cbn [plain p_params p_body p_ret] in *.
  destruct (params (g_in g) vs) as [e|] eqn:Ep; [|discriminate]. cbn [bind] in H.
  destruct (params_keep V keep _ _ _ Ep) as [e' [Ep' A]].
  change (g_in (reduced g keep consts)) with (filter keep (g_in g)). rewrite Ep'. cbn [bind].
  change (g_fwd (reduced g keep consts)) with (filter keep (g_fwd g)).
  change (g_out (reduced g keep consts)) with (g_out g).
  change (g_node (reduced g keep consts)) with (g_node g).
  change (refs (reduced g keep consts)) with (refs g).
  rewrite (filter_comm _ (fun x => negb (idle (g_node g x))) keep).
  destruct (exec pick attr sem (map (fun x => Assign x (refs g x)) (filter (fun x => negb (idle (g_node g x))) (g_fwd g))) e)
    as [e1|] eqn:Ee; [|discriminate]. cbn [bind] in H.
  assert (Hc : forall x p, In x (filter (fun x => negb (idle (g_node g x))) (g_fwd g)) -> keep x = true ->
            used_in (refs g x) p -> keep p = true).
  { intros x p _ Hx Hp. apply K. apply (needed_prev _ _ _ x); [now apply K|auto|now apply used_in_refs]. }
  destruct (exec_keep V pick attr sem keep (refs g) _ _ _ _ A Hc Ee) as [e1' [Ee' A']].
  rewrite Ee'. cbn [bind]. rewrite <- H. symmetry. apply traverse_ext. intros rs Hrs. apply reads_agree. intros p Hp. apply A'.
  apply in_map_iff in Hrs as [x [Hrs Hx]]. apply K. apply (needed_prev _ _ _ x); [now apply needed_root|auto|].
  apply used_in_refs. destruct (n_rev (g_node g x)); subst rs; [exact Hp|now apply used_first in Hp].
Qed.

Lemma linked_inner : forall g, linked g -> sources g ->
  forall x p, inner g x -> In p (n_prevs (g_node g x)) -> inner g p.
Proof.
  intros g L So x p Hx Hp. unfold inner, pn in *.
  destruct Hx as [Hx|Hx]; [|rewrite Hx in Hp; contradiction].
  unfold universe in *. apply in_app_or in Hx as [Hx|Hx]; [rewrite (So x) in Hp by auto; contradiction|].
  apply In_nth_error in Hp as [i Hi]. assert (Hl : live g x) by (apply in_app_or in Hx as [Hx|Hx]; [now left|now right]).
  destruct (lk_prev _ L x i p Hl Hi) as [[Hd|[Hd|Hd]] _].
  - left. apply in_or_app. now left.
  - left. apply in_or_app. right. apply in_or_app. now left.
  - right. apply So. now right.
Qed.

Theorem code_eliminate : forall g, linked g -> sources g ->
  exists h keep a b, eliminate g = Some h /\ linked h /\ sources h /\
    (forall x, keep x = true <-> needed g [] (g_out g) x) /\
    g_in h = filter keep (g_in g) /\ g_fwd h = filter keep (g_fwd g) /\ g_out h = g_out g /\
    (forall c, In c (g_const h) <-> is_const (n_kind (g_node g c)) = true /\
       exists x, In c (n_prevs (g_node g x)) /\ live h x) /\
    gen (recompute g) = Some a /\ gen (recompute h) = Some b /\
    forall V pick attr sem (vs : list V) r, run pick attr sem a vs = Some r ->
      run pick attr sem b (marked (map keep (g_in g)) vs) = Some r.
Proof.
  intros g L So. destruct (eliminate_spec g (linked_inner g L So)) as [keep [consts [E [K C]]]].
  assert (Lh : linked (reduced g keep consts)) by (apply reduced_linked; [exact L|exact K|intros c Hc; now apply C]).
  destruct (gen_recompute g (lk_rendered _ L)) as [a [Ea [_ Ra]]].
  destruct (gen_recompute _ (lk_rendered _ Lh)) as [b [Eb [_ Rb]]].
  exists (reduced g keep consts), keep, a, b. split; [exact E|]. split; [exact Lh|]. split.
  { intros x [Hx|Hx]; apply So; [left; now apply filter_In in Hx as [Hx _]|now right]. }
  split; [exact K|]. split; [reflexivity|]. split; [reflexivity|]. split; [reflexivity|].
  split; [exact C|]. split; [exact Ea|]. split; [exact Eb|].
  intros V pick attr sem vs r H. rewrite Rb. apply run_reduced; [exact K|]. now rewrite <- Ra.
Qed.
