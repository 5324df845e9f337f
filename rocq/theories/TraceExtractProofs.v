(* Proofs about the extraction of a part of a traced graph. *)
From Coq Require Import List Arith Bool Lia.
From Verif Require Import TraceSpec TraceModel TraceProofs TraceAfterProofs TraceSubSpec TraceSubModel TraceSubProofs.
Import ListNotations.

(* ------------------------------------------------------------------ *)
(* assert_is_subgraph *)

Section Origins.
  Variable g : graph.
  Variables ins outs : list nat.

  Definition loose (x : nat) : Prop :=
    ~ In x ins /\ n_prevs (g_node g x) = [] /\ n_nexts (g_node g x) <> [].

  Lemma origins_sound : forall f q vis fd r, origins g ins f q vis fd = Some r ->
    (forall x, In x q -> needed g ins outs x) ->
    forall x, In x r -> In x fd \/ needed g ins outs x /\ loose x.
  Proof.
    induction f as [|f IH]; intros [|x q] vis fd r H Hq; cbn [origins] in H; try discriminate;
      try (injection H as <-; intros y Hy; now left).
    assert (Hq' : forall y, In y q -> needed g ins outs y) by (intros y Hy; apply Hq; now right).
    destruct (mem x vis); [exact (IH _ _ _ _ H Hq')|].
    destruct (mem x ins) eqn:Es; [exact (IH _ _ _ _ H Hq')|]. apply mem_false in Es.
    destruct (n_prevs (g_node g x)) as [|p ps] eqn:Ep.
    - intros y Hy. specialize (IH _ _ _ _ H Hq' y Hy). destruct IH as [IH|IH]; [|now right].
      destruct (n_nexts (g_node g x)) as [|z zs] eqn:En; [now left|]. destruct IH as [<-|IH]; [|now left].
      right. split; [apply Hq; now left|]. split; [exact Es|]. split; [exact Ep|]. rewrite En. discriminate.
    - apply (IH _ _ _ _ H). intros y Hy. apply in_app_or in Hy as [Hy|Hy]; [now apply Hq'|].
      apply (needed_prev _ _ _ x); [apply Hq; now left|exact Es|]. rewrite Ep. exact Hy.
  Qed.

  Lemma origins_complete : forall f q vis fd r, origins g ins f q vis fd = Some r ->
    (forall x p, In x vis -> ~ In x ins -> In p (n_prevs (g_node g x)) -> In p vis \/ In p q) ->
    (forall x, In x vis -> loose x -> In x fd) ->
    exists all, (forall x, In x vis \/ In x q -> In x all) /\
      (forall x p, In x all -> ~ In x ins -> In p (n_prevs (g_node g x)) -> In p all) /\
      (forall x, In x all -> loose x -> In x r).
  Proof.
    induction f as [|f IH]; intros [|x q] vis fd r H Hc Hf; cbn [origins] in H; try discriminate;
      try (injection H as <-; exists vis; split; [intros y [Hy|[]]; exact Hy|];
           split; [intros y p Hy Hi Hp; destruct (Hc y p Hy Hi Hp) as [K|[]]; exact K|exact Hf]).
    destruct (mem x vis) eqn:Ev.
    - apply mem_In in Ev. destruct (IH _ _ _ _ H) as [all [A [B C]]].
      + intros y p Hy Hi Hp. destruct (Hc y p Hy Hi Hp) as [K|[<-|K]]; auto.
      + exact Hf.
      + exists all. split; [|auto]. intros y [Hy|[<-|Hy]]; apply A; auto.
    - destruct (mem x ins) eqn:Es.
      + apply mem_In in Es. destruct (IH _ _ _ _ H) as [all [A [B C]]].
        * intros y p [<-|Hy] Hi Hp; [contradiction|].
          destruct (Hc y p Hy Hi Hp) as [K|[<-|K]]; [left; now right|left; now left|now right].
        * intros y [<-|Hy] Hl; [destruct Hl; contradiction|auto].
        * exists all. split; [|auto]. intros y [Hy|[<-|Hy]]; apply A; [left; now right|left; now left|now right].
      + apply mem_false in Es. destruct (n_prevs (g_node g x)) as [|p0 ps] eqn:Ep.
        * destruct (IH _ _ _ _ H) as [all [A [B C]]].
          -- intros y p [<-|Hy] Hi Hp; [rewrite Ep in Hp; contradiction|].
             destruct (Hc y p Hy Hi Hp) as [K|[<-|K]]; [left; now right|left; now left|now right].
          -- intros y [<-|Hy] Hl.
             ++ destruct Hl as [_ [_ Hl]]. destruct (n_nexts (g_node g x)); [congruence|now left].
             ++ specialize (Hf y Hy Hl). destruct (n_nexts (g_node g x)); [exact Hf|now right].
          -- exists all. split; [|auto]. intros y [Hy|[<-|Hy]]; apply A; [left; now right|left; now left|now right].
        * destruct (IH _ _ _ _ H) as [all [A [B C]]].
          -- intros y p [<-|Hy] Hi Hp; [right; apply in_or_app; right; now rewrite <- Ep|].
             destruct (Hc y p Hy Hi Hp) as [K|[<-|K]]; [left; now right|left; now left|right; apply in_or_app; now left].
          -- intros y [<-|Hy] Hl; [destruct Hl as [_ [Hl _]]; congruence|auto].
          -- exists all. split; [|auto].
             intros y [Hy|[<-|Hy]]; apply A; [left; now right|left; now left|right; apply in_or_app; now left].
  Qed.

  Hypothesis Hin : forall x p, inner g x -> In p (n_prevs (g_node g x)) -> inner g p.

  Lemma origins_total : forall f q vis fd, (forall x, In x q -> inner g x) ->
    length q + load g vis (universe g) <= f -> exists r, origins g ins f q vis fd = Some r.
  Proof.
    induction f as [|f IH]; intros [|x q] vis fd Hq Hf; cbn [length] in Hf; cbn [origins]; eauto; [lia|].
    assert (Hq' : forall y, In y q -> inner g y) by (intros y Hy; apply Hq; now right).
    pose proof (load_le g x vis (universe g)) as Hle.
    destruct (mem x vis) eqn:E; [apply IH; [exact Hq'|lia]|].
    destruct (mem x ins); [apply IH; [exact Hq'|lia]|].
    pose proof (load_push g x vis E (Hq x (or_introl eq_refl))) as Hw. unfold pn in Hw.
    destruct (n_prevs (g_node g x)) as [|p ps] eqn:Ep; [apply IH; [exact Hq'|lia]|].
    apply IH.
    - intros y Hy. apply in_app_or in Hy as [Hy|Hy]; [now apply Hq'|].
      apply (Hin x); [apply Hq; now left|now rewrite Ep].
    - rewrite app_length. lia.
  Qed.

  Lemma is_subgraph_spec : (forall x, In x outs -> inner g x) -> is_subgraph g ins outs = true <-> cut_off g ins outs.
  Proof.
    intro Ho. unfold is_subgraph.
    destruct (origins_total (S (length outs + links g)) outs [] [] Ho) as [r Er].
    { pose proof (load_links g []). lia. }
    rewrite Er.
    destruct (origins_complete _ _ _ _ _ Er) as [all [A [B C]]]; [intros x p []|intros x []|].
    assert (N : forall x, needed g ins outs x -> In x all).
    { induction 1 as [x Hx|x p Hx IH Hs Hp]; [apply A; now right|]. exact (B x p IH Hs Hp). }
    split.
    - intro H. destruct r; [|discriminate]. intros x Hx Hi Hp.
      destruct (n_nexts (g_node g x)) as [|z zs] eqn:En; [reflexivity|].
      exfalso. apply (C x (N x Hx)). split; [exact Hi|]. split; [exact Hp|]. rewrite En. discriminate.
    - intro H. destruct r as [|x r]; [reflexivity|]. exfalso.
      destruct (origins_sound _ _ _ _ _ Er) with (x := x) as [[]|[Hn [L1 [L2 L3]]]].
      + intros y Hy. now apply needed_root.
      + now left.
      + apply L3. apply H; assumption.
  Qed.
End Origins.

(* ------------------------------------------------------------------ *)
(* The new inputs *)

Lemma assoc_none : forall A (l : list (nat * A)) x, ~ In x (map fst l) -> assoc l x = None.
Proof.
  induction l as [|[k v] l IH]; intros x H; cbn; [reflexivity|]. cbn in H.
  destruct (Nat.eqb_spec k x) as [->|]; [exfalso; apply H; now left|]. apply IH. auto.
Qed.

Lemma new_inputs_node : forall g x y, x < g_fresh g ->
  let ws := seq (g_fresh g) (length (n_prevt (g_node g x))) in
  (y < g_fresh g -> y <> x -> g_node (new_inputs g x) y = g_node g y) /\
  (y = x -> g_node (new_inputs g x) y = set_prevs (g_node g x) ws) /\
  (In y ws -> exists t, In t (n_prevt (g_node g x)) /\
     g_node (new_inputs g x) y = mknode KIn [] [] [] [TT t] [] 0 false).
Proof.
  intros g x y Hx ws. unfold new_inputs. rewrite upd_node. cbn [g_node].
  assert (Hd : map fst (combine ws (n_prevt (g_node g x))) = ws).
  { apply map_fst_combine. unfold ws. rewrite seq_length. lia. }
  fold ws. split; [|split].
  - intros Hy Hne. destruct (Nat.eqb_spec y x); [congruence|]. rewrite assoc_none; [reflexivity|].
    rewrite Hd. unfold ws. rewrite in_seq. lia.
  - intros ->. now rewrite Nat.eqb_refl.
  - intro Hy. assert (y <> x) by (unfold ws in Hy; rewrite in_seq in Hy; lia).
    destruct (Nat.eqb_spec y x); [congruence|].
    destruct (assoc_dom _ (combine ws (n_prevt (g_node g x))) y) as [t Et]; [now rewrite Hd|].
    rewrite Et. exists t. split; [|reflexivity]. apply assoc_In in Et. now apply in_combine_r in Et.
Qed.

Lemma fold_inputs : forall ins g, NoDup ins -> (forall x, In x ins -> x < g_fresh g) ->
  let h := fold_left new_inputs ins g in
  exists m : nat -> list nat,
    g_fwd h = g_fwd g /\ g_out h = g_out g /\ g_in h = g_in g ++ flat_map m ins /\
    g_fresh h = g_fresh g + length (flat_map m ins) /\
    flat_map m ins = seq (g_fresh g) (length (flat_map m ins)) /\
    (forall x, In x ins -> length (m x) = length (n_prevt (g_node g x)) /\
       g_node h x = set_prevs (g_node g x) (m x)) /\
    (forall y, y < g_fresh g -> ~ In y ins -> g_node h y = g_node g y) /\
    (forall w, In w (flat_map m ins) -> exists x t, In x ins /\ In t (n_prevt (g_node g x)) /\
       g_node h w = mknode KIn [] [] [] [TT t] [] 0 false).
Proof.
  induction ins as [|x ins IH]; intros g Hn Hf; cbn [fold_left].
  - exists (fun _ => []). cbn. rewrite app_nil_r, Nat.add_0_r. repeat split; auto; contradiction.
  - inversion Hn as [|? ? Hx Hn']; subst. pose proof (Hf x (or_introl eq_refl)) as Hxf.
    set (ws := seq (g_fresh g) (length (n_prevt (g_node g x)))).
    assert (Hfr : g_fresh (new_inputs g x) = g_fresh g + length (n_prevt (g_node g x)))
      by (cbn; rewrite seq_length; reflexivity).
    destruct (IH (new_inputs g x) Hn') as [m [A1 [A2 [A3 [A4 [A5 [A6 [A7 A8]]]]]]]].
    { intros y Hy. rewrite Hfr. specialize (Hf y (or_intror Hy)). lia. }
    exists (fun y => if y =? x then ws else m y).
    assert (Em : flat_map (fun y => if y =? x then ws else m y) ins = flat_map m ins).
    { clear - Hx. induction ins as [|y t IH]; [reflexivity|]. cbn [flat_map]. rewrite IH by (intro; apply Hx; now right).
      destruct (Nat.eqb_spec y x) as [->|]; [exfalso; apply Hx; now left|reflexivity]. }
    cbn [flat_map]. rewrite Nat.eqb_refl, Em, app_length.
    assert (Hws0 : length ws = length (n_prevt (g_node g x))) by (unfold ws; apply seq_length).
    assert (Hsame : forall y, In y ins -> g_node (new_inputs g x) y = g_node g y).
    { intros y Hy. apply (new_inputs_node g x y Hxf); [apply Hf; now right|]. intros ->. contradiction. }
    assert (Hws : forall w, In w ws -> ~ In w ins).
    { intros w Hw Hi. unfold ws in Hw. apply in_seq in Hw. specialize (Hf w (or_intror Hi)). lia. }
    split; [exact A1|]. split; [exact A2|]. split.
    { rewrite A3. cbn [new_inputs g_in upd]. fold ws. now rewrite <- app_assoc. }
    split; [rewrite A4, Hfr, Hws0; lia|]. split.
    { rewrite seq_app. rewrite Hws0. fold ws. rewrite <- Hfr, <- A5. reflexivity. }
    split; [|split].
    + intros y [<-|Hy].
      * rewrite Nat.eqb_refl. split; [unfold ws; now rewrite seq_length|].
        rewrite A7; [|rewrite Hfr; lia|exact Hx]. now apply (new_inputs_node g x x Hxf).
      * destruct (Nat.eqb_spec y x) as [->|Hne]; [contradiction|].
        destruct (A6 y Hy) as [B1 B2]. rewrite Hsame in B1, B2 by exact Hy. auto.
    + intros y Hy Hi. rewrite A7; [|rewrite Hfr; lia|intro; apply Hi; now right].
      apply (new_inputs_node g x y Hxf); [exact Hy|]. intros ->. apply Hi. now left.
    + intros w Hw. apply in_app_or in Hw as [Hw|Hw].
      * destruct (new_inputs_node g x w Hxf) as [_ [_ H]]. destruct (H Hw) as [t [Ht Et]].
        exists x, t. split; [now left|]. split; [exact Ht|]. rewrite A7; [exact Et| |now apply Hws].
        rewrite Hfr. unfold ws in Hw. apply in_seq in Hw. lia.
      * destruct (A8 w Hw) as [y [t [Hy [Ht Et]]]]. exists y, t. rewrite Hsame in Ht by exact Hy.
        split; [now right|auto].
Qed.

(* ------------------------------------------------------------------ *)
(* The new outputs *)

Definition tensors_of (it : item) : list nat := match it with TT t => [t] | TL ts => ts | TN _ => [] end.
Definition real (it : item) : bool := match it with TN _ => false | _ => true end.
Definition boxed (it : item) : bool := match it with TL _ => true | _ => false end.

Definition out_node (pos : nat -> list nat) (node_of : nat -> node) (w : nat) (xi : nat * item) : Prop :=
  exists nx, node_of w = mknode KOut (map (fun _ => fst xi) (tensors_of (snd xi))) nx (tensors_of (snd xi)) []
                           (map pos (tensors_of (snd xi))) 0 (boxed (snd xi)).

Lemma fold_new_output : forall owner pos x its g ws,
  (forall it t, In it its -> In t (tensors_of it) -> owner t = x) ->
  let o := fold_left (new_output owner pos) its (g, ws) in
  exists new, g_in (fst o) = g_in g /\ g_fwd (fst o) = g_fwd g /\ g_out (fst o) = g_out g ++ new /\
    g_fresh (fst o) = g_fresh g + length new /\ new = seq (g_fresh g) (length new) /\
    (forall y, y < g_fresh g -> g_node (fst o) y = g_node g y) /\
    Forall2 (out_node pos (g_node (fst o))) new (map (pair x) (filter real its)).
Proof.
  intros owner pos x. induction its as [|it its IH]; intros g ws Hown; cbn [fold_left].
  - exists []. cbn. rewrite app_nil_r, Nat.add_0_r. repeat split; auto.
  - assert (Hrec : forall it' t, In it' its -> In t (tensors_of it') -> owner t = x)
      by (intros it' t Hi; apply Hown; now right).
    destruct it as [t|ts|n].
    + cbn [new_output]. set (w := g_fresh g).
      match goal with |- context [fold_left _ its (?g1, ?ws1)] => specialize (IH g1 ws1 Hrec) end.
      cbn zeta in IH. destruct IH as [new [A1 [A2 [A3 [A4 [A5 [A6 A7]]]]]]].
      exists (w :: new). cbn [g_in g_fwd g_out g_fresh g_node] in *.
      split; [exact A1|]. split; [exact A2|]. split; [rewrite A3, <- app_assoc; reflexivity|].
      split; [rewrite A4; cbn [length]; lia|]. split; [cbn [length seq]; f_equal; exact A5|]. split.
      * intros y Hy. rewrite A6 by lia. destruct (Nat.eqb_spec y w); [unfold w in *; lia|reflexivity].
      * cbn [filter real map]. constructor; [|exact A7]. exists []. rewrite A6 by (unfold w; lia).
        rewrite Nat.eqb_refl. cbn. rewrite (Hown (TT t) t); [reflexivity|now left|now left].
    + cbn [new_output]. set (w := g_fresh g).
      match goal with |- context [fold_left _ its (?g1, ?ws1)] => specialize (IH g1 ws1 Hrec) end.
      cbn zeta in IH. destruct IH as [new [A1 [A2 [A3 [A4 [A5 [A6 A7]]]]]]].
      exists (w :: new). cbn [g_in g_fwd g_out g_fresh g_node] in *.
      split; [exact A1|]. split; [exact A2|]. split; [rewrite A3, <- app_assoc; reflexivity|].
      split; [rewrite A4; cbn [length]; lia|]. split; [cbn [length seq]; f_equal; exact A5|]. split.
      * intros y Hy. rewrite A6 by lia. destruct (Nat.eqb_spec y w); [unfold w in *; lia|reflexivity].
      * cbn [filter real map]. constructor; [|exact A7]. exists []. rewrite A6 by (unfold w; lia).
        rewrite Nat.eqb_refl. cbn [tensors_of snd fst boxed].
        rewrite (map_ext_in owner (fun _ => x) ts); [reflexivity|].
        intros t Ht. apply (Hown (TL ts) t); [now left|exact Ht].
    + cbn [new_output]. specialize (IH g ws Hrec). cbn zeta in IH. cbn [filter real]. exact IH.
Qed.

Lemma Forall2_weaken : forall A B (P P' : A -> B -> Prop) l m,
  (forall a b, In a l -> P a b -> P' a b) -> Forall2 P l m -> Forall2 P' l m.
Proof. intros A B P P' l m H F. induction F; constructor; [apply H; [now left|assumption]|]. apply IHF. intros; apply H; [now right|assumption]. Qed.

Definition items (g : graph) (x : nat) : list (nat * item) := map (pair x) (filter real (n_nextt (g_node g x))).

Lemma fold_outputs : forall taken pos outs g,
  (forall x, In x outs -> x < g_fresh g) ->
  (forall x t, In x outs -> In t (produced (g_node g x)) -> dict_get taken t = None) ->
  let h := fold_left (new_outputs taken pos) outs g in
  exists new, g_in h = g_in g /\ g_fwd h = g_fwd g /\ g_out h = g_out g ++ new /\
    g_fresh h = g_fresh g + length new /\ new = seq (g_fresh g) (length new) /\
    (forall y, y < g_fresh g -> exists nx, g_node h y = set_nexts (g_node g y) nx) /\
    Forall2 (out_node pos (g_node h)) new (flat_map (items g) outs).
Proof.
  intros taken pos. induction outs as [|x outs IH]; intros g Hf Ht; cbn [fold_left].
  - exists []. cbn. rewrite app_nil_r, Nat.add_0_r. repeat split; auto.
    intros y _. exists (n_nexts (g_node g y)). now destruct (g_node g y).
  - pose proof (Hf x (or_introl eq_refl)) as Hxf.
    set (owner := fun t => match dict_get taken t with Some i => i | None => x end).
    destruct (fold_new_output owner pos x (n_nextt (g_node g x)) g []) as [n1 [A1 [A2 [A3 [A4 [A5 [A6 A7]]]]]]].
    { intros it t Hi Hit. unfold owner. rewrite (Ht x t); [reflexivity|now left|].
      unfold produced. apply in_flat_map. exists it. split; [exact Hi|]. destruct it; exact Hit. }
    destruct (fold_left (new_output owner pos) (n_nextt (g_node g x)) (g, [])) as [g' ws] eqn:Eo.
    cbn [fst] in *. set (g1 := upd g' x (set_nexts (g_node g' x) ws)).
    replace (new_outputs taken pos g x) with g1
      by (unfold new_outputs; fold owner; rewrite Eo; reflexivity).
    assert (Hsame : forall y, y < g_fresh g -> exists nx, g_node g1 y = set_nexts (g_node g y) nx).
    { intros y Hy. unfold g1. rewrite upd_node. destruct (Nat.eqb_spec y x) as [->|].
      - exists ws. now rewrite A6.
      - exists (n_nexts (g_node g y)). rewrite A6 by exact Hy. now destruct (g_node g y). }
    assert (Hnt : forall y, y < g_fresh g -> n_nextt (g_node g1 y) = n_nextt (g_node g y)).
    { intros y Hy. destruct (Hsame y Hy) as [nx ->]. reflexivity. }
    destruct (IH g1) as [n2 [B1 [B2 [B3 [B4 [B5 [B6 B7]]]]]]].
    { intros y Hy. unfold g1. cbn [g_fresh upd]. rewrite A4. specialize (Hf y (or_intror Hy)). lia. }
    { intros y t Hy Hp. apply (Ht y t); [now right|]. unfold produced in *. now rewrite Hnt in Hp by (apply Hf; now right). }
    assert (Hg1 : g_fresh g1 = g_fresh g + length n1) by (unfold g1; cbn [g_fresh upd]; exact A4).
    exists (n1 ++ n2). cbn zeta.
    split; [rewrite B1; exact A1|]. split; [rewrite B2; exact A2|].
    split; [rewrite B3; unfold g1 at 1; cbn [g_out upd]; now rewrite A3, app_assoc|].
    split; [rewrite B4, Hg1, app_length; lia|]. split.
    { rewrite app_length, seq_app, <- A5, <- Hg1, <- B5. reflexivity. }
    split.
    + intros y Hy. destruct (B6 y) as [nx E]; [rewrite Hg1; lia|]. destruct (Hsame y Hy) as [nx' E'].
      exists nx. rewrite E, E'. reflexivity.
    + cbn [flat_map]. apply Forall2_app.
      * refine (Forall2_weaken _ _ _ _ _ _ _ A7). intros w xi Hw Hon. destruct Hon as [n0 Hon].
        rewrite A5 in Hw. apply in_seq in Hw. destruct (B6 w) as [nx E]; [rewrite Hg1; lia|].
        assert (E2 : g_node g1 w = g_node g' w).
        { unfold g1. rewrite upd_node. destruct (Nat.eqb_spec w x); [lia|reflexivity]. }
        exists nx. rewrite E, E2, Hon. reflexivity.
      * replace (flat_map (items g) outs) with (flat_map (items g1) outs); [exact B7|].
        clear - Hnt Hf. induction outs as [|y t IH]; [reflexivity|]. cbn [flat_map]. f_equal.
        -- unfold items. rewrite Hnt; [reflexivity|]. apply Hf. right. now left.
        -- apply IH. intros z [<-|Hz]; apply Hf; [now left|right; now right].
Qed.

(* ------------------------------------------------------------------ *)
(* Environments that only grow *)

Section Grow.
  Variable V : Type.
  Variable pick : V -> nat -> option V.
  Variable attr : nat -> option V.
  Variable sem : nat -> list V -> option V.
  Variable rs : nat -> list ref.

  Definition below (e e' : env V) : Prop := forall y v, e y = Some v -> e' y = Some v.

  Lemma read_below : forall e e' r v, below e e' -> read pick attr e r = Some v -> read pick attr e' r = Some v.
  Proof.
    intros e e' [s n i] v B H. unfold read in *. cbn [r_self r_name r_idx] in *. destruct s; [exact H|].
    destruct (e n) as [u|] eqn:E; [|discriminate]. now rewrite (B n u E).
  Qed.

  Lemma reads_below : forall e e' l vs, below e e' ->
    traverse (read pick attr e) l = Some vs -> traverse (read pick attr e') l = Some vs.
  Proof.
    intros e e' l. induction l as [|r l IH]; intros vs B H; [exact H|]. cbn [traverse] in *.
    destruct (read pick attr e r) as [v|] eqn:E; [|discriminate]. cbn [bind] in H.
    destruct (traverse (read pick attr e) l) as [vs0|] eqn:E2; [|discriminate]. cbn [bind] in H.
    rewrite (read_below _ _ _ _ B E). cbn [bind]. rewrite (IH vs0 B eq_refl). exact H.
  Qed.

  Lemma below_bind : forall e x v, e x = None -> below e (bindv e x (Some v)).
  Proof. intros e x v H y u Hy. unfold bindv. destruct (Nat.eqb_spec y x) as [->|]; [congruence|exact Hy]. Qed.

  Definition body (l : list nat) : list stmt := map (fun x => Assign x (rs x)) l.

  Lemma exec_below : forall l e e1, NoDup l -> (forall x, In x l -> e x = None) ->
    exec pick attr sem (body l) e = Some e1 -> below e e1.
  Proof.
    induction l as [|x l IH]; intros e e1 Hn Hu H; cbn in H; [injection H as <-; intros y v Hy; exact Hy|].
    inversion Hn as [|? ? Hx Hn']; subst.
    destruct (traverse (read pick attr e) (rs x)) as [vs|]; [|discriminate]. cbn [bind] in H.
    destruct (sem x vs) as [v|]; [|discriminate]. cbn [bind] in H.
    assert (Hu' : forall z, In z l -> bindv e x (Some v) z = None).
    { intros z Hz. unfold bindv. destruct (Nat.eqb_spec z x) as [->|]; [contradiction|apply Hu; now right]. }
    intros y u Hy. apply (IH _ _ Hn' Hu' H). apply below_bind; [apply Hu; now left|exact Hy].
  Qed.

  Lemma exec_reads : forall l e e1, NoDup l -> (forall x, In x l -> e x = None) ->
    exec pick attr sem (body l) e = Some e1 ->
    forall x, In x l -> exists vs, traverse (read pick attr e1) (rs x) = Some vs.
  Proof.
    induction l as [|x l IH]; intros e e1 Hn Hu H y Hy; [contradiction|].
    pose proof (exec_below _ _ _ Hn Hu H) as B. cbn in H. inversion Hn as [|? ? Hx Hn']; subst.
    destruct (traverse (read pick attr e) (rs x)) as [vs|] eqn:E; [|discriminate]. cbn [bind] in H.
    destruct Hy as [<-|Hy]; [exists vs; now apply (reads_below e)|].
    destruct (sem x vs) as [v|]; [|discriminate]. cbn [bind] in H.
    refine (IH _ _ Hn' _ H y Hy).
    intros z Hz. unfold bindv. destruct (Nat.eqb_spec z x) as [->|]; [contradiction|apply Hu; now right].
  Qed.

  Lemma params_unbound : forall xs vs e, params (V := V) xs vs = Some e -> forall y, ~ In y xs -> e y = None.
  Proof.
    induction xs as [|x xs IH]; intros [|v vs] e H y Hy; cbn in H; try discriminate; [injection H as <-; reflexivity|].
    destruct (params xs vs) as [e0|] eqn:E; [|discriminate]. cbn in H. injection H as <-.
    unfold bindv. destruct (Nat.eqb_spec y x) as [->|]; [exfalso; apply Hy; now left|].
    apply (IH vs e0 E). intro. apply Hy. now right.
  Qed.

  Lemma params_reads : forall (l : list (nat * ref)) e args, NoDup (map fst l) ->
    traverse (read pick attr e) (map snd l) = Some args ->
    exists e0, params (map fst l) args = Some e0 /\
      (forall w r, In (w, r) l -> e0 w = read pick attr e r).
  Proof.
    induction l as [|[w r] l IH]; intros e args Hn H; cbn [map fst snd traverse] in *.
    - injection H as <-. eexists. split; [reflexivity|]. intros ? ? [].
    - inversion Hn as [|? ? Hx Hn']; subst.
      destruct (read pick attr e r) as [v|] eqn:Er; [|discriminate]. cbn [bind] in H.
      destruct (traverse (read pick attr e) (map snd l)) as [vs|] eqn:E; [|discriminate]. cbn [bind] in H.
      injection H as <-. destruct (IH e vs Hn' E) as [e0 [E0 R0]]. cbn [params]. rewrite E0. cbn [bind].
      eexists. split; [reflexivity|]. intros w' r' [H|H].
      + injection H as <- <-. unfold bindv. now rewrite Nat.eqb_refl.
      + unfold bindv. destruct (Nat.eqb_spec w' w) as [->|]; [|now apply R0].
        exfalso. apply Hx. apply in_map_iff. exists (w, r'). auto.
  Qed.
End Grow.

Lemma traverse_pair : forall A B C (f : A -> option C) (k : B -> option C) (l : list (A * B)),
  (forall a b, In (a, b) l -> f a = k b) -> traverse f (map fst l) = traverse k (map snd l).
Proof.
  induction l as [|[a b] l IH]; intro H; [reflexivity|]. cbn [map fst snd traverse].
  rewrite (H a b) by (now left). rewrite IH; [reflexivity|]. intros a' b' Hi. apply H. now right.
Qed.

Lemma traverse_flat : forall A B C (f : B -> option C) (k : A -> list B) l,
  (forall a, In a l -> exists vs, traverse f (k a) = Some vs) -> exists vs, traverse f (flat_map k l) = Some vs.
Proof.
  intros A B C f k l H. apply traverse_ok. intros b Hb. apply in_flat_map in Hb as [a [Ha Hb]].
  destruct (H a Ha) as [vs Hv]. clear - Hb Hv. revert vs Hv. induction (k a) as [|x t IH]; intros vs Hv; [contradiction|].
  cbn [traverse] in Hv. destruct (f x) as [c|] eqn:E; [|discriminate]. cbn [bind] in Hv.
  destruct (traverse f t) as [cs|] eqn:E2; [|discriminate]. destruct Hb as [<-|Hb]; eauto.
Qed.

Lemma nodup_flat : forall (m : nat -> list nat) l x y w, NoDup (flat_map m l) ->
  In x l -> In y l -> In w (m x) -> In w (m y) -> x = y.
Proof.
  intros m. induction l as [|z l IH]; intros x y w Hn Hx Hy Hwx Hwy; [contradiction|]. cbn [flat_map] in Hn.
  assert (Hno : forall u, In w (m z) -> In u l -> In w (m u) -> False).
  { intros u Hz Hu Hw. clear - Hn Hz Hu Hw. induction (m z) as [|a t IH]; [contradiction|].
    cbn [app] in Hn. inversion Hn as [|? ? Ha Hn']; subst. destruct Hz as [->|Hz]; [|auto].
    apply Ha. apply in_or_app. right. apply in_flat_map. eauto. }
  destruct Hx as [<-|Hx], Hy as [<-|Hy]; [reflexivity| | |].
  - exfalso. eauto.
  - exfalso. eauto.
  - apply (IH x y w); auto. clear - Hn. induction (m z) as [|a t IH]; [exact Hn|]. inversion Hn; auto.
Qed.

(* ------------------------------------------------------------------ *)
(* The extracted graph *)

Section Extract.
  Variable g : graph.
  Variables ins outs : list nat.
  Variable pos : nat -> list nat.
  Hypothesis L : linked g.
  Hypothesis So : sources g.
  Hypothesis Hnd : NoDup ins.
  Hypothesis Hins : forall x, In x ins -> In x (g_fwd g) /\ ~ In x outs /\ plain_call (g_node g x).
  Hypothesis Houts : forall x, In x outs -> In x (g_fwd g) /\ produced (g_node g x) <> [] /\
    ~ In (TL []) (n_nextt (g_node g x)) /\
    forall t i, In t (produced (g_node g x)) -> In i ins -> ~ In t (n_prevt (g_node g i)).
  Hypothesis Hcut : cut_off g ins outs.

  Let g0 : graph := mkgraph (g_node g) [] (g_fwd g) [] (g_const g) (g_fresh g) (g_tensor g) (g_shape g).
  Let g1 : graph := fold_left new_inputs ins g0.
  Let g2 : graph := fold_left (new_outputs (taken_over g1) pos) outs g1.

  (* what is known of the graph before dead nodes are removed *)
  Definition shape_of (h : graph) (m : nat -> list nat) (new : list nat) : Prop :=
    g_in h = flat_map m ins /\ g_fwd h = g_fwd g /\ g_out h = new /\
    NoDup (flat_map m ins ++ g_fwd g ++ new) /\
    (forall x, In x ins -> length (m x) = length (n_prevt (g_node g x))) /\
    (forall w, In w (flat_map m ins) \/ In w new -> g_fresh g <= w) /\
    (forall x, In x ins -> exists nx, g_node h x = set_nexts (set_prevs (g_node g x) (m x)) nx) /\
    (forall y, y < g_fresh g -> ~ In y ins -> exists nx, g_node h y = set_nexts (g_node g y) nx) /\
    (forall w, In w (flat_map m ins) -> n_prevs (g_node h w) = [] /\ n_kind (g_node h w) = KIn) /\
    Forall2 (out_node pos (g_node h)) new (flat_map (items g) outs).

  Lemma ex_fwd_fresh : forall x, In x (g_fwd g) -> x < g_fresh g.
  Proof. intros x Hx. apply (lk_fresh _ L). right; left. now left. Qed.

  Lemma ex_shape : exists m new, shape_of g2 m new.
  Proof.
    destruct (fold_inputs ins g0 Hnd) as [m [A1 [A2 [A3 [A4 [A5 [A6 [A7 A8]]]]]]]].
    { intros x Hx. apply ex_fwd_fresh. now apply Hins. }
    fold g1 in A1, A2, A3, A4, A6, A7, A8. cbn [g0 g_in g_fwd g_out g_fresh g_node] in A1, A2, A3, A4, A5, A6, A7, A8.
    cbn [app] in A3.
    assert (Hnode : forall x, x < g_fresh g -> n_nextt (g_node g1 x) = n_nextt (g_node g x)).
    { intros x Hx. destruct (in_dec Nat.eq_dec x ins) as [Hi|Hi].
      - destruct (A6 x Hi) as [_ ->]. reflexivity.
      - now rewrite A7. }
    destruct (fold_outputs (taken_over g1) pos outs g1) as [new [B1 [B2 [B3 [B4 [B5 [B6 B7]]]]]]].
    { intros x Hx. rewrite A4. destruct (Houts x Hx) as [Hf _]. pose proof (ex_fwd_fresh x Hf). lia. }
    { intros x t Hx Ht. destruct (Houts x Hx) as [Hf [_ [_ Hno]]].
      unfold produced in Ht. rewrite Hnode in Ht by (now apply ex_fwd_fresh). fold (produced (g_node g x)) in Ht.
      apply dict_none. intro Hd. apply in_map_iff in Hd as [[t' i] [E Hd]]. cbn in E. subst t'.
      unfold taken_over in Hd. apply in_flat_map in Hd as [w [Hw Hd]]. rewrite A3 in Hw.
      destruct (A8 w Hw) as [y [t0 [Hy [Ht0 En]]]]. rewrite En in Hd. cbn in Hd. destruct Hd as [Hd|[]].
      injection Hd as -> _. exact (Hno t y Ht Hy Ht0). }
    fold g2 in B1, B2, B3, B4, B6, B7. rewrite A2 in B3. cbn [app] in B3.
    assert (Hw : forall w, In w (flat_map m ins) -> g_fresh g <= w < g_fresh g1).
    { intros w Hw. rewrite A5 in Hw. apply in_seq in Hw. lia. }
    assert (Hn : forall w, In w new -> g_fresh g1 <= w).
    { intros w Hw'. rewrite B5 in Hw'. apply in_seq in Hw'. lia. }
    exists m, new. unfold shape_of. split; [congruence|]. split; [congruence|]. split; [exact B3|]. split.
    { pose proof (rd_nodup _ (lk_rendered _ L)) as Hn0.
      assert (Hn1 : NoDup (g_fwd g)).
      { clear - Hn0. induction (g_in g) as [|a t IH]; cbn [app] in Hn0.
        - clear - Hn0. induction (g_fwd g) as [|a t IH]; [constructor|]. cbn [app] in Hn0.
          inversion Hn0 as [|? ? Ha Ht]; subst. constructor; [|auto]. intro. apply Ha. apply in_or_app. now left.
        - inversion Hn0; auto. }
      assert (Happ : forall a b : list nat, NoDup a -> NoDup b -> (forall x, In x a -> ~ In x b) -> NoDup (a ++ b)).
      { clear. induction a as [|x a IH]; intros b Ha Hb Hd; [exact Hb|]. inversion Ha as [|? ? Hx Ha']; subst.
        cbn [app]. constructor.
        - intro H. apply in_app_or in H as [H|H]; [contradiction|]. exact (Hd x (or_introl eq_refl) H).
        - apply IH; auto. intros y Hy. apply Hd. now right. }
      apply Happ; [rewrite A5; apply seq_NoDup| |].
      - apply Happ; [exact Hn1|rewrite B5; apply seq_NoDup|].
        intros x Hx Hx'. specialize (Hn x Hx'). apply ex_fwd_fresh in Hx. lia.
      - intros x Hx Hx'. specialize (Hw x Hx). apply in_app_or in Hx' as [Hx'|Hx'];
          [apply ex_fwd_fresh in Hx'; lia|specialize (Hn x Hx'); lia]. }
    split; [intros x Hx; now apply A6|]. split.
    { intros w [Hw'|Hw']; [apply Hw in Hw'; lia|apply Hn in Hw'; lia]. }
    split; [|split; [|split]].
    - intros x Hx. destruct (A6 x Hx) as [_ E]. destruct (B6 x) as [nx E'].
      { destruct (Hins x Hx) as [Hf _]. apply ex_fwd_fresh in Hf. lia. }
      exists nx. now rewrite E', E.
    - intros y Hy Hi. destruct (B6 y) as [nx E']; [lia|]. exists nx. now rewrite E', A7.
    - intros w Hw'. destruct (B6 w) as [nx E']; [now apply Hw|]. destruct (A8 w Hw') as [x [t [_ [_ E]]]].
      rewrite E', E. split; reflexivity.
    - replace (flat_map (items g) outs) with (flat_map (items g1) outs); [exact B7|].
      clear - Hnode Houts L. induction outs as [|y t IH]; [reflexivity|]. cbn [flat_map]. f_equal.
      + unfold items. rewrite Hnode; [reflexivity|]. destruct (Houts y (or_introl eq_refl)) as [Hf _]. now apply ex_fwd_fresh.
      + apply IH. intros z Hz. apply Houts. now right.
  Qed.
End Extract.

Lemma Forall2_in : forall A B (P : A -> B -> Prop) l m, Forall2 P l m ->
  forall b, In b m -> exists a, In a l /\ P a b.
Proof.
  intros A B P l m F. induction F as [|a b l m H F IH]; intros c Hc; [contradiction|].
  destruct Hc as [<-|Hc]; [exists a; split; [now left|exact H]|].
  destruct (IH c Hc) as [a' [H1 H2]]. exists a'. split; [now right|exact H2].
Qed.
Lemma Forall2_in_l : forall A B (P : A -> B -> Prop) l m, Forall2 P l m ->
  forall a, In a l -> exists b, In b m /\ P a b.
Proof.
  intros A B P l m F. induction F as [|a b l m H F IH]; intros c Hc; [contradiction|].
  destruct Hc as [<-|Hc]; [exists b; split; [now left|exact H]|].
  destruct (IH c Hc) as [a' [H1 H2]]. exists a'. split; [now right|exact H2].
Qed.

Lemma groups_items : forall g pos outs,
  map (fun xi => map (fun t => mkref false (fst xi) (pos t)) (tensors_of (snd xi))) (flat_map (items g) outs) =
  flat_map (fun x => groups pos x (g_node g x)) outs.
Proof.
  intros g pos. induction outs as [|x t IH]; [reflexivity|]. cbn [flat_map]. rewrite map_app, IH. f_equal.
  unfold items, groups. induction (n_nextt (g_node g x)) as [|it l IHl]; [reflexivity|].
  destruct it; cbn [filter real map flat_map app]; rewrite ?IHl; reflexivity.
Qed.

Section Inside.
  Variable g : graph.
  Variables ins outs : list nat.
  Variable pos : nat -> list nat.
  Hypothesis L : linked g.
  Hypothesis So : sources g.
  Hypothesis Hins : forall x, In x ins -> In x (g_fwd g) /\ ~ In x outs /\ plain_call (g_node g x).
  Hypothesis Houts : forall x, In x outs -> In x (g_fwd g) /\ produced (g_node g x) <> [] /\
    ~ In (TL []) (n_nextt (g_node g x)).
  Hypothesis Hcut : cut_off g ins outs.
  Variable h : graph.
  Variable m : nat -> list nat.
  Variable new : list nat.
  Hypothesis Hs : shape_of g ins outs pos h m new.

  Lemma in_fwd_fresh : forall x, In x (g_fwd g) -> x < g_fresh g.
  Proof. intros x Hx. apply (lk_fresh _ L). right; left. now left. Qed.

  Lemma in_node_in : forall x, In x ins -> exists nx, g_node h x = set_nexts (set_prevs (g_node g x) (m x)) nx.
  Proof. apply Hs. Qed.
  Lemma in_node : forall y, y < g_fresh g -> ~ In y ins -> exists nx, g_node h y = set_nexts (g_node g y) nx.
  Proof. apply Hs. Qed.

  Lemma in_kind : forall y, y < g_fresh g -> n_kind (g_node h y) = n_kind (g_node g y).
  Proof.
    intros y Hy. destruct (in_dec Nat.eq_dec y ins) as [Hi|Hi].
    - destruct (in_node_in y Hi) as [nx ->]. reflexivity.
    - destruct (in_node y Hy Hi) as [nx ->]. reflexivity.
  Qed.

  Lemma in_idle : forall y, y < g_fresh g -> idle (g_node h y) = idle (g_node g y).
  Proof.
    intros y Hy. destruct (in_dec Nat.eq_dec y ins) as [Hi|Hi].
    - destruct (in_node_in y Hi) as [nx ->]. reflexivity.
    - destruct (in_node y Hy Hi) as [nx ->]. reflexivity.
  Qed.

  Lemma in_prevs : forall y, y < g_fresh g -> ~ In y ins -> n_prevs (g_node h y) = n_prevs (g_node g y).
  Proof. intros y Hy Hi. destruct (in_node y Hy Hi) as [nx ->]. reflexivity. Qed.
  Lemma in_prevs_in : forall y, In y ins -> n_prevs (g_node h y) = m y.
  Proof. intros y Hi. destruct (in_node_in y Hi) as [nx ->]. reflexivity. Qed.

  (* an output node *)
  Lemma in_out : forall w, In w new -> exists x it, In x outs /\ In it (n_nextt (g_node g x)) /\ real it = true /\
    out_node pos (g_node h) w (x, it).
  Proof.
    intros w Hw. assert (F : Forall2 (out_node pos (g_node h)) new (flat_map (items g) outs)) by apply Hs.
    destruct (Forall2_in_l _ _ _ _ _ F w Hw) as [[x it] [Hi Ho]].
    apply in_flat_map in Hi as [x' [Hx Hi]]. unfold items in Hi. apply in_map_iff in Hi as [it' [E Hi]].
    injection E as -> ->. apply filter_In in Hi as [Hi Hr]. exists x, it. auto.
  Qed.

  Lemma in_out_of : forall x, In x outs -> exists w, In w new /\ In x (n_prevs (g_node h w)).
  Proof.
    intros x Hx. destruct (Houts x Hx) as [_ [Hp Hl]].
    assert (F : Forall2 (out_node pos (g_node h)) new (flat_map (items g) outs)) by apply Hs.
    assert (Hit : exists it, In it (n_nextt (g_node g x)) /\ real it = true /\ tensors_of it <> []).
    { unfold produced in Hp. clear - Hp Hl. induction (n_nextt (g_node g x)) as [|it t IH]; [cbn in Hp; congruence|].
      destruct it as [u|ts|n].
      - exists (TT u). split; [now left|]. split; [reflexivity|discriminate].
      - exists (TL ts). split; [now left|]. split; [reflexivity|]. intro E. cbn in E. subst ts. apply Hl. now left.
      - destruct IH as [it [H1 H2]]; [exact Hp|intro; apply Hl; now right|]. exists it. split; [now right|exact H2]. }
    destruct Hit as [it [Hi [Hr Ht]]].
    destruct (Forall2_in _ _ _ _ _ F (x, it)) as [w [Hw [nx Ho]]].
    { apply in_flat_map. exists x. split; [exact Hx|]. unfold items. apply in_map. apply filter_In. auto. }
    exists w. split; [exact Hw|]. rewrite Ho. cbn [n_prevs fst snd]. destruct (tensors_of it); [congruence|now left].
  Qed.

  Lemma in_fresh_w : forall w, In w (flat_map m ins) \/ In w new -> g_fresh g <= w.
  Proof. apply Hs. Qed.

  Lemma in_defined : forall x, needed g ins outs x -> defined g x.
  Proof.
    induction 1 as [x Hx|x p Hx IH Hi Hp]; [right; left; now apply Houts|].
    destruct IH as [H|[H|H]].
    - rewrite (So x) in Hp by auto. contradiction.
    - apply In_nth_error in Hp as [i Hi']. now apply (lk_prev _ L x i p (or_introl H)) in Hi'.
    - rewrite (So x) in Hp by auto. contradiction.
  Qed.

  (* what is needed is made by nodes of the graph *)
  Lemma in_fwd : forall x, needed g ins outs x -> In x (g_fwd g).
  Proof.
    intros x Hx. pose proof Hx as Hx'. destruct Hx' as [x Ho|x p Hx' Hi Hp]; [now apply Houts|].
    assert (Hf : In x (g_fwd g)).
    { destruct (in_defined x Hx') as [H|[H|H]]; [|exact H|]; rewrite (So x) in Hp by auto; contradiction. }
    pose proof Hp as Hp'. apply In_nth_error in Hp' as [i Hi'].
    destruct (lk_prev _ L x i p (or_introl Hf) Hi') as [Hd [Hn _]].
    assert (Hbad : n_prevs (g_node g p) = [] -> ~ In p ins -> False).
    { intros E Hni. rewrite (Hcut p Hx Hni E) in Hn. contradiction. }
    destruct (in_dec Nat.eq_dec p ins) as [Hpi|Hpi]; [now apply Hins|].
    destruct Hd as [H|[H|H]]; [|exact H|]; exfalso; apply Hbad; auto.
  Qed.

  Lemma in_prev_fresh : forall x p, In x (g_fwd g) -> In p (n_prevs (g_node g x)) -> p < g_fresh g.
  Proof. intros x p Hx. apply (lk_fresh_prev _ L). now left. Qed.

  Lemma in_needed_fwd : forall y, needed h [] new y ->
    In y new \/ (y < g_fresh g /\ needed g ins outs y) \/ (exists x, In x ins /\ needed g ins outs x /\ In y (m x)).
  Proof.
    induction 1 as [y Hy|y p Hy IH _ Hp]; [now left|].
    destruct IH as [IH|[[Hf IH]|[x [Hx [Hn Hw]]]]].
    - destruct (in_out y IH) as [x [it [Hx [_ [_ [nx Ho]]]]]]. rewrite Ho in Hp. cbn [n_prevs fst snd] in Hp.
      apply in_map_iff in Hp as [t [<- _]]. right; left. split; [|now apply needed_root].
      apply in_fwd_fresh. now apply Houts.
    - destruct (in_dec Nat.eq_dec y ins) as [Hi|Hi].
      + rewrite in_prevs_in in Hp by exact Hi. right; right. exists y. auto.
      + rewrite in_prevs in Hp by assumption. right; left. split.
        * apply (in_prev_fresh y); [now apply in_fwd|exact Hp].
        * exact (needed_prev _ _ _ y p IH Hi Hp).
    - assert (Hk : forall w, In w (flat_map m ins) -> n_prevs (g_node h w) = [] /\ n_kind (g_node h w) = KIn) by apply Hs.
      destruct (Hk y) as [E _]; [apply in_flat_map; eauto|]. rewrite E in Hp. contradiction.
  Qed.

  Lemma in_needed_bwd : forall y, needed g ins outs y -> needed h [] new y.
  Proof.
    induction 1 as [x Hx|x p Hx IH Hi Hp].
    - destruct (in_out_of x Hx) as [w [Hw Hp]]. apply (needed_prev _ _ _ w); [now apply needed_root|auto|exact Hp].
    - apply (needed_prev _ _ _ x); [exact IH|auto|]. rewrite in_prevs; [exact Hp| |exact Hi].
      apply in_fwd_fresh. now apply in_fwd.
  Qed.

  Lemma in_inner : forall x p, inner h x -> In p (n_prevs (g_node h x)) -> inner h p.
  Proof.
    assert (E1 : g_in h = flat_map m ins) by apply Hs. assert (E2 : g_fwd h = g_fwd g) by apply Hs.
    assert (E3 : g_out h = new) by apply Hs.
    assert (Hk : forall w, In w (flat_map m ins) -> n_prevs (g_node h w) = [] /\ n_kind (g_node h w) = KIn) by apply Hs.
    intros x p Hx Hp. unfold inner, pn, universe in *. rewrite E1, E2, E3 in *.
    destruct Hx as [Hx|Hx]; [|rewrite Hx in Hp; contradiction].
    apply in_app_or in Hx as [Hx|Hx]; [destruct (Hk x Hx) as [E _]; rewrite E in Hp; contradiction|].
    apply in_app_or in Hx as [Hx|Hx].
    - destruct (in_dec Nat.eq_dec x ins) as [Hi|Hi].
      + rewrite in_prevs_in in Hp by exact Hi. left. apply in_or_app. left. apply in_flat_map. eauto.
      + rewrite in_prevs in Hp by (auto; now apply in_fwd_fresh).
        pose proof Hp as Hp'. apply In_nth_error in Hp' as [i Hi']. pose proof (in_prev_fresh x p Hx Hp) as Hpf.
        destruct (in_dec Nat.eq_dec p ins) as [Hpi|Hpi].
        * left. apply in_or_app. right. apply in_or_app. left. now apply Hins.
        * rewrite (in_prevs p Hpf Hpi).
          destruct (lk_prev _ L x i p (or_introl Hx) Hi') as [[Hd|[Hd|Hd]] _].
          -- right. apply So. auto.
          -- left. apply in_or_app. right. apply in_or_app. now left.
          -- right. apply So. auto.
    - destruct (in_out x Hx) as [y [it [Hy [_ [_ [nx Ho]]]]]]. rewrite Ho in Hp. cbn [n_prevs fst snd] in Hp.
      apply in_map_iff in Hp as [t [<- _]]. left. apply in_or_app. right. apply in_or_app. left. now apply Houts.
  Qed.

  (* the arguments *)
  Lemma in_refs : forall x, In x (g_fwd g) -> ~ In x ins -> refs h x = refs g x.
  Proof.
    intros x Hx Hi. destruct (in_node x (in_fwd_fresh x Hx) Hi) as [nx E]. unfold refs. rewrite E.
    cbn [set_nexts n_prevs n_previ]. apply map_ext_in. intros [p i] Hp. cbn [fst snd].
    rewrite in_kind; [reflexivity|]. apply (in_prev_fresh x); [exact Hx|]. now apply in_combine_l in Hp.
  Qed.

  Lemma combine_const : forall (l : list nat) (k : list nat), length l = length k ->
    combine l (map (fun _ : nat => @nil nat) k) = map (fun w => (w, [])) l.
  Proof. induction l as [|x l IH]; intros [|y k] H; cbn in *; try discriminate; [reflexivity|]. now rewrite IH by lia. Qed.

  Lemma in_refs_in : forall x, In x ins -> refs h x = map (fun w => mkref false w []) (m x).
  Proof.
    intros x Hx. destruct (in_node_in x Hx) as [nx E]. destruct (Hins x Hx) as [_ [_ [_ [_ Hp]]]].
    assert (Hl : length (m x) = length (n_prevt (g_node g x))) by (now apply Hs).
    unfold refs. rewrite E. cbn [set_nexts set_prevs n_prevs n_previ]. rewrite Hp, combine_const by exact Hl.
    rewrite map_map. apply map_ext_in. intros w Hw. cbn [fst snd].
    assert (Hk : forall w, In w (flat_map m ins) -> n_prevs (g_node h w) = [] /\ n_kind (g_node h w) = KIn) by apply Hs.
    destruct (Hk w) as [_ ->]; [apply in_flat_map; eauto|]. reflexivity.
  Qed.

  Lemma in_ret : map (fun w => if n_rev (g_node h w) then refs h w else firstn 1 (refs h w)) new =
    flat_map (fun x => groups pos x (g_node g x)) outs.
  Proof.
    assert (F : Forall2 (out_node pos (g_node h)) new (flat_map (items g) outs)) by apply Hs.
    assert (G : map (fun w => if n_rev (g_node h w) then refs h w else firstn 1 (refs h w)) new =
                map (fun xi => map (fun t => mkref false (fst xi) (pos t)) (tensors_of (snd xi))) (flat_map (items g) outs)).
    { assert (Hin : forall x it, In (x, it) (flat_map (items g) outs) -> real it = true /\ In x outs).
      { intros x it Hi. apply in_flat_map in Hi as [x' [Hx Hi]]. unfold items in Hi.
        apply in_map_iff in Hi as [it' [E Hi]]. injection E as -> ->. apply filter_In in Hi as [_ Hi]. auto. }
      assert (HK : forall x, In x outs -> is_const (n_kind (g_node h x)) = false).
      { intros x Hx. destruct (Houts x Hx) as [Hf _]. rewrite in_kind by (now apply in_fwd_fresh).
        pose proof (rd_fwd _ (lk_rendered _ L) x Hf) as Hr. destruct (n_kind (g_node g x)); try contradiction; reflexivity. }
      clear Hs. induction F as [|w [x it] l1 l2 [nx Ho] F IH]; [reflexivity|]. cbn [map]. f_equal.
      - destruct (Hin x it (or_introl eq_refl)) as [Hr Hx]. unfold refs. rewrite Ho. cbn [n_rev n_prevs n_previ fst snd].
        pose proof (HK x Hx) as Hk.
        assert (Ec : map (fun pi => mkref (is_const (n_kind (g_node h (fst pi)))) (fst pi) (snd pi))
                       (combine (map (fun _ : nat => x) (tensors_of it)) (map pos (tensors_of it))) =
                     map (fun t => mkref false x (pos t)) (tensors_of it)).
        { induction (tensors_of it) as [|t ts IHt]; [reflexivity|]. cbn [map combine fst snd]. now rewrite Hk, IHt. }
        rewrite Ec. destruct it; [reflexivity|reflexivity|discriminate].
      - apply IH. intros y it' Hi. apply Hin. now right. }
    rewrite G. apply groups_items.
  Qed.

  Variable keep : nat -> bool.
  Variable consts : list nat.
  Hypothesis K : forall x, keep x = true <-> needed h [] (g_out h) x.

  Lemma in_E : g_in h = flat_map m ins /\ g_fwd h = g_fwd g /\ g_out h = new.
  Proof. split; [|split]; apply Hs. Qed.

  Lemma in_keep : forall x, x < g_fresh g -> keep x = true <-> needed g ins outs x.
  Proof.
    intros x Hx. rewrite K. destruct in_E as [_ [_ ->]]. split; [|apply in_needed_bwd].
    intro H. destruct (in_needed_fwd x H) as [Hn|[[_ Hn]|[y [Hy [_ Hw]]]]]; [|exact Hn|].
    - pose proof (in_fresh_w x (or_intror Hn)). lia.
    - assert (Hf : In x (flat_map m ins)) by (apply in_flat_map; eauto).
      pose proof (in_fresh_w x (or_introl Hf)). lia.
  Qed.

  Lemma in_nodup_m : NoDup (flat_map m ins).
  Proof.
    assert (H : NoDup (flat_map m ins ++ g_fwd g ++ new)) by apply Hs.
    induction (flat_map m ins) as [|a t IH]; [constructor|]. cbn [app] in H. inversion H as [|? ? Ha Ht]; subst.
    constructor; [|auto]. intro. apply Ha. apply in_or_app. now left.
  Qed.

  Lemma in_keep_w : forall x w, In x ins -> In w (m x) -> keep w = keep x.
  Proof.
    intros x w Hx Hw. assert (Hf : In w (flat_map m ins)) by (apply in_flat_map; eauto).
    pose proof (in_fresh_w w (or_introl Hf)) as Hfr.
    assert (Hxf : x < g_fresh g) by (apply in_fwd_fresh; now apply Hins).
    destruct (keep x) eqn:Ex.
    - apply K. apply (needed_prev _ _ _ x); [now apply K|auto|]. now rewrite in_prevs_in.
    - destruct (keep w) eqn:Ew; [|reflexivity]. exfalso. apply K in Ew. destruct in_E as [_ [_ E3]]. rewrite E3 in Ew.
      destruct (in_needed_fwd w Ew) as [Hn|[[Hn _]|[y [Hy [Hn Hwy]]]]].
      + assert (H : NoDup (flat_map m ins ++ g_fwd g ++ new)) by apply Hs.
        apply in_split in Hf as [l1 [l2 Hf]]. rewrite Hf in H. rewrite <- app_assoc in H. cbn [app] in H.
        apply NoDup_remove_2 in H. apply H. apply in_or_app. right. apply in_or_app. right. apply in_or_app. now right.
      + lia.
      + rewrite (nodup_flat m ins x y w in_nodup_m Hx Hy Hw Hwy) in Ex.
        apply in_keep in Hn; [congruence|]. apply in_fwd_fresh. now apply Hins.
  Qed.

  Lemma in_params : filter keep (flat_map m ins) = flat_map m (filter keep ins).
  Proof.
    assert (H : forall l, incl l ins -> filter keep (flat_map m l) = flat_map m (filter keep l)).
    { induction l as [|x l IH]; intro Hl; [reflexivity|]. cbn [flat_map filter]. rewrite filter_app.
      rewrite IH by (intros y Hy; apply Hl; now right).
      assert (Hx : In x ins) by (apply Hl; now left).
      assert (Hm : filter keep (m x) = if keep x then m x else []).
      { assert (Hw : forall w, In w (m x) -> keep w = keep x) by (intros w Hw; now apply in_keep_w).
        induction (m x) as [|w t IHt]; [destruct (keep x); reflexivity|]. cbn [filter].
        rewrite (Hw w (or_introl eq_refl)), IHt by (intros u Hu; apply Hw; now right). now destruct (keep x). }
      rewrite Hm. destruct (keep x); reflexivity. }
    apply H. intros x Hx. exact Hx.
  Qed.

  Lemma in_rendered : rendered (reduced h keep consts).
  Proof.
    destruct in_E as [E1 [E2 E3]]. pose proof (lk_rendered _ L) as R. constructor.
    - cbn [reduced g_in g_fwd g_out]. apply NoDup_filter_app. rewrite E1, E2, E3. apply Hs.
    - intros x [Hx|Hx]; cbn [reduced g_fwd g_out g_node] in *.
      + apply filter_In in Hx as [Hx _]. rewrite E2 in Hx. destruct (in_dec Nat.eq_dec x ins) as [Hi|Hi].
        * destruct (in_node_in x Hi) as [nx ->]. cbn [set_nexts set_prevs n_prevs n_previ].
          destruct (Hins x Hi) as [_ [_ [_ [_ ->]]]]. rewrite map_length.
          assert (Hl : length (m x) = length (n_prevt (g_node g x))) by (now apply Hs). lia.
        * destruct (in_node x (in_fwd_fresh x Hx) Hi) as [nx ->]. cbn [set_nexts n_prevs n_previ].
          apply (rd_align _ R). now left.
      + rewrite E3 in Hx. destruct (in_out x Hx) as [y [it [_ [_ [_ [nx Ho]]]]]]. rewrite Ho. cbn [n_prevs n_previ].
        rewrite !map_length. lia.
    - intros x Hx. cbn [reduced g_fwd g_node] in *. change (refs (reduced h keep consts)) with (refs h).
      apply filter_In in Hx as [Hx _]. rewrite E2 in Hx.
      rewrite in_kind by (now apply in_fwd_fresh). destruct (in_dec Nat.eq_dec x ins) as [Hi|Hi].
      + destruct (Hins x Hi) as [_ [_ [-> _]]]. exact I.
      + rewrite in_refs by assumption. exact (rd_fwd _ R x Hx).
    - intros x Hx. cbn [reduced g_out g_node] in *. rewrite E3 in Hx.
      destruct (in_out x Hx) as [y [it [Hy [Hi [Hr [nx Ho]]]]]]. rewrite Ho. cbn [n_prevs fst snd].
      destruct it as [t|ts|n]; [discriminate| |discriminate]. cbn [tensors_of]. destruct ts; [|discriminate].
      exfalso. now apply (Houts y Hy).
  Qed.

  (* the run *)
  Section Values.
    Variable V : Type.
    Variable pick : V -> nat -> option V.
    Variable attr : nat -> option V.
    Variable sem : nat -> list V -> option V.
    Variable e1 : env V.

    (* which new input stands for which argument *)
    Definition stands : list (nat * ref) :=
      flat_map (fun x => combine (m x) (refs g x)) (filter keep ins).

    Lemma in_len : forall x, In x ins -> length (m x) = length (refs g x).
    Proof.
      intros x Hx. destruct (Hins x Hx) as [Hf [_ [_ [Hl Hp]]]].
      assert (Hm : length (m x) = length (n_prevt (g_node g x))) by (now apply Hs).
      unfold refs. rewrite map_length, combine_length, Hp, map_length. lia.
    Qed.

    Lemma stands_both : forall l, incl l ins ->
      map fst (flat_map (fun x => combine (m x) (refs g x)) l) = flat_map m l /\
      map snd (flat_map (fun x => combine (m x) (refs g x)) l) = flat_map (refs g) l.
    Proof.
      induction l as [|x l IH]; intro Hl; [split; reflexivity|]. cbn [flat_map]. rewrite !map_app.
      destruct IH as [I1 I2]; [intros y Hy; apply Hl; now right|]. rewrite I1, I2.
      pose proof (in_len x (Hl x (or_introl eq_refl))) as Hx.
      rewrite map_fst_combine, map_snd_combine by lia. split; reflexivity.
    Qed.

    Definition mirrors (e e' : env V) : Prop :=
      (forall x, In x (g_fwd g) -> keep x = true -> e' x = e x) /\
      (forall w r, In (w, r) stands -> e' w = read pick attr e1 r).

    Lemma in_exec : forall l e e', NoDup l -> incl l (g_fwd g) -> (forall x, In x l -> e x = None) ->
      mirrors e e' ->
      exec pick attr sem (body (refs g) l) e = Some e1 ->
      exists e1', exec pick attr sem (body (refs h) (filter keep l)) e' = Some e1' /\ mirrors e1 e1'.
    Proof.
      induction l as [|x l IH]; intros e e' Hn Hl Hu M H.
      - cbn in H. injection H as <-. exists e'. split; [reflexivity|exact M].
      - pose proof (exec_below V pick attr sem (refs g) _ _ _ Hn Hu H) as B.
        cbn [body map exec step] in H. inversion Hn as [|? ? Hx Hn']; subst.
        assert (Hxf : In x (g_fwd g)) by (apply Hl; now left).
        destruct (traverse (read pick attr e) (refs g x)) as [vs|] eqn:Ev; [|discriminate]. cbn [bind] in H.
        destruct (sem x vs) as [v|] eqn:Es; [|discriminate]. cbn [bind] in H.
        assert (Hu' : forall z, In z l -> bindv e x (Some v) z = None).
        { intros z Hz. unfold bindv. destruct (Nat.eqb_spec z x) as [->|]; [contradiction|apply Hu; now right]. }
        assert (Hl' : incl l (g_fwd g)) by (intros y Hy; apply Hl; now right).
        cbn [filter]. destruct (keep x) eqn:Ex.
        + cbn [body map exec step].
          assert (Er : traverse (read pick attr e') (refs h x) = Some vs).
          { destruct (in_dec Nat.eq_dec x ins) as [Hi|Hi].
            - rewrite in_refs_in by exact Hi. rewrite <- (reads_below V pick attr e e1 (refs g x) vs B Ev).
              pose proof (in_len x Hi) as Hlen.
              rewrite <- (map_fst_combine _ _ (m x) (refs g x)) by lia. rewrite map_map.
              rewrite <- (map_snd_combine _ _ (m x) (refs g x)) at 2 by lia.
              transitivity (traverse (read pick attr e') (map fst (map (fun wr => (mkref false (fst wr) [], snd wr)) (combine (m x) (refs g x))))).
              { f_equal. rewrite map_map. reflexivity. }
              rewrite (traverse_pair _ _ _ _ (read pick attr e1)).
              + f_equal. rewrite map_map. reflexivity.
              + intros a b Hab. apply in_map_iff in Hab as [[w r] [E Hwr]]. cbn [fst snd] in E. injection E as <- <-.
                unfold read at 1. cbn [r_self r_name r_idx picks].
                assert (Hst : e' w = read pick attr e1 r).
                { destruct M as [_ M]. apply M. apply in_flat_map. exists x. split; [apply filter_In; auto|exact Hwr]. }
                rewrite Hst. destruct (read pick attr e1 r); reflexivity.
            - rewrite in_refs by assumption. rewrite <- Ev. apply reads_agree. intros p Hp. destruct M as [M _].
              assert (Hnx : needed g ins outs x) by (apply in_keep; [now apply in_fwd_fresh|exact Ex]).
              assert (Hnp : needed g ins outs p).
              { apply (needed_prev _ _ _ x); [exact Hnx|exact Hi|now apply used_in_refs]. }
              apply M; [now apply in_fwd|]. apply in_keep; [apply in_fwd_fresh; now apply in_fwd|exact Hnp]. }
          rewrite Er. cbn [bind]. rewrite Es. cbn [bind].
          apply (IH (bindv e x (Some v))); auto. destruct M as [M1 M2]. split.
          * intros y Hy Hk. unfold bindv. destruct (y =? x); [reflexivity|]. now apply M1.
          * intros w r Hw. unfold bindv. destruct (Nat.eqb_spec w x) as [->|]; [|now apply M2].
            exfalso. apply in_flat_map in Hw as [y [Hy Hw]]. apply filter_In in Hy as [Hy _].
            apply in_combine_l in Hw. assert (Hf : In x (flat_map m ins)) by (apply in_flat_map; eauto).
            pose proof (in_fresh_w x (or_introl Hf)). apply in_fwd_fresh in Hxf. lia.
        + apply (IH (bindv e x (Some v))); auto. destruct M as [M1 M2]. split; [|exact M2].
          intros y Hy Hk. unfold bindv. destruct (Nat.eqb_spec y x) as [->|]; [congruence|]. now apply M1.
    Qed.

    Lemma in_run : forall vs e0, params (g_in g) vs = Some e0 ->
      exec pick attr sem (p_body (plain g)) e0 = Some e1 ->
      exists args, traverse (read pick attr e1) (flat_map (refs g) (filter keep ins)) = Some args /\
        run pick attr sem (plain (reduced h keep consts)) args =
        traverse (traverse (read pick attr e1)) (flat_map (fun x => groups pos x (g_node g x)) outs).
    Proof.
      intros vs e0 Hp He. destruct in_E as [E1 [E2 E3]].
      set (l := filter (fun x => negb (idle (g_node g x))) (g_fwd g)).
      assert (He' : exec pick attr sem (body (refs g) l) e0 = Some e1) by exact He.
      pose proof (rd_nodup _ (lk_rendered _ L)) as Hn0.
      assert (Hn1 : NoDup l /\ forall x, In x (g_fwd g) -> ~ In x (g_in g)).
      { split.
        - unfold l. apply NoDup_filter. clear - Hn0. induction (g_in g) as [|a t IH]; cbn [app] in Hn0.
          + induction (g_fwd g) as [|a t IH]; [constructor|]. cbn [app] in Hn0.
            inversion Hn0 as [|? ? Ha Ht]; subst. constructor; [|auto]. intro. apply Ha. apply in_or_app. now left.
          + inversion Hn0; auto.
        - intros x Hx Hi. apply in_split in Hi as [l1 [l2 Hi]]. rewrite Hi in Hn0. rewrite <- app_assoc in Hn0.
          cbn [app] in Hn0. apply NoDup_remove_2 in Hn0. apply Hn0. apply in_or_app. right. apply in_or_app. right.
          apply in_or_app. now left. }
      destruct Hn1 as [Hn1 Hn2].
      assert (Hlf : incl l (g_fwd g)) by (intros x Hx; now apply filter_In in Hx as [Hx _]).
      assert (Hun : forall x, In x (g_fwd g) -> e0 x = None).
      { intros x Hx. apply (params_unbound V _ _ _ Hp). now apply Hn2. }
      assert (Hargs : exists args, traverse (read pick attr e1) (flat_map (refs g) (filter keep ins)) = Some args).
      { apply traverse_flat. intros x Hx. apply filter_In in Hx as [Hx _].
        destruct (Hins x Hx) as [Hf [_ [Hk [Hl Hpi]]]]. destruct (idle (g_node g x)) eqn:Ei.
        - assert (Hr : refs g x = []).
          { unfold idle in Ei. rewrite Hk in Ei. destruct (n_prevt (g_node g x)) eqn:Et; [|discriminate].
            unfold refs. destruct (n_prevs (g_node g x)); [reflexivity|cbn in Hl; lia]. }
          rewrite Hr. cbn. eauto.
        - apply (exec_reads V pick attr sem (refs g) l e0 e1 Hn1); [intros y Hy; apply Hun; now apply Hlf|exact He'|].
          unfold l. apply filter_In. split; [exact Hf|]. now rewrite Ei. }
      destruct Hargs as [args Ha]. exists args. split; [exact Ha|].
      destruct (stands_both (filter keep ins)) as [S1 S2]; [intros x Hx; now apply filter_In in Hx as [Hx _]|].
      fold stands in S1, S2. rewrite <- S2 in Ha.
      assert (Hnf : NoDup (map fst stands)).
      { rewrite S1, <- in_params. apply NoDup_filter. apply in_nodup_m. }
      destruct (params_reads V pick attr stands e1 args Hnf Ha) as [e0' [Ep' Hr']].
      assert (M : mirrors e0 e0').
      { split; [|exact Hr']. intros x Hx _. rewrite (Hun x Hx). apply (params_unbound V _ _ _ Ep').
        rewrite S1, <- in_params. intro Hf. apply filter_In in Hf as [Hf _].
        pose proof (in_fresh_w x (or_introl Hf)). apply in_fwd_fresh in Hx. lia. }
      destruct (in_exec l e0 e0' Hn1 Hlf) as [e1' [Ee' M']]; [intros x Hx; apply Hun; now apply Hlf|exact M|exact He'|].
      unfold run. cbn [plain p_params p_body p_ret reduced g_in g_fwd g_out g_node].
      change (refs (reduced h keep consts)) with (refs h).
      rewrite E1, E2, E3, in_params, <- S1, Ep'. cbn [bind].
      replace (filter (fun x => negb (idle (g_node h x))) (filter keep (g_fwd g))) with (filter keep l).
      2:{ unfold l. rewrite filter_comm. apply filter_ext_in. intros x Hx. apply filter_In in Hx as [Hx _].
          now rewrite in_idle by (now apply in_fwd_fresh). }
      fold (body (refs h) (filter keep l)). rewrite Ee'. cbn [bind].
      rewrite in_ret. apply traverse_ext. intros rs Hrs. apply reads_agree. intros p [r [Hr [_ Hnm]]].
      apply in_flat_map in Hrs as [x [Hx Hrs]]. unfold groups in Hrs. apply in_flat_map in Hrs as [it [_ Hrs]].
      assert (Hpx : p = x).
      { destruct it as [t|ts|n]; cbn in Hrs; [destruct Hrs as [<-|[]]|destruct Hrs as [<-|[]]|contradiction].
        - destruct Hr as [<-|[]]. now rewrite <- Hnm.
        - apply in_map_iff in Hr as [t [<- _]]. now rewrite <- Hnm. }
      rewrite Hpx. destruct M' as [M1 _]. apply M1; [now apply Houts|].
      apply in_keep; [apply in_fwd_fresh; now apply Houts|now apply needed_root].
    Qed.
  End Values.
End Inside.

Theorem code_extract : forall g ins outs pos, linked g -> sources g -> NoDup ins ->
  (forall x, In x ins -> In x (g_fwd g) /\ ~ In x outs /\ plain_call (g_node g x)) ->
  (forall x, In x outs -> In x (g_fwd g) /\ produced (g_node g x) <> [] /\ ~ In (TL []) (n_nextt (g_node g x)) /\
    forall t i, In t (produced (g_node g x)) -> In i ins -> ~ In t (n_prevt (g_node g i))) ->
  cut_off g ins outs ->
  exists h keep b, extract g ins outs pos = Some h /\
    (forall x, keep x = true <-> needed g ins outs x) /\ g_fwd h = filter keep (g_fwd g) /\
    gen (recompute h) = Some b /\
    forall V pick attr sem (vs : list V) e0 e1, params (g_in g) vs = Some e0 ->
      exec pick attr sem (p_body (plain g)) e0 = Some e1 ->
      exists args, traverse (read pick attr e1) (flat_map (refs g) (filter keep ins)) = Some args /\
        run pick attr sem b args =
        traverse (traverse (read pick attr e1)) (flat_map (fun x => groups pos x (g_node g x)) outs).
Proof.
  intros g ins outs pos L So Hnd Hins Houts Hcut.
  assert (Houts' : forall x, In x outs -> In x (g_fwd g) /\ produced (g_node g x) <> [] /\ ~ In (TL []) (n_nextt (g_node g x))).
  { intros x Hx. destruct (Houts x Hx) as [H1 [H2 [H3 _]]]. auto. }
  destruct (ex_shape g ins outs pos L Hnd Hins Houts) as [m [new Hs]].
  match type of Hs with shape_of _ _ _ _ ?x _ _ => set (h := x) in * end.
  destruct (eliminate_spec h) as [keep [consts [E [K _]]]].
  { exact (in_inner g ins outs pos L So Hins Houts' h m new Hs). }
  pose proof (in_keep g ins outs pos L So Hins Houts' Hcut h m new Hs keep K) as Hkeep.
  assert (Hnf : forall x, needed g ins outs x -> x < g_fresh g).
  { intros x Hx. apply (lk_fresh _ L). right; left; left. exact (in_fwd g ins outs L So Hins Houts' Hcut x Hx). }
  pose proof (in_rendered g ins outs pos L Hins Houts' h m new Hs keep consts) as R.
  destruct (gen_recompute _ R) as [b [Eb [_ Rb]]].
  exists (reduced h keep consts), (fun x => keep x && (x <? g_fresh g)), b.
  assert (Hfw : g_fwd h = g_fwd g) by apply Hs.
  assert (Hff : forall x, In x (g_fwd g) -> keep x && (x <? g_fresh g) = keep x).
  { intros x Hx. assert (Hx' : x < g_fresh g) by (apply (lk_fresh _ L); right; left; now left).
    apply Nat.ltb_lt in Hx'. rewrite Hx'. apply andb_true_r. }
  split.
  { unfold extract.
    replace (existsb (fun x => mem x outs) ins) with false.
    2:{ symmetry. destruct (existsb (fun x => mem x outs) ins) eqn:Ex; [|reflexivity].
        apply existsb_exists in Ex as [x [Hx Hm]]. apply mem_In in Hm. exfalso. now apply (Hins x Hx). }
    replace (forallb (fun x => mem x (g_fwd g)) (ins ++ outs)) with true.
    2:{ symmetry. apply forallb_forall. intros x Hx. apply mem_In. apply in_app_or in Hx as [Hx|Hx]; [now apply Hins|now apply Houts]. }
    replace (is_subgraph g ins outs) with true.
    2:{ symmetry. apply (is_subgraph_spec g ins outs (linked_inner g L So)); [|exact Hcut].
        intros x Hx. left. apply in_or_app. right. apply in_or_app. left. now apply Houts. }
    cbn [orb negb]. exact E. }
  split.
  { intro x. rewrite andb_true_iff, Nat.ltb_lt. split.
    - intros [Hk Hx]. now apply Hkeep.
    - intro Hx. pose proof (Hnf x Hx) as Hf. split; [now apply Hkeep|exact Hf]. }
  split.
  { cbn [reduced g_fwd]. rewrite Hfw. apply filter_ext_in. intros x Hx. symmetry. now apply Hff. }
  split; [exact Eb|].
  intros V pick attr sem vs e0 e1 Hp He.
  replace (filter (fun x => keep x && (x <? g_fresh g)) ins) with (filter keep ins).
  2:{ apply filter_ext_in. intros x Hx. symmetry. apply Hff. now apply Hins. }
  destruct (in_run g ins outs pos L So Hins Houts' Hcut h m new Hs keep consts K V pick attr sem e1 vs e0 Hp He)
    as [args [Ha Hr]]. exists args. split; [exact Ha|]. now rewrite Rb.
Qed.

(* a graph that is not cut off is rejected *)
Theorem extract_rejected : forall g ins outs pos, linked g -> sources g ->
  (forall x, In x outs -> In x (g_fwd g)) -> ~ cut_off g ins outs -> extract g ins outs pos = None.
Proof.
  intros g ins outs pos L So Ho Hc. unfold extract.
  destruct (is_subgraph g ins outs) eqn:E.
  - exfalso. apply Hc. apply (is_subgraph_spec g ins outs (linked_inner g L So)); [|exact E].
    intros x Hx. left. apply in_or_app. right. apply in_or_app. left. now apply Ho.
  - cbn [negb]. now rewrite orb_true_r.
Qed.
