(* Properties of the removal of dead nodes and of the extraction of a part of the traced graph. *)
From Coq Require Import List Arith Bool.
From Verif Require Import TraceSpec TraceModel TraceSubSpec TraceSubModel TraceSubProofs TraceExtractProofs TraceExample
  TraceInsertExample TraceInsertRefuted TraceSubExample.
Import ListNotations.

(* ------------------------------------------------------------------ C106 *)

Theorem C106_dead_nodes : forall g, linked g -> sources g ->
  exists h keep a b, eliminate g = Some h /\ linked h /\ sources h /\
    (forall x, keep x = true <-> needed g [] (g_out g) x) /\
    g_in h = filter keep (g_in g) /\ g_fwd h = filter keep (g_fwd g) /\ g_out h = g_out g /\
    (forall c, In c (g_const h) <-> is_const (n_kind (g_node g c)) = true /\
       exists x, In c (n_prevs (g_node g x)) /\ live h x) /\
    gen (recompute g) = Some a /\ gen (recompute h) = Some b /\
    forall V pick attr sem (vs : list V) r, run pick attr sem a vs = Some r ->
      run pick attr sem b (marked (map keep (g_in g)) vs) = Some r.
Proof. exact code_eliminate. Qed.
Print Assumptions C106_dead_nodes.

(* an input, a constant and an addition are dead *)
Example C106_dead_nodes_example :
  linked wasteful /\ sources wasteful /\
  option_map (fun h => (g_in h, g_fwd h, g_out h, g_const h)) (eliminate wasteful) = Some ([0], [2; 5], [6], []) /\
  (forall h b, eliminate wasteful = Some h -> gen (recompute h) = Some b ->
     run sub_tree weight call (code wasteful) [Leaf 1; Leaf 2] = Some [[Tree 5 [Tree 2 [Leaf 1]]]] /\
     run sub_tree weight call b [Leaf 1] = Some [[Tree 5 [Tree 2 [Leaf 1]]]]).
Proof.
  split; [exact wasteful_linked|]. split; [exact wasteful_sources|]. split; [reflexivity|].
  intros h b Hh Hb. vm_compute in Hh. injection Hh as <-. vm_compute in Hb. injection Hb as <-.
  split; vm_compute; reflexivity.
Qed.

(* ------------------------------------------------------------------ C107 *)

Theorem C107_extracted_partial : forall g ins outs pos, linked g -> sources g -> NoDup ins ->
  (forall x, In x ins -> In x (g_fwd g) /\ ~ In x outs /\ plain_call (g_node g x)) ->
  (forall x, In x outs -> In x (g_fwd g) /\ produced (g_node g x) <> [] /\ ~ In (TL []) (n_nextt (g_node g x)) /\
    forall t i, In t (produced (g_node g x)) -> In i ins -> ~ In t (n_prevt (g_node g i))) ->
  cut_off g ins outs ->
  exists h keep b, extract g ins outs pos = Some h /\
    (forall x, keep x = true <-> needed g ins outs x) /\ g_fwd h = filter keep (g_fwd g) /\
    gen (recompute h) = Some b /\
    forall V pick attr sem (vs : list V) e0 e1, params (g_in g) vs = Some e0 ->
      exec pick attr sem (p_body (plain g)) e0 = Some e1 ->
      exists args, traverse (read pick attr e1) (flat_map (refs g) (filter keep ins)) = Some args /\
        run pick attr sem b args =
        traverse (traverse (read pick attr e1)) (flat_map (fun x => groups pos x (g_node g x)) outs).
Proof. exact code_extract. Qed.
Print Assumptions C107_extracted_partial.

(* s = b(r); y = c(s) + s of y = d(c(s) + s) *)
Example C107_extracted_example :
  linked residual /\ sources residual /\ plain_call (g_node residual 2) /\
  (forall t, In t (produced (g_node residual 4)) -> ~ In t (n_prevt (g_node residual 2))) /\
  cut_off residual [2] [4] /\
  (forall h, extract residual [2] [4] whole = Some h ->
     gen (recompute h) = Some (mkprog [7]
       [Assign 2 [mkref false 7 []]; Release 7; Assign 3 [mkref false 2 []];
        Assign 4 [mkref false 3 []; mkref false 2 []]; Release 3; Release 2] [[mkref false 4 []]])).
Proof.
  split; [exact residual_linked|]. split; [exact residual_sources|]. split; [repeat split|]. split.
  - intros t [<-|[]] [H|[]]. discriminate.
  - split.
    + intros x Hx Hi Hp. apply (needed_within residual [2] [4] [2; 3; 4]) in Hx; [|reflexivity|reflexivity].
      destruct Hx as [<-|[<-|[<-|[]]]]; discriminate.
    + intros h H. vm_compute in H. injection H as <-. vm_compute. reflexivity.
Qed.

Theorem C107_rejected : forall g ins outs pos, linked g -> sources g ->
  (forall x, In x outs -> In x (g_fwd g)) -> ~ cut_off g ins outs -> extract g ins outs pos = None.
Proof. exact extract_rejected. Qed.
Print Assumptions C107_rejected.

(* the addition of [residual] without one of its operands *)
Example C107_rejected_example :
  (forall x, In x [4] -> In x (g_fwd residual)) /\ ~ cut_off residual [3] [4] /\
  extract residual [3] [4] whole = None.
Proof.
  split; [intros x [<-|[]]; cbn; tauto|]. split; [|reflexivity].
  intro H. specialize (H 0). cbn in H. enough (K : [1] = @nil nat) by discriminate. apply H.
  - apply (needed_prev _ _ _ 1); [|intros [K|[]]; discriminate|now left].
    apply (needed_prev _ _ _ 2); [|intros [K|[]]; discriminate|now left].
    apply (needed_prev _ _ _ 4); [now apply needed_root; left|intros [K|[]]; discriminate|cbn; tauto].
  - intros [K|[]]. discriminate.
  - reflexivity.
Qed.

Theorem C107_function_first_refuted : exists g ins outs h b, linked g /\ sources g /\ NoDup ins /\ cut_off g ins outs /\
  (forall x, In x (ins ++ outs) -> In x (g_fwd g)) /\
  extract g ins outs whole = Some h /\ gen (recompute h) = Some b /\
  forall V pick attr (sem : nat -> list V -> option V) args, run pick attr sem b args = None.
Proof. exact function_first. Qed.
Print Assumptions C107_function_first_refuted.

Theorem C107_part_first_refuted : exists g ins outs h b, linked g /\ sources g /\ NoDup ins /\ cut_off g ins outs /\
  (forall x, In x ins -> n_kind (g_node g x) = KMod) /\
  extract g ins outs whole = Some h /\ gen (recompute h) = Some b /\
  exists v e0 e1 args, params (g_in g) [v] = Some e0 /\
    exec sub_tree weight (splits (g_fresh g)) (p_body (plain g)) e0 = Some e1 /\
    traverse (read sub_tree weight e1) (flat_map (refs g) ins) = Some args /\
    length args = length (p_params b) /\
    traverse (traverse (read sub_tree weight e1)) (flat_map (fun x => groups whole x (g_node g x)) outs) <> None /\
    run sub_tree weight (splits (g_fresh g)) b args = None.
Proof. exact part_first. Qed.
Print Assumptions C107_part_first_refuted.

Theorem C107_taken_result_refuted : exists g ins outs x h b, linked g /\ sources g /\ NoDup ins /\ cut_off g ins outs /\
  (forall y, In y ins -> ~ In y outs /\ plain_call (g_node g y)) /\
  In x outs /\ In x (g_fwd g) /\ extract g ins outs whole = Some h /\ ~ In x (g_fwd h) /\
  gen (recompute h) = Some b /\
  forall V pick attr (sem : nat -> list V -> option V) v r, run pick attr sem b [v] = Some r -> nth_error r 0 = Some [v].
Proof. exact taken_result. Qed.
Print Assumptions C107_taken_result_refuted.

Theorem C107_constant_refuted : exists g ins outs, linked g /\ sources g /\
  (forall x, In x ins -> In x (g_fwd g) /\ ~ In x outs /\ plain_call (g_node g x)) /\
  (forall x, In x outs -> In x (g_fwd g)) /\
  (forall x, needed g ins outs x -> In x (g_fwd g) \/ In x (g_const g)) /\
  forall pos, extract g ins outs pos = None.
Proof. exact constant_inside. Qed.
Print Assumptions C107_constant_refuted.
