(* Properties of the code the tracer generates and of the edits of its graph. *)
From Coq Require Import List Arith Bool.
From Verif Require Import TraceSpec TraceModel TraceProofs TraceAfterProofs TraceRemoveProofs TraceExample.
Import ListNotations.

(* ------------------------------------------------------------------ C103 *)

Theorem C103_generated_code : forall g, rendered g ->
  exists p, gen (recompute g) = Some p /\ unreleased p = plain g /\
    forall V pick attr (sem : nat -> list V -> option V) vs,
      run pick attr sem p vs = run pick attr sem (plain g) vs.
Proof. exact gen_recompute. Qed.
Print Assumptions C103_generated_code.

Example C103_code_of_small : rendered small /\
  gen (recompute small) = Some (mkprog [0]
    [Assign 1 [mkref false 0 []];
     Assign 2 [mkref false 1 [0]; mkref false 1 [1]]; Release 1;
     Assign 3 [mkref false 2 []]; Release 2;
     Assign 5 [mkref false 3 []]; Release 3;
     Assign 6 [mkref false 5 []; mkref true 4 []; mkref false 0 []]; Release 5; Release 0]
    [[mkref false 6 []]]).
Proof. split; [exact (lk_rendered _ small_linked)|reflexivity]. Qed.

(* without recomputing the order a released name is read *)
Theorem C103_stale_order_refuted : exists g p vs, linked g /\ gen g = Some p /\
  run sub_tree weight (fun x vs => Some (Tree x (vs ++ vs))) (plain g) vs <> None /\
  run sub_tree weight (fun x vs => Some (Tree x (vs ++ vs))) p vs = None.
Proof.
  exists small. eexists. exists [Leaf 1]. split; [exact small_linked|]. split; [reflexivity|].
  split; [discriminate|reflexivity].
Qed.
Print Assumptions C103_stale_order_refuted.

(* ------------------------------------------------------------------ C104 *)

Theorem C104_insert_after_forward : forall g x k given ts, linked g ->
  outputs_of (g_node g x) ts -> ts <> [] ->
  match given with Some m => length ts <= m | None => True end ->
  (k = KMod \/ exists c, k = KFun c [mkref (is_const (n_kind (g_node g x))) x []]) ->
  In x (g_fwd g) ->
  exists h p q, insert_after g x k given = Some h /\ linked h /\
    gen (recompute g) = Some p /\ gen (recompute h) = Some q /\
    forall V pick attr (sem : nat -> list V -> option V) f vs,
      run pick attr (with_sem sem (g_fresh g) (call1 f)) q vs =
      run pick attr (with_sem sem x (then_f f (sem x))) p vs.
Proof. exact code_after_fwd. Qed.
Print Assumptions C104_insert_after_forward.

Theorem C104_insert_after_input : forall g x k given ts, linked g ->
  outputs_of (g_node g x) ts -> ts <> [] ->
  match given with Some m => length ts <= m | None => True end ->
  (k = KMod \/ exists c, k = KFun c [mkref (is_const (n_kind (g_node g x))) x []]) ->
  forall i, nth_error (g_in g) i = Some x ->
  exists h p q, insert_after g x k given = Some h /\ linked h /\
    gen (recompute g) = Some p /\ gen (recompute h) = Some q /\
    forall V pick attr (sem : nat -> list V -> option V) f vs,
      run pick attr (with_sem sem (g_fresh g) (call1 f)) q vs =
      bind (nth_through f i vs) (run pick attr sem p).
Proof. exact code_after_in. Qed.
Print Assumptions C104_insert_after_input.

Theorem C104_insert_after_constant : forall g x k given ts, linked g ->
  outputs_of (g_node g x) ts -> ts <> [] ->
  match given with Some m => length ts <= m | None => True end ->
  (k = KMod \/ exists c, k = KFun c [mkref (is_const (n_kind (g_node g x))) x []]) ->
  In x (g_const g) ->
  exists h p q, insert_after g x k given = Some h /\ linked h /\
    gen (recompute g) = Some p /\ gen (recompute h) = Some q /\
    forall V pick attr (sem : nat -> list V -> option V) f vs,
      run pick attr (with_sem sem (g_fresh g) (call1 f)) q vs =
      bind (bind (attr x) f) (fun v => run pick (fun y => if y =? x then Some v else attr y) sem p vs).
Proof. exact code_after_const. Qed.
Print Assumptions C104_insert_after_constant.

(* the hypotheses hold of the module, the input and the weight of [small];
   the input is read by two nodes *)
Example C104_insert_after_example :
  linked small /\ outputs_of (g_node small 3) [4] /\ In 3 (g_fwd small) /\
  outputs_of (g_node small 0) [0] /\ nth_error (g_in small) 0 = Some 0 /\
  outputs_of (g_node small 4) [5] /\ In 4 (g_const small) /\
  (forall h, insert_after small 0 KMod None = Some h ->
     option_map p_body (gen (recompute h)) = Some
       [Assign 8 [mkref false 0 []]; Release 0;
        Assign 1 [mkref false 8 []];
        Assign 2 [mkref false 1 [0]; mkref false 1 [1]]; Release 1;
        Assign 3 [mkref false 2 []]; Release 2;
        Assign 5 [mkref false 3 []]; Release 3;
        Assign 6 [mkref false 5 []; mkref true 4 []; mkref false 8 []]; Release 5; Release 8]).
Proof.
  split; [exact small_linked|]. split; [reflexivity|]. split; [cbn; tauto|]. split; [reflexivity|].
  split; [reflexivity|]. split; [reflexivity|]. split; [cbn; tauto|].
  intros h H. inversion H. subst h. reflexivity.
Qed.

(* a node with a list of tensors has no clone: the insertion raises *)
Theorem C104_insert_after_list_refuted : exists g x, linked g /\ In x (g_fwd g) /\
  produced (g_node g x) <> [] /\ insert_after g x KMod None = None.
Proof.
  exists recurrent, 1. split; [exact recurrent_linked|]. split; [cbn; tauto|]. split; [discriminate|reflexivity].
Qed.
Print Assumptions C104_insert_after_list_refuted.

Theorem C104_remove_node : forall g x p t u i0, linked g -> In x (g_fwd g) ->
  n_prevs (g_node g x) = [p] -> n_prevt (g_node g x) = [t] ->
  nth_error (n_previ (g_node g x)) 0 = Some i0 -> outputs_of (g_node g x) [u] ->
  g_shape g t = g_shape g u -> p <> x -> u <> t ->
  (forall y i, live g y -> nth_error (n_prevs (g_node g y)) i = Some x ->
     nth_error (n_previ (g_node g y)) i = Some []) ->
  (forall q s, In s (produced (g_node g p)) -> In s (produced (g_node g q)) -> q = p) ->
  exists h c d, remove_node g x = Some h /\ linked h /\ ~ In x (g_fwd h) /\
    gen (recompute g) = Some c /\ gen (recompute h) = Some d /\
    forall V pick attr (sem : nat -> list V -> option V) vs r, (forall v, sem x [v] = Some v) ->
      run pick attr sem c vs = Some r -> run pick attr sem d vs = Some r.
Proof. exact code_remove. Qed.
Print Assumptions C104_remove_node.

(* the node `.data` of [small] *)
Example C104_remove_node_example :
  n_prevs (g_node small 5) = [3] /\ n_prevt (g_node small 5) = [4] /\
  nth_error (n_previ (g_node small 5)) 0 = Some [] /\ outputs_of (g_node small 5) [6] /\
  (forall y i, live small y -> nth_error (n_prevs (g_node small y)) i = Some 5 ->
     nth_error (n_previ (g_node small y)) i = Some []) /\
  (forall q s, In s (produced (g_node small 3)) -> In s (produced (g_node small q)) -> q = 3) /\
  (forall h, remove_node small 5 = Some h ->
     option_map p_body (gen (recompute h)) = Some
       [Assign 1 [mkref false 0 []];
        Assign 2 [mkref false 1 [0]; mkref false 1 [1]]; Release 1;
        Assign 3 [mkref false 2 []]; Release 2;
        Assign 6 [mkref false 3 []; mkref true 4 []; mkref false 0 []]; Release 3; Release 0]).
Proof.
  split; [reflexivity|]. split; [reflexivity|]. split; [reflexivity|]. split; [reflexivity|]. split; [|split].
  - intros y i Hy Hi. assert (K : y = 6).
    { destruct y as [|[|[|[|[|[|[|[|[|y]]]]]]]]]; try reflexivity; exfalso;
        cbn in Hi; destruct i as [|[|[|[|i]]]]; discriminate. }
    subst y. destruct i as [|[|[|[|i]]]]; try discriminate; reflexivity.
  - intros q s H1 H2. cbn in H1. destruct H1 as [<-|[]].
    destruct q as [|[|[|[|[|[|[|[|[|q]]]]]]]]]; cbn in H2; try reflexivity; exfalso; intuition discriminate.
  - intros h H. inversion H. subst h. reflexivity.
Qed.
