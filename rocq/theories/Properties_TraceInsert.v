(* Properties of the insertions between and in front of nodes of the traced graph. *)
From Coq Require Import List Arith Bool.
From Verif Require Import TraceSpec TraceModel TraceInsertModel TraceBetweenProofs TraceBeforeProofs TraceExample
  TraceInsertExample TraceInsertRefuted.
Import ListNotations.

(* ------------------------------------------------------------------ C105 *)

Theorem C105_insert_between : forall g p y t idx k given ptrs, linked g -> In y (g_fwd g) ->
  In p (n_prevs (g_node g y)) -> p <> y ->
  length (n_prevt (g_node g y)) = length (n_prevs (g_node g y)) ->
  (forall i, nth_error (n_prevs (g_node g y)) i = Some p ->
     nth_error (n_prevt (g_node g y)) i = Some t /\ nth_error (n_previ (g_node g y)) i = Some idx) ->
  match given with Some m => 1 <= m | None => True end ->
  match ptrs with Some l => In t l | None => True end ->
  (k = KMod \/ exists c, k = KFun c [mkref (is_const (n_kind (g_node g p))) p idx]) ->
  exists h a b, insert_between g p y k given true ptrs = Some h /\ linked h /\
    gen (recompute g) = Some a /\ gen (recompute h) = Some b /\
    forall V pick attr (sem : nat -> list V -> option V) f vs,
      run pick attr (with_sem sem (g_fresh g) (call1 f)) b vs =
      run pick attr (with_sem sem y (through f (map (fun q => q =? p) (n_prevs (g_node g y))) (sem y))) a vs.
Proof. exact code_between. Qed.
Print Assumptions C105_insert_between.

(* between the input and the last addition of [small]: the other reader of
   the input keeps it *)
Example C105_insert_between_example :
  linked small /\ In 6 (g_fwd small) /\ In 0 (n_prevs (g_node small 6)) /\
  (forall i, nth_error (n_prevs (g_node small 6)) i = Some 0 ->
     nth_error (n_prevt (g_node small 6)) i = Some 0 /\ nth_error (n_previ (g_node small 6)) i = Some []) /\
  (forall h, insert_between small 0 6 KMod None true None = Some h ->
     option_map p_body (gen (recompute h)) = Some
       [Assign 1 [mkref false 0 []];
        Assign 2 [mkref false 1 [0]; mkref false 1 [1]]; Release 1;
        Assign 3 [mkref false 2 []]; Release 2;
        Assign 5 [mkref false 3 []]; Release 3;
        Assign 8 [mkref false 0 []]; Release 0;
        Assign 6 [mkref false 5 []; mkref true 4 []; mkref false 8 []]; Release 5; Release 8]).
Proof.
  split; [exact small_linked|]. split; [cbn; tauto|]. split; [cbn; tauto|]. split.
  - intros [|[|[|[|i]]]] H; try discriminate. split; reflexivity.
  - intros h H. inversion H. subst h. reflexivity.
Qed.

Theorem C105_insert_before_forward : forall g p y t idx k given move, linked g -> In y (g_fwd g) ->
  n_prevs (g_node g y) = [p] -> n_prevt (g_node g y) = [t] -> n_previ (g_node g y) = [idx] ->
  p <> y -> NoDup (produced (g_node g p)) ->
  match given with Some m => 1 <= m | None => True end ->
  (k = KMod \/ exists c, k = KFun c [mkref (is_const (n_kind (g_node g p))) p idx]) ->
  (idx = [] \/ (move = true /\ n_kind (g_node g y) = KMod)) ->
  exists h a b, insert_before g y k given move None = Some h /\ linked h /\
    gen (recompute g) = Some a /\ gen (recompute h) = Some b /\
    forall V pick attr (sem : nat -> list V -> option V) f vs,
      run pick attr (with_sem sem (g_fresh g) (call1 f)) b vs =
      run pick attr (with_sem sem y (through f [true] (sem y))) a vs.
Proof. exact code_before_fwd. Qed.
Print Assumptions C105_insert_before_forward.

(* in front of a module that reads the second half of a chunk *)
Example C105_insert_before_forward_example :
  linked returned /\ n_prevs (g_node returned 2) = [1] /\ n_previ (g_node returned 2) = [[1]] /\
  NoDup (produced (g_node returned 1)) /\ n_kind (g_node returned 2) = KMod /\
  (forall h, insert_before returned 2 KMod None true None = Some h ->
     option_map p_body (gen (recompute h)) = Some
       [Assign 1 [mkref false 0 []];
        Assign 5 [mkref false 1 [1]]; Release 1;
        Assign 2 [mkref false 5 []]; Release 5;
        Assign 3 [mkref false 0 []]; Release 0]).
Proof.
  split; [exact returned_linked|]. split; [reflexivity|]. split; [reflexivity|]. split; [|split; [reflexivity|]].
  - repeat constructor; cbn; intuition discriminate.
  - intros h H. inversion H. subst h. reflexivity.
Qed.

Theorem C105_insert_before_output : forall g p y t idx k given i, linked g -> nth_error (g_out g) i = Some y ->
  n_prevs (g_node g y) = [p] -> n_prevt (g_node g y) = [t] -> n_previ (g_node g y) = [idx] ->
  p <> y -> NoDup (produced (g_node g p)) ->
  match given with Some m => 1 <= m | None => True end ->
  (k = KMod \/ exists c, k = KFun c [mkref (is_const (n_kind (g_node g p))) p idx]) ->
  exists h a b, insert_before g y k given true None = Some h /\ linked h /\
    gen (recompute g) = Some a /\ gen (recompute h) = Some b /\
    forall V pick attr (sem : nat -> list V -> option V) f vs,
      run pick attr (with_sem sem (g_fresh g) (call1 f)) b vs =
      bind (run pick attr sem a vs) (nth_through (each_through [f]) i).
Proof. exact code_before_out. Qed.
Print Assumptions C105_insert_before_output.

Example C105_insert_before_output_example :
  linked small /\ nth_error (g_out small) 0 = Some 7 /\ n_prevs (g_node small 7) = [6] /\
  NoDup (produced (g_node small 6)) /\
  (forall h, insert_before small 7 KMod None true None = Some h ->
     option_map p_ret (gen (recompute h)) = Some [[mkref false 8 []]]).
Proof.
  split; [exact small_linked|]. split; [reflexivity|]. split; [reflexivity|]. split.
  - repeat constructor; cbn; tauto.
  - intros h H. inversion H. subst h. reflexivity.
Qed.

Theorem C105_insert_before_list : forall g y ks i, linked g -> nth_error (g_out g) i = Some y ->
  n_rev (g_node g y) = true -> length ks = length (n_prevs (g_node g y)) ->
  (forall j k, nth_error ks j = Some k ->
     k = KMod \/ exists c r, nth_error (refs g y) j = Some r /\ k = KFun c [r]) ->
  exists h a b, insert_before_list g y ks = Some h /\ rendered h /\
    gen (recompute g) = Some a /\ gen (recompute h) = Some b /\
    forall V pick attr (sem : nat -> list V -> option V) fs vs, length fs = length ks ->
      run pick attr (with_sems sem (combine (seq (g_fresh g) (length ks)) fs)) b vs =
      bind (run pick attr sem a vs) (nth_through (each_through fs) i).
Proof. exact code_before_list. Qed.
Print Assumptions C105_insert_before_list.

Example C105_insert_before_list_example :
  linked returned /\ nth_error (g_out returned) 0 = Some 4 /\ n_rev (g_node returned 4) = true /\
  (forall h, insert_before_list returned 4 [KMod; KMod] = Some h ->
     option_map (fun q => (p_body q, p_ret q)) (gen (recompute h)) = Some
       ([Assign 1 [mkref false 0 []];
         Assign 2 [mkref false 1 [1]]; Release 1;
         Assign 3 [mkref false 0 []]; Release 0;
         Assign 5 [mkref false 2 []];
         Assign 6 [mkref false 3 []]; Release 3],
        [[mkref false 5 []; mkref false 6 []]])).
Proof.
  split; [exact returned_linked|]. split; [reflexivity|]. split; [reflexivity|].
  intros h H. inversion H. subst h. reflexivity.
Qed.

(* a node that reads two tensors of the previous node gets one of them twice *)
Theorem C105_two_tensors_refuted : exists g p y h a b v, linked g /\
  insert_between g p y KMod None true None = Some h /\
  gen (recompute g) = Some a /\ gen (recompute h) = Some b /\
  run sub_tree weight (splits (g_fresh g)) a [v] <> None /\
  run sub_tree weight (splits (g_fresh g)) b [v] <> None /\
  run sub_tree weight (splits (g_fresh g)) b [v] <> run sub_tree weight (splits (g_fresh g)) a [v].
Proof. exact two_tensors. Qed.
Print Assumptions C105_two_tensors_refuted.

(* with the tensors one after the other, the second insertion is rejected *)
Theorem C105_one_tensor_at_a_time_refuted : exists g p y t u h, linked g /\
  In t (produced (g_node g p)) /\ In t (n_prevt (g_node g y)) /\
  In u (produced (g_node g p)) /\ In u (n_prevt (g_node g y)) /\
  insert_between g p y KMod None true (Some [t]) = Some h /\
  insert_between h p y KMod None true (Some [u]) = None.
Proof. exact one_tensor_at_a_time. Qed.
Print Assumptions C105_one_tensor_at_a_time_refuted.

(* of the second tensor only, in front of a module: it reads the wrong values *)
Theorem C105_second_tensor_refuted : exists g p y t h a b v, linked g /\
  insert_between g p y KMod None true (Some [t]) = Some h /\
  gen (recompute g) = Some a /\ gen (recompute h) = Some b /\
  run sub_tree weight (splits (g_fresh g)) a [v] <> None /\
  run sub_tree weight (splits (g_fresh g)) b [v] <> run sub_tree weight (splits (g_fresh g)) a [v].
Proof. exact second_tensor. Qed.
Print Assumptions C105_second_tensor_refuted.

(* behind the previous node of such an insertion nothing can be inserted *)
Theorem C105_then_after_refuted : exists g p y t h, linked g /\ In p (g_fwd g) /\
  insert_after g p KMod None <> None /\
  insert_between g p y KMod None true (Some [t]) = Some h /\ insert_after h p KMod None = None.
Proof. exact then_after. Qed.
Print Assumptions C105_then_after_refuted.

(* in front of a function that reads a part of a node, it reads the part twice *)
Theorem C105_insert_before_part_refuted : exists g y h a b v, linked g /\
  insert_before g y KMod None true None = Some h /\
  gen (recompute g) = Some a /\ gen (recompute h) = Some b /\
  run sub_tree weight (splits (g_fresh g)) a [v] <> None /\
  run sub_tree weight (splits (g_fresh g)) b [v] <> run sub_tree weight (splits (g_fresh g)) a [v].
Proof. exact before_part. Qed.
Print Assumptions C105_insert_before_part_refuted.

(* one inserted node for all readers, inserted for the first of the list of
   readers: when that one runs later, the name is read before it is bound *)
Theorem C105_shared_node_refuted : exists g p x y z g1 g2 g3 a b v, linked g /\
  remove_node g x = Some g1 /\ linked g1 /\ n_nexts (g_node g1 p) = [y; z] /\
  insert_between g1 p y KMod None true None = Some g2 /\
  insert_existing g2 p z (g_fresh g1) true None = Some g3 /\
  gen (recompute g1) = Some a /\ gen (recompute g3) = Some b /\
  run sub_tree weight (with_id (g_fresh g1)) a [v] <> None /\
  run sub_tree weight (with_id (g_fresh g1)) b [v] = None.
Proof. exact shared_node. Qed.
Print Assumptions C105_shared_node_refuted.
