(* Properties of the QuantStub and DeQuantStub nodes around the operators
   without a quantized kernel. *)
From Coq Require Import List Arith Bool.
From Verif Require Import TraceSpec TraceModel TraceInsertModel TraceStubSpec TraceStubModel TraceDequantStubProofs
  TracePairProofs TraceExample TraceInsertExample TraceInsertRefuted TraceStubExample TraceStubRefuted.
Import ListNotations.

(* ------------------------------------------------------------------ C120 *)

Theorem C120_insert_existing : forall g p y w t c0 idx rest ptrs, linked g -> In y (g_fwd g) -> before (g_fwd g) w y ->
  In p (n_prevs (g_node g y)) -> p <> y -> (In p (g_fwd g) -> before (g_fwd g) p w) -> p <> w ->
  length (n_prevt (g_node g y)) = length (n_prevs (g_node g y)) ->
  (forall i, nth_error (n_prevs (g_node g y)) i = Some p ->
     nth_error (n_prevt (g_node g y)) i = Some t /\ nth_error (n_previ (g_node g y)) i = Some idx) ->
  match ptrs with Some l => In t l | None => True end ->
  n_prevs (g_node g w) = [p] -> nth_error (n_previ (g_node g w)) 0 = Some idx ->
  outputs_of (g_node g w) (c0 :: rest) ->
  (forall x i, live g x -> nth_error (n_prevs (g_node g x)) i = Some w -> nth_error (n_prevt (g_node g x)) i = Some c0) ->
  (forall q q' s, In s (produced (g_node g q)) -> In s (produced (g_node g q')) -> q = q') ->
  exists h a b, insert_existing g p y w true ptrs = Some h /\ linked h /\
    gen (recompute g) = Some a /\ gen (recompute h) = Some b /\
    forall V pick attr (sem : nat -> list V -> option V) f vs, (forall v, sem w [v] = f v) ->
      run pick attr sem b vs =
      run pick attr (with_sem sem y (through f (map (fun q => q =? p) (n_prevs (g_node g y))) (sem y))) a vs.
Proof. exact code_existing. Qed.
Print Assumptions C120_insert_existing.

(* the stub in front of the expansion is also put in front of the last
   operator of [one_stub], which reads the same tensor twice *)
Example C120_insert_existing_example :
  linked one_stub /\ In 6 (g_fwd one_stub) /\ before (g_fwd one_stub) 9 6 /\ before (g_fwd one_stub) 3 9 /\
  n_prevs (g_node one_stub 6) = [3; 5; 3] /\ n_prevt (g_node one_stub 6) = [3; 5; 3] /\
  n_previ (g_node one_stub 6) = [[]; []; []] /\
  n_prevs (g_node one_stub 9) = [3] /\ n_previ (g_node one_stub 9) = [[]] /\ outputs_of (g_node one_stub 9) [8] /\
  (forall x i, live one_stub x -> nth_error (n_prevs (g_node one_stub x)) i = Some 9 ->
     nth_error (n_prevt (g_node one_stub x)) i = Some 8) /\
  (forall q q' s, In s (produced (g_node one_stub q)) -> In s (produced (g_node one_stub q')) -> q = q') /\
  option_map (fun h => p_body (code h)) (insert_existing one_stub 3 6 9 true (Some [3])) = Some
    [Assign 1 [mkref false 0 []]; Release 0; Assign 2 [mkref false 1 []]; Release 1;
     Assign 3 [mkref false 2 []]; Release 2; Assign 4 [mkref false 3 []]; Assign 9 [mkref false 3 []];
     Assign 5 [mkref false 9 []; mkref false 4 []]; Release 4;
     Assign 6 [mkref false 9 []; mkref false 5 []; mkref false 9 []]; Release 9; Release 5;
     Assign 7 [mkref false 6 []]; Release 6].
Proof.
  split; [exact (td_linked _ _ one_stub_tidy)|]. split; [vm_compute; tauto|].
  split; [apply beforeb_before; vm_compute; reflexivity|]. split; [apply beforeb_before; vm_compute; reflexivity|].
  split; [vm_compute; reflexivity|]. split; [vm_compute; reflexivity|]. split; [vm_compute; reflexivity|].
  split; [vm_compute; reflexivity|]. split; [vm_compute; reflexivity|]. split; [vm_compute; reflexivity|].
  split; [apply reads_slot; vm_compute; reflexivity|]. split; [exact (td_unique _ _ one_stub_tidy)|].
  vm_compute. reflexivity.
Qed.

(* ------------------------------------------------------------------ C121 *)

Theorem C121_stubs : forall g prop nums us, tidy (g_fresh g) g -> NoDup us ->
  (forall x, In x us -> In x (g_fwd g) /\ inner g x /\ n_rev (g_node g x) = false /\ nums x = false) ->
  (forall z, g_fresh g <= z -> nums z = false) ->
  exists d h a b, stubs prop nums g us = Some h /\ tidy (g_fresh g) h /\ g_fresh g <= d <= g_fresh h /\
    (forall z, In z (g_fwd h) -> z < g_fresh g -> In z (g_fwd g)) /\
    gen (recompute g) = Some a /\ gen (recompute h) = Some b /\
    forall V pick attr (sem : nat -> list V -> option V) q dq vs,
      run pick attr (new_sems d (g_fresh h) dq (new_sems (g_fresh g) d q sem)) b vs =
      run pick attr (in_float q dq us prop nums g sem) a vs.
Proof. exact code_stubs. Qed.
Print Assumptions C121_stubs.

(* the softmax 3 and the expansion 5 of [mixed]; 4 is the shape *)
Example C121_stubs_example :
  tidy (g_fresh mixed) mixed /\ NoDup [3; 5] /\
  (forall x, In x [3; 5] -> In x (g_fwd mixed) /\ inner mixed x /\ n_rev (g_node mixed x) = false /\ size4 x = false) /\
  option_map (fun h => p_body (code h)) (stubs size4 size4 mixed [3; 5]) = Some
    [Assign 1 [mkref false 0 []]; Release 0; Assign 2 [mkref false 1 []]; Release 1;
     Assign 11 [mkref false 2 []]; Release 2; Assign 3 [mkref false 11 []]; Release 11;
     Assign 4 [mkref false 3 []]; Assign 10 [mkref false 3 []]; Assign 12 [mkref false 10 []];
     Assign 5 [mkref false 12 []; mkref false 4 []]; Release 12; Release 4;
     Assign 9 [mkref false 5 []]; Release 5;
     Assign 6 [mkref false 10 []; mkref false 9 []; mkref false 10 []]; Release 10; Release 9;
     Assign 7 [mkref false 6 []]; Release 6].
Proof.
  split; [exact mixed_tidy|]. split; [repeat constructor; cbn; intuition discriminate|]. split.
  - intros x [<-|[<-|[]]]; (split; [cbn; tauto|]; split; [apply innerb_inner; vm_compute; reflexivity|]; now split).
  - vm_compute. reflexivity.
Qed.

(* an operator with two results that one node reads *)
Theorem C121_two_results_refuted : exists g x y t u, linked g /\ In x (g_fwd g) /\ inner g x /\
  n_rev (g_node g x) = false /\ In y (n_nexts (g_node g x)) /\ t <> u /\
  In t (produced (g_node g x)) /\ In t (n_prevt (g_node g y)) /\
  In u (produced (g_node g x)) /\ In u (n_prevt (g_node g y)) /\
  stubs no_node no_node g [x] = None.
Proof. exact two_results. Qed.
Print Assumptions C121_two_results_refuted.

(* readers listed against the order of their calls, as the removal of a node
   leaves them: the stub is called behind its first reader *)
Theorem C121_reader_order_refuted : exists g0 w g x y z h a b v, linked g0 /\ remove_node g0 w = Some g /\
  tidy (g_fresh g) g /\ In x (g_fwd g) /\ n_nexts (g_node g x) = [y; z] /\ before (g_fwd g) z y /\
  stubs no_node no_node g [x] = Some h /\ gen (recompute g) = Some a /\ gen (recompute h) = Some b /\
  run sub_tree weight (with_id (g_fresh g)) a [v] <> None /\
  forall sem : nat -> list tree -> option tree, run sub_tree weight sem b [v] = None.
Proof. exact against_order. Qed.
Print Assumptions C121_reader_order_refuted.

(* ------------------------------------------------------------------ C122 *)

Theorem C122_drop_pairs : forall kind quiet stays g, (forall n, quiet n = true -> kind n = None) ->
  linked g -> made_once g ->
  (forall x y, In x (g_fwd g) -> In y (n_nexts (g_node g x)) -> stub_node kind x = true -> stub_node kind y = true ->
     kind y <> kind x -> stub_link_ok kind quiet g x) ->
  exists h a b, drop_pairs kind quiet stays g = Some h /\ linked h /\
    (forall z, In z (g_fwd h) -> In z (g_fwd g)) /\
    (forall z, kind z = None -> In z (g_fwd g) -> In z (g_fwd h)) /\
    (forall x, In x (g_fwd g) -> stub_node kind x = true ->
       (forall n, In n (n_nexts (g_node g x)) ->
          (stub_node kind n = true /\ kind n <> kind x /\ stays x n = false) \/ quiet n = true) ->
       forall n, In n (n_nexts (g_node g x)) -> stub_node kind n = true -> ~ In x (g_fwd h) /\ ~ In n (g_fwd h)) /\
    gen (recompute g) = Some a /\ gen (recompute h) = Some b /\
    forall V pick attr (sem : nat -> list V -> option V) vs r,
      (forall x, In x (g_fwd g) -> stub_node kind x = true -> undone kind quiet (n_nexts (g_node g x)) sem x) ->
      run pick attr sem a vs = Some r -> run pick attr sem b vs = Some r.
Proof. exact code_drop_pairs. Qed.
Print Assumptions C122_drop_pairs.

(* three operators without a quantized kernel that read each other: the stubs
   between them go, the one in front of the first stays *)
Example C122_drop_pairs_example :
  (forall n, size4 n = true -> stub_kind n = None) /\ linked paired /\ made_once paired /\
  (forall x y, In x (g_fwd paired) -> In y (n_nexts (g_node paired x)) ->
     stub_node stub_kind x = true -> stub_node stub_kind y = true -> stub_kind y <> stub_kind x ->
     stub_link_ok stub_kind size4 paired x) /\
  (forall x, In x (g_fwd paired) -> stub_node stub_kind x = true ->
     undone stub_kind size4 (n_nexts (g_node paired x)) marked x) /\
  run at_pair no_attr marked (code paired) [(false, 7)] = Some [[(false, 361)]] /\
  stub_pairs stub_kind none paired = [(11, 13); (10, 15); (9, 7)] /\
  option_map (fun h => p_body (code h)) (drop_pairs stub_kind size4 none paired) = Some
    [Assign 1 [mkref false 0 []]; Release 0; Assign 2 [mkref false 1 []]; Release 1;
     Assign 12 [mkref false 2 []]; Release 2; Assign 3 [mkref false 12 []]; Release 12;
     Assign 4 [mkref false 3 []]; Assign 5 [mkref false 3 []; mkref false 4 []]; Release 4;
     Assign 6 [mkref false 3 []; mkref false 5 []]; Release 3; Release 5].
Proof.
  split; [intros n H; apply Nat.eqb_eq in H; now subst n|]. split; [exact paired_linked|]. split; [exact paired_once|].
  split; [exact paired_ok|]. split; [intros x _; apply marked_undone|]. split; [vm_compute; reflexivity|].
  split; vm_compute; reflexivity.
Qed.

(* three stubs in a row: the second pair contains a node that is gone *)
Theorem C122_three_stubs_refuted : exists g kind, tidy (g_fresh g) g /\ made_once g /\
  (forall x, In x (g_fwd g) -> stub_node kind x = true -> exists p t u idx, stub_at g x p t u idx) /\
  g_fwd g = [1; 2; 3; 4; 5] /\ kind 2 = Some true /\ kind 3 = Some false /\ kind 4 = Some true /\
  drop_pairs kind no_node none g = None.
Proof. exact three_in_a_row. Qed.
Print Assumptions C122_three_stubs_refuted.
