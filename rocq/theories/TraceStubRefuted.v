(* Graphs on which the stubs are not placed or not taken out. *)
From Coq Require Import List Arith Bool.
From Verif Require Import TraceSpec TraceModel TraceInsertModel TraceStubSpec TraceStubModel TraceExample TraceInsertExample
  TraceInsertRefuted TraceStubExample.
Import ListNotations.

Definition no_node (x : nat) : bool := false.

Lemma two_results : exists g x y t u, linked g /\ In x (g_fwd g) /\ inner g x /\ n_rev (g_node g x) = false /\
  In y (n_nexts (g_node g x)) /\ t <> u /\
  In t (produced (g_node g x)) /\ In t (n_prevt (g_node g y)) /\
  In u (produced (g_node g x)) /\ In u (n_prevt (g_node g y)) /\
  stubs no_node no_node g [x] = None.
Proof.
  exists stacked, 1, 3, 1, 2. split; [exact stacked_linked|]. split; [cbn; tauto|].
  split; [apply innerb_inner; vm_compute; reflexivity|]. split; [reflexivity|]. split; [cbn; tauto|]. split; [discriminate|].
  split; [cbn; tauto|]. split; [cbn; tauto|]. split; [cbn; tauto|]. split; [cbn; tauto|]. vm_compute. reflexivity.
Qed.

Lemma shared1_tidy : tidy (g_fresh shared1) shared1.
Proof.
  apply (tidyb_tidy _ 7); [|vm_compute; reflexivity]. intros x Hx.
  destruct x as [|[|[|[|[|[|[|x]]]]]]]; try (exfalso; repeat apply le_S_n in Hx; inversion Hx; fail).
  vm_compute. now destruct x.
Qed.

Lemma against_order : exists g0 w g x y z h a b v, linked g0 /\ remove_node g0 w = Some g /\
  tidy (g_fresh g) g /\ In x (g_fwd g) /\ n_nexts (g_node g x) = [y; z] /\ before (g_fwd g) z y /\
  stubs no_node no_node g [x] = Some h /\ gen (recompute g) = Some a /\ gen (recompute h) = Some b /\
  run sub_tree weight (with_id (g_fresh g)) a [v] <> None /\
  forall sem : nat -> list tree -> option tree, run sub_tree weight sem b [v] = None.
Proof.
  set (h := get small (stubs no_node no_node shared1 [1])).
  exists shared, 2, shared1, 1, 4, 3, h, (code shared1), (code h), (Leaf 1).
  split; [exact shared_linked|]. split; [some|]. split; [exact shared1_tidy|]. split; [vm_compute; tauto|].
  split; [vm_compute; reflexivity|]. split; [apply beforeb_before; vm_compute; reflexivity|].
  split; [some|]. split; [some|]. split; [some|]. split; [vm_compute; discriminate|].
  intros sem. vm_compute. destruct (sem 8 [Leaf 1]) as [w|]; [|reflexivity]. now destruct (sem 1 [w]).
Qed.

Lemma three_in_a_row : exists g kind, tidy (g_fresh g) g /\ made_once g /\
  (forall x, In x (g_fwd g) -> stub_node kind x = true -> exists p t u idx, stub_at g x p t u idx) /\
  g_fwd g = [1; 2; 3; 4; 5] /\ kind 2 = Some true /\ kind 3 = Some false /\ kind 4 = Some true /\
  drop_pairs kind no_node none g = None.
Proof.
  exists three, three_kind. split; [exact three_tidy|].
  split; [apply (made_onceb_made_once 7); [exact three_nobody|vm_compute; reflexivity]|]. split.
  - intros x Hx K. exists (p_of three x), (t_of three x), (u_of three x), (idx_of three x).
    apply stub_atb_stub_at.
    assert (H : forallb (fun x => implb (stub_node three_kind x)
      (stub_atb three x (p_of three x) (t_of three x) (u_of three x) (idx_of three x))) (g_fwd three) = true) by (vm_compute; reflexivity).
    exact (forallb_implb _ _ _ _ H x Hx K).
  - split; [reflexivity|]. split; [reflexivity|]. split; [reflexivity|]. split; [reflexivity|]. vm_compute. reflexivity.
Qed.
