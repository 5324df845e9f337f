(* Insertions that change the meaning of the generated code or are rejected. *)
From Coq Require Import List Arith Bool.
From Verif Require Import TraceSpec TraceModel TraceInsertModel TraceExample TraceInsertExample.
Import ListNotations.

Definition code (g : graph) : prog := get nothing (gen (recompute g)).
Ltac some := apply got; vm_compute; reflexivity.

Lemma two_tensors : exists g p y h a b v, linked g /\
  insert_between g p y KMod None true None = Some h /\
  gen (recompute g) = Some a /\ gen (recompute h) = Some b /\
  run sub_tree weight (splits (g_fresh g)) a [v] <> None /\
  run sub_tree weight (splits (g_fresh g)) b [v] <> None /\
  run sub_tree weight (splits (g_fresh g)) b [v] <> run sub_tree weight (splits (g_fresh g)) a [v].
Proof.
  exists small, 1, 2. set (h := get small (insert_between small 1 2 KMod None true None)).
  exists h, (code small), (code h), (Leaf 1). split; [exact small_linked|].
  split; [some|]. split; [some|]. split; [some|]. split; [|split]; vm_compute; discriminate.
Qed.

Lemma one_tensor_at_a_time : exists g p y t u h, linked g /\
  In t (produced (g_node g p)) /\ In t (n_prevt (g_node g y)) /\
  In u (produced (g_node g p)) /\ In u (n_prevt (g_node g y)) /\
  insert_between g p y KMod None true (Some [t]) = Some h /\
  insert_between h p y KMod None true (Some [u]) = None.
Proof.
  exists stacked, 1, 3, 1, 2. set (h := get small (insert_between stacked 1 3 KMod None true (Some [1]))).
  exists h. split; [exact stacked_linked|].
  split; [cbn; tauto|]. split; [cbn; tauto|]. split; [cbn; tauto|]. split; [cbn; tauto|].
  split; [some|]. vm_compute. reflexivity.
Qed.

Lemma second_tensor : exists g p y t h a b v, linked g /\
  insert_between g p y KMod None true (Some [t]) = Some h /\
  gen (recompute g) = Some a /\ gen (recompute h) = Some b /\
  run sub_tree weight (splits (g_fresh g)) a [v] <> None /\
  run sub_tree weight (splits (g_fresh g)) b [v] <> run sub_tree weight (splits (g_fresh g)) a [v].
Proof.
  exists binary, 1, 2, 2. set (h := get small (insert_between binary 1 2 KMod None true (Some [2]))).
  exists h, (code binary), (code h), (Leaf 1). split; [exact binary_linked|].
  split; [some|]. split; [some|]. split; [some|]. split; vm_compute; discriminate.
Qed.

Lemma then_after : exists g p y t h, linked g /\ In p (g_fwd g) /\
  insert_after g p KMod None <> None /\
  insert_between g p y KMod None true (Some [t]) = Some h /\ insert_after h p KMod None = None.
Proof.
  exists stacked, 1, 3, 1. set (h := get small (insert_between stacked 1 3 KMod None true (Some [1]))).
  exists h. split; [exact stacked_linked|]. split; [cbn; tauto|]. split; [|split; [some|vm_compute; reflexivity]].
  intro K. assert (E : is_some (insert_after stacked 1 KMod None) = true) by (vm_compute; reflexivity).
  rewrite K in E. discriminate.
Qed.

Lemma before_part : exists g y h a b v, linked g /\
  insert_before g y KMod None true None = Some h /\
  gen (recompute g) = Some a /\ gen (recompute h) = Some b /\
  run sub_tree weight (splits (g_fresh g)) a [v] <> None /\
  run sub_tree weight (splits (g_fresh g)) b [v] <> run sub_tree weight (splits (g_fresh g)) a [v].
Proof.
  exists indexed, 2. set (h := get small (insert_before indexed 2 KMod None true None)).
  exists h, (code indexed), (code h), (Leaf 1). split; [exact indexed_linked|].
  split; [some|]. split; [some|]. split; [some|]. split; vm_compute; discriminate.
Qed.

Definition shared1 : graph := get small (remove_node shared 2).
Lemma shared1_linked : linked shared1.
Proof.
  apply (checkb_linked 7); [|vm_compute; reflexivity]. intros x Hx.
  destruct x as [|[|[|[|[|[|[|x]]]]]]]; try (exfalso; repeat apply le_S_n in Hx; inversion Hx; fail).
  vm_compute. now destruct x.
Qed.

Lemma shared_node : exists g p x y z g1 g2 g3 a b v, linked g /\
  remove_node g x = Some g1 /\ linked g1 /\ n_nexts (g_node g1 p) = [y; z] /\
  insert_between g1 p y KMod None true None = Some g2 /\
  insert_existing g2 p z (g_fresh g1) true None = Some g3 /\
  gen (recompute g1) = Some a /\ gen (recompute g3) = Some b /\
  run sub_tree weight (with_id (g_fresh g1)) a [v] <> None /\
  run sub_tree weight (with_id (g_fresh g1)) b [v] = None.
Proof.
  set (g2 := get small (insert_between shared1 1 4 KMod None true None)).
  set (g3 := get small (insert_existing g2 1 3 (g_fresh shared1) true None)).
  exists shared, 1, 2, 4, 3, shared1, g2, g3, (code shared1), (code g3), (Leaf 1).
  split; [exact shared_linked|]. split; [some|]. split; [exact shared1_linked|]. split; [vm_compute; reflexivity|].
  split; [some|]. split; [some|]. split; [some|]. split; [some|]. split; [vm_compute; discriminate|vm_compute; reflexivity].
Qed.
