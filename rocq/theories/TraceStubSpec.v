(* What the quantizer should make of the operators without a quantized
   kernel: their operands are dequantized, their results are quantized. *)
From Coq Require Import List Arith Bool.
From Verif Require Import TraceSpec.
Import ListNotations.

(* [a] stands in front of [b] *)
Definition before (l : list nat) (a b : nat) : Prop := exists l1 l2 l3, l = l1 ++ a :: l2 ++ b :: l3.

(* [a] stands in front of the first [b] *)
Definition leads (l : list nat) (a b : nat) : Prop :=
  exists l1 l2, l = l1 ++ b :: l2 /\ In a l1 /\ ~ In b l1.

(* A traced graph in which every node is called behind the nodes it reads,
   takes one tensor from each of them (perhaps several times) and in which a
   tensor is always taken with the same index.  The nodes below [n] have one
   tensor per previous node. *)
Record tidy (n : nat) (g : graph) : Prop := {
  td_linked : linked g;
  td_align : forall y, y < n -> live g y -> length (n_prevt (g_node g y)) = length (n_prevs (g_node g y));
  td_same : forall y i j p, live g y ->
    nth_error (n_prevs (g_node g y)) i = Some p -> nth_error (n_prevs (g_node g y)) j = Some p ->
    nth_error (n_prevt (g_node g y)) i = nth_error (n_prevt (g_node g y)) j /\
    nth_error (n_previ (g_node g y)) i = nth_error (n_previ (g_node g y)) j;
  td_index : forall y z i j p t, live g y -> live g z ->
    nth_error (n_prevs (g_node g y)) i = Some p -> nth_error (n_prevs (g_node g z)) j = Some p ->
    nth_error (n_prevt (g_node g y)) i = Some t -> nth_error (n_prevt (g_node g z)) j = Some t ->
    nth_error (n_previ (g_node g y)) i = nth_error (n_previ (g_node g z)) j;
  td_unique : forall p q s, In s (produced (g_node g p)) -> In s (produced (g_node g q)) -> p = q;
  td_topo : forall y p, In y (g_fwd g) -> In p (n_prevs (g_node g y)) ->
    before (g_fwd g) p y \/ (~ In p (g_fwd g) /\ p <> y)
}.

(* the readers of [x] are operators, listed in the order of their calls *)
Record inner (g : graph) (x : nat) : Prop := {
  in_fwd : forall y, In y (n_nexts (g_node g x)) -> In y (g_fwd g);
  in_order : forall y z, leads (n_nexts (g_node g x)) y z ->
    In x (n_prevs (g_node g y)) -> In x (n_prevs (g_node g z)) -> before (g_fwd g) y z
}.

(* the nodes numbered from [lo] up to [hi] mean [f] *)
Definition new_sems {V} (lo hi : nat) (f : V -> option V) (sem : nat -> list V -> option V)
  : nat -> list V -> option V :=
  fun z => if (lo <=? z) && (z <? hi) then call1 f else sem z.

(* every node sees the operands selected by [sel] through [f] *)
Definition see_through {V} (f : V -> option V) (g : graph) (sel : nat -> nat -> bool)
  (sem : nat -> list V -> option V) : nat -> list V -> option V :=
  fun y => through f (map (sel y) (n_prevs (g_node g y))) (sem y).

Definition one_of (us : list nat) (p : nat) : bool := existsb (Nat.eqb p) us.

(* the operators of [us] take their operands through [dq], except those of
   [nums]; what they compute is read through [q], except by the nodes of
   [prop] *)
Definition in_float {V} (q dq : V -> option V) (us : list nat) (prop nums : nat -> bool) (g : graph)
  (sem : nat -> list V -> option V) : nat -> list V -> option V :=
  see_through q g (fun y p => one_of us p && negb (prop y))
    (fun y => if one_of us y then through dq (map (fun p => negb (nums p)) (n_prevs (g_node g y))) (sem y) else sem y).

(* every tensor is made by one node *)
Definition made_once (g : graph) : Prop :=
  forall p q s, In s (produced (g_node g p)) -> In s (produced (g_node g q)) -> p = q.

(* a node that makes one tensor [u] of one tensor [t] of [p]; its readers take
   all of it *)
Record stub_at (g : graph) (x p t u : nat) (idx : list nat) : Prop := {
  sa_fwd : In x (g_fwd g);
  sa_prevs : n_prevs (g_node g x) = [p];
  sa_prevt : n_prevt (g_node g x) = [t];
  sa_previ : nth_error (n_previ (g_node g x)) 0 = Some idx;
  sa_out : outputs_of (g_node g x) [u];
  sa_shape : g_shape g t = g_shape g u;
  sa_neq : p <> x;
  sa_new : u <> t;
  sa_whole : forall y i, live g y -> nth_error (n_prevs (g_node g y)) i = Some x ->
    nth_error (n_previ (g_node g y)) i = Some []
}.

(* [kind] tells QuantStub and DeQuantStub nodes: the stub [x] does not read
   another stub, the stubs that read it read nothing else, and so do the
   nodes [quiet] such as `.shape` *)
Definition stub_node (kind : nat -> option bool) (x : nat) : bool :=
  match kind x with Some _ => true | None => false end.
Definition stub_link_ok (kind : nat -> option bool) (quiet : nat -> bool) (g : graph) (x : nat) : Prop :=
  exists p t u idx, stub_at g x p t u idx /\ kind p = None /\ NoDup (n_nexts (g_node g x)) /\
    forall n, In n (n_nexts (g_node g x)) ->
      (stub_node kind n = true -> exists s, stub_at g n x u s []) /\
      (quiet n = true -> In n (g_fwd g) /\ n_prevs (g_node g n) = [x]).

(* the stubs that read [x] give back what [x] was given, and the nodes
   [quiet] that read [x] do not see the difference *)
Definition undone {V} (kind : nat -> option bool) (quiet : nat -> bool) (readers : list nat)
  (sem : nat -> list V -> option V) (x : nat) : Prop :=
  forall n v w, In n readers -> sem x [v] = Some w ->
    (stub_node kind n = true -> kind n <> kind x -> sem n [w] = Some v) /\
    (quiet n = true -> sem n [w] = sem n [v]).
