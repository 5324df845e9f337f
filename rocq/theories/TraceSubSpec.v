(* Which nodes a part of the traced graph needs.  Nothing here refers to the
   functions of the model. *)
From Coq Require Import List Arith Bool.
From Verif Require Import TraceSpec.
Import ListNotations.

(* what is needed for the [roots]; behind a node of [stop] nothing more is *)
Inductive needed (g : graph) (stop roots : list nat) : nat -> Prop :=
| needed_root : forall x, In x roots -> needed g stop roots x
| needed_prev : forall x p, needed g stop roots x -> ~ In x stop -> In p (n_prevs (g_node g x)) ->
    needed g stop roots p.

(* inputs and constants read nothing *)
Definition sources (g : graph) : Prop :=
  forall x, In x (g_in g) \/ is_const (n_kind (g_node g x)) = true -> n_prevs (g_node g x) = [].

(* the values at the positions marked *)
Fixpoint marked {A} (bs : list bool) (l : list A) : list A :=
  match bs, l with
  | b :: bs', a :: l' => if b then a :: marked bs' l' else marked bs' l'
  | _, _ => []
  end.

(* nothing is needed behind [ins] that reads nothing, but what nothing reads *)
Definition cut_off (g : graph) (ins outs : list nat) : Prop :=
  forall x, needed g ins outs x -> ~ In x ins -> n_prevs (g_node g x) = [] -> n_nexts (g_node g x) = [].

(* the tensors of the node [x], as they are returned; [pos] is where a tensor
   is in the result *)
Definition groups (pos : nat -> list nat) (x : nat) (n : node) : list (list ref) :=
  flat_map (fun it => match it with
                      | TT t => [[mkref false x (pos t)]]
                      | TL ts => [map (fun t => mkref false x (pos t)) ts]
                      | TN _ => []
                      end) (n_nextt n).

(* a module that is called with whole results *)
Definition plain_call (n : node) : Prop :=
  n_kind n = KMod /\ length (n_prevt n) = length (n_prevs n) /\ n_previ n = map (fun _ => []) (n_prevt n).
