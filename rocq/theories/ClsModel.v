(** Model of the search for layers that are equalized together: [graph_traverse], [is_group_supported] and [get_cls_set]
    (tinynn/graph/quantization/algorithm/cross_layer_equalization.py 22-76).

    Simplified: a node is its number, which stands for its unique name; modules are numbers; of a module it matters whether it is of
    [cls_support_type], of [cls_scalable_type] or of another type.  The list [current_group] is changed in place only as long as
    nothing else refers to it, so values are used.  Recursion goes on as long as there is fuel. *)
From Coq Require Import List Arith Bool.
Import ListNotations.

(** 22-23: type of the module of a node *)
Inductive lkind := LSup (m : nat) | LScal | LOther.
(** a traced graph: the nodes, with modules, the nodes that read them and those that they read; [forward_nodes] *)
Record lgraph := mkLG { lk : nat -> lkind; nx : nat -> list nat; pr : nat -> list nat; fwd : list nat }.
(** [(node.unique_name, node.module)] (59) *)
Definition item := (nat * nat)%type.
(** equality of these pairs: the names, and [==] of modules, which is identity (52, 62) *)
Definition item_eqb (a b : item) : bool := (fst a =? fst b) && (snd a =? snd b).
(** comparison of lists, for [current_group not in layer_groups] (52, 62) *)
Fixpoint group_eqb (a b : list item) : bool :=
  match a, b with [], [] => true | x :: a, y :: b => item_eqb x y && group_eqb a b | _, _ => false end.
(** [current_group in layer_groups] (52, 62) *)
Definition in_groups (c : list item) (gs : list (list item)) : bool := existsb (group_eqb c) gs.
(** 26-39: a group consists of modules of [cls_support_type] (59), so the length decides *)
Definition group_ok (c : list item) : bool := length c =? 2.
(** [layer_groups], [visited_nodes] (72-73) *)
Definition lst := (list (list item) * list nat)%type.
(** [node in visited_nodes] (46) *)
Definition seen (n : nat) (vs : list nat) : bool := existsb (Nat.eqb n) vs.
(** 52-54 *)
Definition close_first (gs : list (list item)) (c : list item) : list (list item) * list item :=
  if group_ok c && negb (in_groups c gs) then (gs ++ [c], match rev c with x :: _ => [x] | [] => [] end) else (gs, c).
(** 58-59 *)
Definition add_node (k : lkind) (n : nat) (c : list item) : list item := match k with LSup m => c ++ [(n, m)] | _ => c end.
(** the test of 61 *)
Definition ends (k : lkind) (next : list nat) : bool := (1 <? length next) || match k with LOther => true | _ => false end.
(** 61-64 *)
Definition close_last (e : bool) (gs : list (list item)) (c : list item) : list (list item) * list item :=
  if e then ((if group_ok c && negb (in_groups c gs) then gs ++ [c] else gs), []) else (gs, c).
(** 42-68 *)
Fixpoint traverse (fuel : nat) (g : lgraph) (n : nat) (s : lst) (c : list item) : lst :=
  match fuel with
  | 0 => s
  | S f =>
      let '(gs, vs) := s in
      if seen n vs then s
      else
        let '(gs1, c1) := close_first gs c in
        let '(gs2, c2) := close_last (ends (lk g n) (nx g n)) gs1 (add_node (lk g n) n c1) in
        fst (fold_left (fun p x => (traverse f g x (fst p) (snd p), [])) (nx g n) ((gs2, vs ++ [n]), c2))
  end.
(** 71-76 *)
Definition cls_set (fuel : nat) (g : lgraph) : list (list item) := fst (fold_left (fun s n => traverse fuel g n s []) (fwd g) ([], [])).
