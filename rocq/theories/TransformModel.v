(** Model of [transform_graph] (tinynn/converter/operators/optimize.py 706-747) with [is_transformable_node] (3795-3796),
    [add_operator], [add_nodes], [add_node], [add_outputs] and [try_restore_edges] (graph.py 116-260): operators of
    the converter's own kinds (BATCH_NORM, GENERIC_CONV, GENERIC_DECONV) are taken out and replaced by TFLite operators.

    Simplified: numbers for nodes and tensors, nodes are numbered in the order in which they are made; an operator that is
    taken out has one output; what [op.transform] (tflite/transformable.py 103-147, 186-398, 456-680) adds is a list of operators
    over the inputs, earlier results and new constants whose last result is the output; the CONSTANT node of a new constant is
    added just before the operator that reads it; an OUTPUT node has no tensor of its own; no UNUSED nodes. *)
From Coq Require Import List Arith Bool.
From Verif Require Import OutTransModel.
Import ListNotations.

(** [KGen]: a kind of the converter's own ([node_type <= BATCH_NORM]); [KConst c]: a constant with the contents [c] *)
Inductive tkind := KIn | KConst (c : nat) | KOut | KOp (f : nat) | KGen (f : nat).
Record tnode := mkTN { tk : tkind; tin : list nat; tout : list nat }.
(** nodes, their numbers, edges (source, target, label), [tensor_node_map], the next unused number *)
Record tg := mkTG { tn : nat -> tnode; tids : list nat; ted : list oedge; tprod : nat -> option nat; tnext : nat }.
(** an input of an operator that [transform] adds: an input of the operator taken out, an earlier result, a new constant *)
Inductive sref := RIn (i : nat) | RTmp (j : nat) | RNew (c : nat).
Definition texp := list (nat * list sref).

Definition is_gen (k : tkind) : bool := match k with KGen _ => true | _ => false end.
Definition is_tout (k : tkind) : bool := match k with KOut => true | _ => false end.
(** [node.out_edges()] *)
Definition t_oute (g : tg) (n : nat) : list oedge := filter (fun e => fst (fst e) =? n) (ted g).
(** 3795-3796 *)
Definition t_gen (g : tg) (n : nat) : bool := is_gen (tk (tn g n)) && (1 <=? length (t_oute g n)).
(** 719-723: OUTPUT nodes that go *)
Definition t_souts (g : tg) (n : nat) : list nat :=
  map (fun e => snd (fst e)) (filter (fun e => is_tout (tk (tn g (snd (fst e))))) (t_oute g n)).
(** 724-725 *)
Definition t_mapping (g : tg) (n : nat) : list (nat * nat) :=
  map (fun e => (snd e, snd (fst e))) (filter (fun e => negb (is_tout (tk (tn g (snd (fst e)))))) (t_oute g n)).
(** 737: [sorted(ops, key=...)] *)
Fixpoint t_insert (n : nat) (l : list nat) : list nat :=
  match l with [] => [n] | m :: r => if n <=? m then n :: l else m :: t_insert n r end.
Definition t_sort (l : list nat) : list nat := fold_right t_insert [] l.
(** 727-730, 740: the maps forget the outputs, the nodes go with their edges *)
Definition t_cut (g : tg) (S D : list nat) : tg :=
  mkTG (tn g) (filter (fun n => negb (o_mem n D)) (tids g))
       (filter (fun e => negb (o_mem (fst (fst e)) D) && negb (o_mem (snd (fst e)) D)) (ted g))
       (fun x => if existsb (fun n => o_mem x (tout (tn g n))) S then None else tprod g x) (tnext g).

(** a node of kind [k] that reads [xs], with the output [y] (a new tensor if [None]) (graph.py 158-209, 237-241) *)
Definition t_node (g : tg) (k : tkind) (xs : list nat) (yo : option nat) : tg * nat :=
  let m := tnext g in let y := match yo with Some y => y | None => m end in
  (mkTG (o_upd (tn g) m (mkTN k xs [y])) (tids g ++ [m]) (ted g ++ map (fun u => (match tprod g u with Some p => p | None => 0 end, m, u)) xs)
        (o_upd (tprod g) y (Some m)) (S m), y).
(** graph.py 116-156 for CONSTANT: a tensor without a node gets one *)
Definition t_input (g : tg) (x : nat) : tg :=
  match tprod g x with Some _ => g | None => fst (t_node g (KConst 0) [] (Some x)) end.
(** graph.py 211-226 *)
Definition t_outnode (g : tg) (x : nat) : tg :=
  let m := tnext g in
  mkTG (o_upd (tn g) m (mkTN KOut [x] [])) (tids g ++ [m]) (ted g ++ [(match tprod g x with Some p => p | None => 0 end, m, x)]) (tprod g) (S m).
(** [add_operator] (graph.py 228-244); [outs]: [self.outputs] *)
Definition t_operator (outs : list nat) (g : tg) (f : nat) (xs : list nat) (yo : option nat) : tg * nat :=
  let '(h, y) := t_node (fold_left t_input xs g) (KOp f) xs yo in
  (if o_mem y outs then t_outnode h y else h, y).
Definition t_arg (ins temps : list nat) (g : tg) (a : sref) : tg * nat :=
  match a with RIn i => (g, nth i ins 0) | RTmp j => (g, nth j temps 0) | RNew c => t_node g (KConst c) [] None end.
Fixpoint t_args (ins temps : list nat) (g : tg) (l : list sref) : tg * list nat :=
  match l with
  | [] => (g, [])
  | a :: r => let '(g1, x) := t_arg ins temps g a in let '(g2, xs) := t_args ins temps g1 r in (g2, x :: xs)
  end.
(** [op.transform] without its last line *)
Fixpoint t_steps (outs ins : list nat) (t : nat) (e : texp) (temps : list nat) (g : tg) : tg :=
  match e with
  | [] => g
  | (f, args) :: rest =>
      let '(g1, xs) := t_args ins temps g args in
      match rest with
      | [] => fst (t_operator outs g1 f xs (Some t))
      | _ => let '(g2, y) := t_operator outs g1 f xs None in t_steps outs ins t rest (temps ++ [y]) g2
      end
  end.
(** [try_restore_edges] (graph.py 246-260); [None]: KeyError *)
Fixpoint t_restore (g : tg) (l : list (nat * nat)) : option tg :=
  match l with
  | [] => Some g
  | (x, d) :: r =>
      if o_mem d (tids g) then
        match tprod g x with
        | Some p => t_restore (mkTG (tn g) (tids g) (ted g ++ [(p, d, x)]) (tprod g) (tnext g)) r
        | None => None
        end
      else t_restore g r
  end.
(** 742-744 for one operator [n] of the graph [g0] and one mapping *)
Definition t_one (exp : nat -> texp) (outs : list nat) (g0 g : tg) (n : nat) (mp : list (nat * nat)) : option tg :=
  match tk (tn g0 n) with
  | KGen f => t_restore (t_steps outs (tin (tn g0 n)) (nth 0 (tout (tn g0 n)) 0) (exp f) [] g) mp
  | _ => None
  end.
Fixpoint t_all (exp : nat -> texp) (outs : list nat) (g0 g : tg) (l : list (nat * list (nat * nat))) : option tg :=
  match l with
  | [] => Some g
  | (n, mp) :: r => match t_one exp outs g0 g n mp with Some g1 => t_all exp outs g0 g1 r | None => None end
  end.
(** 706-747; [exp]: what [transform] adds for an operator of the kind [KGen f] *)
Definition transform_graph (exp : nat -> texp) (outs : list nat) (g : tg) : option tg :=
  let sel := filter (t_gen g) (tids g) in
  t_all exp outs g (t_cut g sel (flat_map (fun n => t_souts g n ++ [n]) sel)) (combine (t_sort sel) (map (t_mapping g) sel)).
