(* Removal of dead nodes and extraction of a part of a traced graph,
   /repo/tinynn/graph/tracer.py:2005-2076, 2164-2244.  The simplifications of
   TraceModel.v hold here too. *)
From Coq Require Import List Arith Bool.
From Verif Require Import TraceSpec TraceModel.
Import ListNotations.

(* 2005-2014: `__active_detection`; [act] are the nodes with `active` set,
   [fuel] bounds the number of nodes taken from the queue *)
Fixpoint detect (g : graph) (fuel : nat) (q act : list nat) : option (list nat) :=
  match q with
  | [] => Some act
  | x :: q' =>
    match fuel with
    | 0 => None
    | S f => if mem x act then detect g f q' act
             else detect g f (q' ++ n_prevs (g_node g x)) (x :: act)
    end
  end.

(* every node is put once per link and once per root *)
Definition links (g : graph) : nat :=
  list_sum (map (fun x => length (n_prevs (g_node g x))) (g_in g ++ g_fwd g ++ g_out g)).

(* 2061-2062: one detection after the other *)
Fixpoint detect_all (g : graph) (roots act : list nat) : option (list nat) :=
  match roots with
  | [] => Some act
  | r :: t => bind (detect g (S (links g)) [r] act) (detect_all g t)
  end.

(* 2057-2076: `eliminate_dead_graph_pass` *)
Definition eliminate (g : graph) : option graph :=
  bind (detect_all g (g_out g) []) (fun act =>
  let fwd := filter (fun x => mem x act) (g_fwd g) in
  let outs := filter (fun x => mem x act) (g_out g) in
  let consts := distinct [] (flat_map (fun x => filter (fun p => is_const (n_kind (g_node g p)))
                                                 (n_prevs (g_node g x))) (fwd ++ outs)) in
  Some (mkgraph (g_node g) (filter (fun x => mem x act) (g_in g)) fwd (g_out g) consts (g_fresh g)
          (g_tensor g) (g_shape g))).

(* 2217-2240: the loop of `assert_is_subgraph`; the nodes where it ends *)
Fixpoint origins (g : graph) (starts : list nat) (fuel : nat) (q visited found : list nat)
  : option (list nat) :=
  match q with
  | [] => Some found
  | x :: q' =>
    match fuel with
    | 0 => None
    | S f =>
      if mem x visited then origins g starts f q' visited found
      else if mem x starts then origins g starts f q' (x :: visited) found
      else match n_prevs (g_node g x) with
           | [] => origins g starts f q' (x :: visited)
                     (match n_nexts (g_node g x) with [] => found | _ => x :: found end)
           | ps => origins g starts f (q' ++ ps) (x :: visited) found
           end
    end
  end.

(* 2242-2244; an origin is never a start *)
Definition is_subgraph (g : graph) (ins outs : list nat) : bool :=
  match origins g ins (S (length outs + links g)) outs [] [] with Some [] => true | _ => false end.

(* 2189-2196: new inputs for one node *)
Definition new_inputs (g : graph) (x : nat) : graph :=
  let n := g_node g x in
  let ws := seq (g_fresh g) (length (n_prevt n)) in
  let g1 := mkgraph (fun y => match assoc (combine ws (n_prevt n)) y with
                              | Some t => mknode KIn [] [] [] [TT t] [] 0 false
                              | None => g_node g y
                              end)
              (g_in g ++ ws) (g_fwd g) (g_out g) (g_const g) (g_fresh g + length ws) (g_tensor g) (g_shape g) in
  upd g1 x (set_prevs n ws).

(* 1535-1553: `add_output_node`: `tensor_pre_node_dict` is [owner] unless a new
   input took the tensor over; `tensor_pre_index_dict` is [pos] *)
Definition new_output (owner : nat -> nat) (pos : nat -> list nat) (o : graph * list nat) (it : item)
  : graph * list nat :=
  let '(g, ws) := o in
  let add ts rev :=
    let w := g_fresh g in
    (mkgraph (fun y => if y =? w then mknode KOut (map owner ts) [] ts [] (map pos ts) 0 rev else g_node g y)
       (g_in g) (g_fwd g) (g_out g ++ [w]) (g_const g) (S w) (g_tensor g) (g_shape g), ws ++ [w]) in
  match it with TT t => add [t] false | TL ts => add ts true | TN _ => o end.

(* 2198-2212: new outputs for one node *)
Definition new_outputs (taken : list (nat * nat)) (pos : nat -> list nat) (g : graph) (x : nat) : graph :=
  let owner t := match dict_get taken t with Some i => i | None => x end in
  let '(g', ws) := fold_left (new_output owner pos) (n_nextt (g_node g x)) (g, []) in
  upd g' x (set_nexts (g_node g' x) ws).

(* the tensors the inputs took over *)
Definition taken_over (g : graph) : list (nat * nat) :=
  flat_map (fun i => map (fun t => (t, i)) (produced (g_node g i))) (g_in g).

(* 2164-2215: `reset_input_output_for_graph`, without the last line *)
Definition extract (g : graph) (ins outs : list nat) (pos : nat -> list nat) : option graph :=
  if existsb (fun x => mem x outs) ins || negb (forallb (fun x => mem x (g_fwd g)) (ins ++ outs))
     || negb (is_subgraph g ins outs) then None else
  let g0 := mkgraph (g_node g) [] (g_fwd g) [] (g_const g) (g_fresh g) (g_tensor g) (g_shape g) in
  let g1 := fold_left new_inputs ins g0 in
  let g2 := fold_left (new_outputs (taken_over g1) pos) outs g1 in
  eliminate g2.
