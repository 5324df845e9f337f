(* Insertion of nodes between two nodes and in front of a node of a traced
   graph, /repo/tinynn/graph/tracer.py:2710-2952.  The simplifications of
   TraceModel.v hold here too. *)
From Coq Require Import List Arith Bool.
From Verif Require Import TraceSpec TraceModel.
Import ListNotations.

(* 2757-2775: how often a tensor is found among the outputs of a node; the
   loop over the outputs stops at a tensor, not at a list *)
Fixpoint hits (pt : nat) (outs : list item) : nat :=
  match outs with
  | [] => 0
  | TT t :: r => if t =? pt then 1 else hits pt r
  | TL ts :: r => (if mem pt ts then 1 else 0) + hits pt r
  | TN _ :: r => hits pt r
  end.

(* 2758: `tensor_ptrs is not None and id(pt) not in tensor_ptrs` *)
Definition skipped (ptrs : option (list nat)) (pt : nat) : bool :=
  match ptrs with Some l => negb (mem pt l) | None => false end.

(* 2753-2775: the shared tensors with their indices, and the number of those
   left out *)
Definition gather (ptrs : option (list nat)) (outs : list item) (pts : list (nat * list nat))
  : list (nat * list nat) :=
  flat_map (fun ti => if skipped ptrs (fst ti) then [] else repeat ti (hits (fst ti) outs)) pts.
Definition remaining (ptrs : option (list nat)) (outs : list item) (pts : list (nat * list nat)) : nat :=
  list_sum (map (fun ti => if skipped ptrs (fst ti) then hits (fst ti) outs else 0) pts).

(* 2793-2795: the first [k] entries *)
Fixpoint replace_in (k p w : nat) (l : list nat) : list nat :=
  match k, l with
  | S k', q :: t => (if q =? p then w else q) :: replace_in k' p w t
  | _, _ => l
  end.

(* 2797-2808: tensors, indices and the replaced indices of the next node *)
Fixpoint retag (move : bool) (d : list (nat * nat)) (prevt : list nat) (previ : list (list nat))
  : option (list nat * list (list nat) * list (list nat * list nat)) :=
  match prevt with
  | [] => Some ([], previ, [])
  | t :: ts =>
    match previ with
    | [] => match assoc d t with
            | Some _ => None
            | None => bind (retag move d ts []) (fun r => let '(a, b, m) := r in Some (t :: a, b, m))
            end
    | i :: is =>
      bind (retag move d ts is) (fun r => let '(a, b, m) := r in
        match assoc d t with
        | Some t' => let i' := if move then [] else i in Some (t' :: a, i' :: b, (i, i') :: m)
        | None => Some (t :: a, i :: b, m)
        end)
    end
  end.

Fixpoint replace_first (y w : nat) (l : list nat) : list nat :=
  match l with [] => [] | z :: t => if z =? y then w :: t else z :: replace_first y w t end.

(* 2810-2819 *)
Definition connect (rem y w : nat) (g : graph) (q : nat) : graph :=
  let n := g_node g q in
  if 0 <? rem then if mem w (n_nexts n) then g else upd g q (set_nextt n (n_nextt n ++ [TN w]))
  else upd g q (set_nexts n (replace_first y w (n_nexts n))).

(* 2752-2828: both variants from the gathering of the tensors on; [g] has the
   new node, [base] is the node with the links set so far, [nts] gives the
   new tensors for a number of shared tensors *)
Definition between (g : graph) (p y w : nat) (base : node) (nts : nat -> list nat) (move : bool)
  (ptrs : option (list nat)) : option graph :=
  let ny := g_node g y in
  let pts := combine (n_prevt ny) (n_previ ny) in
  let outs := n_nextt (g_node g p) in
  let found := gather ptrs outs pts in
  let rem := remaining ptrs outs pts in
  let new_ts := nts (length found) in
  match new_ts with
  | [] => None
  | _ =>
    let z := combine found new_ts in
    let nw := mknode (n_kind base) (n_prevs base) (n_nexts base) (map (fun e => fst (fst e)) z)
                (map (fun e => TT (snd e)) z) (map (fun e => if move then snd (fst e) else []) z)
                (n_order base) (n_rev base) in
    let g1 := upd g w nw in
    let d := combine (map fst found) new_ts in
    bind (retag move d (n_prevt ny) (n_previ ny)) (fun r => let '(a, b, m) := r in
    let k := fold_left (fun k on => rename_kind (mkref (is_const (n_kind (g_node g p))) p (fst on))
                                      (mkref (is_const (n_kind base)) w (snd on)) k) m (n_kind ny) in
    let g2 := upd g1 y (mknode k (replace_in (length (n_prevs ny) - rem) p w (n_prevs ny)) (n_nexts ny) a
                          (n_nextt ny) b (n_order ny) (n_rev ny)) in
    Some (fold_left (connect rem y w) (n_prevs nw) g2))
  end.

(* `next_tensors`: new tensors of the caller, or one clone per shared tensor *)
Definition new_tensors (g : graph) (given : option nat) (n : nat) : list nat :=
  seq (g_tensor g) (match given with Some m => m | None => n end).

(* 2710-2828: `insert_between` of a new module or function *)
Definition insert_between (g : graph) (p y : nat) (k : kind) (given : option nat) (move : bool)
  (ptrs : option (list nat)) : option graph :=
  let w := g_fresh g in
  if negb (mem p (n_prevs (g_node g y)) && mem y (n_nexts (g_node g p))) then None else
  bind (index_of y (g_fwd g)) (fun i =>
  let n := match given with
           | Some m => m
           | None => length (gather ptrs (n_nextt (g_node g p))
                       (combine (n_prevt (g_node g y)) (n_previ (g_node g y))))
           end in
  let g1 := mkgraph (g_node g) (g_in g) (insert_at (g_fwd g) i w) (g_out g) (g_const g) (S w)
              (g_tensor g + n) (g_shape g) in
  between g1 p y w (mknode k [p] [y] [] [] [] 0 false) (new_tensors g given) move ptrs).

(* 2736-2749: `insert_between` of an existing node; its own output tensors
   are used again *)
Definition insert_existing (g : graph) (p y w : nat) (move : bool) (ptrs : option (list nat))
  : option graph :=
  let n := g_node g w in
  bind (traverse as_tensor (n_nextt n)) (fun own =>
  let prevs := if mem p (n_prevs n) then n_prevs n else n_prevs n ++ [p] in
  let nexts := if mem y (n_nexts n) then n_nexts n else n_nexts n ++ [y] in
  between g p y w (mknode (n_kind n) prevs nexts [] [] [] (n_order n) (n_rev n)) (fun _ => own) move ptrs).

(* 2830-2952: `insert_before` of one module or function; [idxs] is
   `next_indices`.  Before an existing node it raises, because `rev_mode` is
   not set. *)
Definition insert_before (g : graph) (y : nat) (k : kind) (given : option nat) (move : bool)
  (idxs : option (list (list nat))) : option graph :=
  let w := g_fresh g in
  if mem y (g_in g) || mem y (g_const g) then None else
  bind (if mem y (g_out g) then Some (g_fwd g ++ [w])
        else bind (index_of y (g_fwd g)) (fun i => Some (insert_at (g_fwd g) i w))) (fun fwd =>
  let n := g_node g y in
  let cs := new_tensors g given (length (n_prevt n)) in
  let nis := match idxs with Some l => l | None => map (fun _ => []) (n_prevt n) end in
  let z := combine (combine (n_prevt n) cs) (combine (n_previ n) nis) in
  let own := fun e : nat * nat * (list nat * list nat) => if move then fst (snd e) else snd (snd e) in
  let g1 := mkgraph (g_node g) (g_in g) fwd (g_out g) (g_const g) (S w) (g_tensor g + length cs) (g_shape g) in
  let g2 := upd g1 w (mknode k (n_prevs n) [y] (map (fun e => fst (fst e)) z)
                        (map (fun e => TT (snd (fst e))) z) (map own z) 0 false) in
  let previ := if move then map (fun _ => []) (n_previ n) else n_previ n in
  bind (match n_kind n with
        | KFun c names =>
          if length z <? length (n_prevs n) then None
          else Some (fold_left (fun k0 pe =>
                 rename_kind (mkref (is_const (n_kind (g_node g (fst pe)))) (fst pe) (fst (snd (snd pe))))
                             (mkref (is_const k) w (own (snd pe))) k0) (combine (n_prevs n) z) (n_kind n))
        | k0 => Some k0
        end) (fun ky =>
  let g3 := upd g2 y (mknode ky [w] (n_nexts n) (map (fun e => snd (fst e)) z) (n_nextt n) previ
                        (n_order n) (n_rev n)) in
  Some (fold_left (fun g' q => upd g' q (set_nexts (g_node g' q) (replace_first y w (n_nexts (g_node g' q)))))
          (n_prevs n) g3))).

(* 2830-2937 with a list of modules and `move_idx`, in front of an output node
   that returns a list (`rev_index`): one new node per previous node.  The
   loop over the new nodes leaves the last one in `new_node`, so that only
   its previous node is linked. *)
Definition insert_before_list (g : graph) (y : nat) (ks : list kind) : option graph :=
  let n := g_node g y in
  if negb (n_rev n) || negb (length ks =? length (n_prevs n)) || mem y (g_in g) || mem y (g_const g)
     || negb (mem y (g_out g)) then None else
  let ws := seq (g_fresh g) (length ks) in
  let cs := seq (g_tensor g) (length ks) in
  let z := combine (combine (combine ks (n_prevs n)) (combine (n_prevt n) (n_previ n))) (combine ws cs) in
  let g1 := mkgraph (g_node g) (g_in g) (g_fwd g ++ ws) (g_out g) (g_const g) (g_fresh g + length ks)
              (g_tensor g + length ks) (g_shape g) in
  let g2 := fold_left (fun g' e => let '(k, q, (t, i), (w, c)) := e in
              upd g' w (mknode k [q] [y] [t] [TT c] [i] 0 false)) z g1 in
  let g3 := upd g2 y (mknode (n_kind n) ws (n_nexts n) (map (fun e => snd (snd e)) z) (n_nextt n)
                        (map (fun _ => []) (n_previ n)) (n_order n) (n_rev n)) in
  match rev (n_prevs n) with
  | [] => Some g3
  | q :: _ =>
    let nq := g_node g3 q in
    match index_of y (n_nexts nq) with
    | None => Some g3
    | Some i => Some (upd g3 q (set_nexts nq (firstn i (n_nexts nq) ++ ws ++ skipn (S i) (n_nexts nq))))
    end
  end.
