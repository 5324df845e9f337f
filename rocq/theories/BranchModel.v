(** Model of [branch_reshape_expand_pass] and [branch_transpose_expand_pass] (tinynn/converter/operators/optimize.py 1240-1314,
    4150-4169) with [expand_op_outputs_in_branches] (4814-4842), [add_operator] and [replace_operator_input] (graph.py 228-244,
    262-324).

    Simplified: numbers for nodes and tensors; the shape or permutation is part of the kind of the operator and has no edges;
    no UNUSED nodes (a node with readers has none). *)
From Coq Require Import List Arith Bool.
From Verif Require Import OutTransModel.
Import ListNotations.

(** [BSame]: RESHAPE in one pass, TRANSPOSE in the other, with its attribute; [BOp]: any other operator *)
Inductive bkind := BIn | BConst | BOut | BOp (f : nat) | BSame (f : nat).
Record bnode := mkBN { bk : bkind; bin : list nat; bout : list nat }.
(** nodes, their numbers, edges (source, target, label), [tensor_node_map], the next unused number *)
Record bg := mkBG { bn : nat -> bnode; bids : list nat; bed : list oedge; bprod : nat -> nat; bnext : nat }.
Definition is_same (k : bkind) : bool := match k with BSame _ => true | _ => false end.
Definition is_bout (k : bkind) : bool := match k with BOut => true | _ => false end.
(** targets of [node.out_edges()] *)
Definition b_succ (g : bg) (n : nat) : list nat := map (fun e => snd (fst e)) (filter (fun e => fst (fst e) =? n) (bed g)).
(** 4150-4169 *)
Definition branch_edge (g : bg) (e : oedge) : bool :=
  let s := fst (fst e) in let d := snd (fst e) in
  is_same (bk (bn g s)) && (1 <? length (b_succ g s)) && is_same (bk (bn g d)) && (nth 0 (bout (bn g s)) 0 =? nth 0 (bin (bn g d)) 0).
(** 4826-4830 *)
Definition preserve (g : bg) (l : list nat) : option nat :=
  fold_left (fun p m => match p with None => Some m | Some _ => if is_bout (bk (bn g m)) then Some m else p end) l None.
(** an entry of [actions]: node, input, new tensor *)
Definition bact := (nat * nat * nat)%type.
(** 1245-1275 and 1281-1312; [cst]: constants are looked up in [tensor_map]; [None]: an exception *)
Definition b_copy (cst : bool) (n : nat) (s : bg * list bact) (r : nat) : option (bg * list bact) :=
  let '(g, acts) := s in
  let u := nth 0 (bin (bn g n)) 0 in let t := nth 0 (bout (bn g n)) 0 in let m := bnext g in
  let from_const := match bk (bn g (bprod g u)) with BConst => true | _ => false end in
  if from_const && negb cst then None else
  if is_bout (bk (bn g r)) then None else
  match o_positions t (bin (bn g r)) with
  | [] => None
  | is => Some (mkBG (o_upd (bn g) m (mkBN (bk (bn g n)) [u] [m])) (bids g ++ [m]) (bed g ++ [(bprod g u, m, u)]) (o_upd (bprod g) m m) (S m),
                acts ++ map (fun i => (r, i, m)) is)
  end.
Fixpoint b_copies (cst : bool) (n : nat) (rs : list nat) (s : bg * list bact) : option (bg * list bact) :=
  match rs with [] => Some s | r :: rs => match b_copy cst n s r with Some s' => b_copies cst n rs s' | None => None end end.
(** 4821-4837; [ord] is [list(set(...))] *)
Definition b_node (cst : bool) (ord : list nat -> list nat) (s : bg * list bact) (n : nat) : option (bg * list bact) :=
  let ns := b_succ (fst s) n in
  let rs := match preserve (fst s) ns with None => [] | Some p => ord (filter (fun m => negb (m =? p)) ns) end in
  b_copies cst n rs s.
Fixpoint b_nodes (cst : bool) (ord : list nat -> list nat) (ns : list nat) (s : bg * list bact) : option (bg * list bact) :=
  match ns with [] => Some s | n :: ns => match b_node cst ord s n with Some s' => b_nodes cst ord ns s' | None => None end end.
(** graph.py 262-324 *)
Definition b_act (g : bg) (a : bact) : bg :=
  let '(r, i, m) := a in
  let n := bn g r in let old := nth i (bin n) 0 in
  let ed := bed g ++ [(bprod g m, r, m)] in
  mkBG (o_upd (bn g) r (mkBN (bk n) (set_nth i m (bin n)) (bout n))) (bids g)
    (match find (fun ie => (snd (fst (snd ie)) =? r) && (snd (snd ie) =? old) && o_mem old (bout (bn g (fst (fst (snd ie))))))
                (combine (seq 0 (length (bed g))) (bed g)) with
     | Some ie => remove_pos [fst ie] ed | None => ed end)
    (bprod g) (bnext g).
(** 1241-1314, 4839-4842 *)
Definition branch_expand (cst : bool) (ord : list nat -> list nat) (g : bg) : option bg :=
  match b_nodes cst ord (ord (map (fun e => fst (fst e)) (filter (branch_edge g) (bed g)))) (g, []) with
  | Some (g1, acts) => Some (fold_left b_act acts g1)
  | None => None
  end.
