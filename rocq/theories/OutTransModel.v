(** Model of [output_transpose_pass] (tinynn/converter/operators/optimize.py 3181-3393) with [add_operator], [add_outputs],
    [remove_operator_input] and [replace_operator_input] (graph.py 211-324).

    The edges of the graph are a list: the index of an edge is its position, new edges come last and deleting edges moves the
    later ones up, as igraph does.  Simplified: constant attribute inputs (the permutations) and the edges they have are left
    out, no UNUSED nodes, the transposed outputs of one node are handled one by one, numbers for names. *)
From Coq Require Import List Arith Bool.
Import ListNotations.

Inductive okind := OIn | OConst | OOp | ODeq | OTr (nhwc : bool) | OOut.
Record onode := mkON { okd : okind; oin : list nat; oout : list nat }.
(** source, target, label *)
Definition oedge := (nat * nat * nat)%type.
(** nodes, their numbers, edges, [tensor_node_map], the next unused number, [graph.outputs] *)
Record og := mkOG { on : nat -> onode; oids : list nat; oed : list oedge; oprod : nat -> nat; onext : nat; oouts : list nat }.

Definition o_mem (x : nat) (l : list nat) : bool := existsb (Nat.eqb x) l.
Definition o_upd {A} (f : nat -> A) (k : nat) (x : A) : nat -> A := fun n => if n =? k then x else f n.
Definition is_oout (k : okind) : bool := match k with OOut => true | _ => false end.
(** edges with their index, without those in [rem] *)
Definition ilive (rem : list nat) (l : list oedge) : list (nat * oedge) :=
  filter (fun ie => negb (o_mem (fst ie) rem)) (combine (seq 0 (length l)) l).
(** igraph [delete_edges] *)
Definition remove_pos (rem : list nat) (l : list oedge) : list oedge := map snd (ilive rem l).
(** [node.out_edges()] with the label [t], without those in [rem] (3234-3241 and 3302-3307) *)
Definition from_to (n t : nat) (e : oedge) : bool := (fst (fst e) =? n) && (snd e =? t).
Definition o_edges (g : og) (rem : list nat) (n t : nat) : list (nat * oedge) :=
  filter (fun ie => from_to n t (snd ie)) (ilive rem (oed g)).
Definition e_dst (ie : nat * oedge) : nat := snd (fst (snd ie)).
(** graph.py 228-244 for an operator with one new output *)
Definition o_add (g : og) (k : okind) (u : nat) : og :=
  let m := onext g in
  mkOG (o_upd (on g) m (mkON k [u] [m])) (oids g ++ [m]) (oed g ++ [(oprod g u, m, u)]) (o_upd (oprod g) m m) (S m) (oouts g).

(** an entry of [actions]: node, input, new tensor, [return_ids] *)
Record oact := mkAct { a_node : nat; a_idx : nat; a_new : nat; a_ret : bool }.
Record ost := mkOS { s_g : og; s_rem : list nat; s_rv : list nat; s_acts : list oact }.
Definition o_positions (t : nat) (l : list nat) : list nat := filter (fun i => nth i l 0 =? t) (seq 0 (length l)).
(** 3229-3294: the output [t] of a DEQUANTIZE *)
Definition deq_step (s : ost) (t : nat) : ost :=
  let g := s_g s in let d := oprod g t in
  let nexts := filter (fun n => negb (is_oout (okd (on g n)))) (map e_dst (o_edges g (s_rem s) d t)) in
  let u := nth 0 (oin (on g d)) 0 in
  let a := onext g in
  let g1 := o_add g (OTr true) u in
  let acts1 := s_acts s ++ [mkAct d 0 a true] in
  match nexts with
  | [] => mkOS g1 (s_rem s) (s_rv s) acts1
  | _ => let b := onext g1 in
         mkOS (o_add g1 (OTr false) t) (s_rem s) (s_rv s)
              (acts1 ++ flat_map (fun n => map (fun i => mkAct n i b false) (o_positions t (oin (on g n)))) nexts)
  end.
(** 3369-3375: the first input [t] becomes [f] *)
Fixpoint sub_first (t f : nat) (l : list nat) : list nat :=
  match l with [] => [] | x :: r => if x =? t then f :: r else x :: sub_first t f r end.
Definition sub_one (t f : nat) (n : onode) : onode := mkON (okd n) (sub_first t f (oin n)) (oout n).
(** 3366-3375 *)
Definition connect (t f p : nat) (ds : list nat) (g : og) : og :=
  fold_left (fun g d => mkOG (o_upd (on g) d (sub_one t f (on g d))) (oids g) (oed g ++ [(p, d, f)]) (oprod g) (onext g) (oouts g)) ds g.
(** 3296-3375: the output [t] of another node; [None]: [node['op']] is [None] *)
Definition next_step (s : ost) (t : nat) : option ost :=
  let g := s_g s in let p := oprod g t in
  match okd (on g p) with
  | OIn | OConst => None
  | _ =>
    let es := o_edges g (s_rem s) p t in
    let outs := filter (fun ie => is_oout (okd (on g (e_dst ie)))) es in
    let nexts := filter (fun ie => negb (is_oout (okd (on g (e_dst ie))))) es in
    let f := onext g in let m := onext g in let o := S (onext g) in
    let np := mkON (okd (on g p)) (oin (on g p)) (map (fun x => if x =? t then f else x) (oout (on g p))) in
    let on1 := o_upd (o_upd (o_upd (on g) p np) m (mkON (OTr true) [f] [t])) o (mkON OOut [t] []) in
    let g1 := mkOG on1 (oids g ++ [m; o]) (oed g ++ [(p, m, f); (m, o, t)]) (o_upd (o_upd (oprod g) f p) t m) (S (S (onext g))) (oouts g) in
    Some (mkOS (connect t f p (map e_dst nexts) g1) (s_rem s ++ map fst nexts) (s_rv s ++ map e_dst outs) (s_acts s))
  end.
(** graph.py 277-291: the edge of an input *)
Definition in_edge (g : og) (n old : nat) : list nat :=
  firstn 1 (map fst (filter (fun ie => let '(s, d, l) := snd ie in (d =? n) && (l =? old) && o_mem old (oout (on g s))) (ilive [] (oed g)))).
(** graph.py 314-324 *)
Fixpoint set_nth (i x : nat) (l : list nat) : list nat :=
  match l, i with [], _ => [] | _ :: r, 0 => x :: r | y :: r, S j => y :: set_nth j x r end.
Definition act_step (s : og * list nat) (a : oact) : og * list nat :=
  let '(g, ids) := s in
  let old := nth (a_idx a) (oin (on g (a_node a))) 0 in
  let e := in_edge g (a_node a) old in
  let n := on g (a_node a) in
  let ed := oed g ++ [(oprod g (a_new a), a_node a, a_new a)] in
  (mkOG (o_upd (on g) (a_node a) (mkON (okd n) (set_nth (a_idx a) (a_new a) (oin n)) (oout n))) (oids g)
        (if a_ret a then ed else remove_pos e ed) (oprod g) (onext g) (oouts g),
   if a_ret a then ids ++ e else ids).
(** 3390-3393 *)
Definition o_finish (s : ost) : og :=
  let '(g, ids) := fold_left act_step (s_acts s) (s_g s, []) in
  let ed := remove_pos (s_rem s ++ ids) (oed g) in
  mkOG (on g) (filter (fun n => negb (o_mem n (s_rv s))) (oids g))
       (filter (fun e => negb (o_mem (fst (fst e)) (s_rv s)) && negb (o_mem (snd (fst e)) (s_rv s))) ed) (oprod g) (onext g) (oouts g).
Fixpoint next_steps (ts : list nat) (s : ost) : option ost :=
  match ts with [] => Some s | t :: r => match next_step s t with Some s' => next_steps r s' | None => None end end.
(** 3191-3199: one entry for every name; [None]: the assertion *)
Fixpoint out_dict (l : list (nat * bool)) : option (list (nat * bool)) :=
  match l with
  | [] => Some []
  | (t, b) :: r =>
    match out_dict r with
    | None => None
    | Some d => match find (fun x => fst x =? t) d with
                | Some (_, b') => if Bool.eqb b b' then Some ((t, b) :: filter (fun x => negb (fst x =? t)) d) else None
                | None => Some ((t, b) :: d) end
    end
  end.
Definition is_deq (g : og) (t : nat) : bool := match okd (on g (oprod g t)) with ODeq => true | _ => false end.
(** 3181-3393, [flags] is [output_transpose] with [None] decided *)
Definition output_transpose (g : og) (flags : list bool) : option og :=
  match out_dict (combine (oouts g) flags) with
  | None => None
  | Some d =>
    let ts := map fst (filter snd d) in
    let s := fold_left deq_step (filter (is_deq g) ts) (mkOS g [] [] []) in
    match next_steps (filter (fun t => negb (is_deq g t)) ts) s with Some s' => Some (o_finish s') | None => None end
  end.
