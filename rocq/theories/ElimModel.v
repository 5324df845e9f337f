(** Model of the function that takes chains of nodes out of the operator graph
    ([tinynn/converter/operators/optimize.py], [elinimate_sequences], 4647-4811), with the methods of
    [CommonGraph] it calls ([graph.py], [connect_next_tensors] 354-384, [replace_next_tensors] 386-420,
    [replace_operator_input] 298-324, [remove_operator_input] 262-296, [add_nodes] 116-154).

    An exception is [None].  A vertex has the index igraph gives it; [delete_vertices] is the last thing
    done, so that no index changes before.  The list [op.outputs] of an operator and the list
    [node['outputs']] of names always are the same and kept once.  [tensor_map] is not modelled: a tensor
    is its name, and its buffer is in [g_buf]. *)
From Coq Require Import List Arith Bool String.
From Verif Require Import ChainModel.
Import ListNotations.

(** [node['node_type']]: the special nodes of [ExtendedOperator] (base.py 47-56) and operators. *)
Inductive kind := KIn | KConst | KOut | KUnused | KOp.

(** A vertex: its index, [node['name']], type, operator with its attributes, the names of [op.inputs]
    and of [node['outputs']] (graph.py 141-150, 172-195). *)
Record vertex := mkV {
  v_id : nat; v_name : string; v_kind : kind; v_op : nat; v_ins : list string; v_outs : list string }.

(** An edge with its attributes [name] and [label] (graph.py 232, 246-248). *)
Record edge := mkE { e_src : nat; e_dst : nat; e_name : string; e_label : string }.

(** The graph, [tensor_node_map] (graph.py 20) and the buffers of the tensors. *)
Record graph (X : Type) := mkG {
  g_vs : list vertex; g_es : list edge; g_node : string -> option nat; g_buf : string -> option X }.
Arguments mkG {X}. Arguments g_vs {X}. Arguments g_es {X}. Arguments g_node {X}. Arguments g_buf {X}.

(** [node_type in (OUTPUT_NODE, UNUSED_NODE)] (optimize.py 4714, 4728; graph.py 373). *)
Definition is_sink (k : kind) : bool := match k with KOut | KUnused => true | _ => false end.
Definition is_kop (k : kind) : bool := match k with KOp => true | _ => false end.
Definition is_kin (k : kind) : bool := match k with KIn => true | _ => false end.
Definition is_kconst (k : kind) : bool := match k with KConst => true | _ => false end.

(** [x in names] and [names.index(x)]. *)
Definition smem (x : string) (l : list string) : bool := existsb (String.eqb x) l.
Fixpoint sindex (x : string) (l : list string) : option nat :=
  match l with
  | [] => None
  | y :: l' => if String.eqb x y then Some 0 else option_map S (sindex x l')
  end.

(** [names[i] = x]. *)
Fixpoint supd {A} (i : nat) (x : A) (l : list A) : list A :=
  match l, i with
  | [], _ => []
  | _ :: l', 0 => x :: l'
  | y :: l', S j => y :: supd j x l'
  end.

Definition fupd {A} (f : string -> A) (k : string) (v : A) : string -> A :=
  fun x => if String.eqb x k then v else f x.

Definition obind {A B} (o : option A) (f : A -> option B) : option B :=
  match o with Some a => f a | None => None end.

Section Elim.
Context {X : Type}.
Notation graph := (graph X).

(** [graph.vs[i]], [vertex.out_edges()], [vertex.outdegree()]. *)
Definition vfind (g : graph) (i : nat) : option vertex := find (fun v => v_id v =? i) (g_vs g).
Definition out_edges (g : graph) (i : nat) : list edge := filter (fun e => e_src e =? i) (g_es g).
Definition outdegree (g : graph) (i : nat) : nat := List.length (out_edges g i).

(** [node['node_type']] of the target of an edge. *)
Definition kind_of (g : graph) (i : nat) : option kind := option_map v_kind (vfind g i).
Definition to_sink (g : graph) (e : edge) : bool :=
  match kind_of g (e_dst e) with Some k => is_sink k | None => false end.

Definition set_vs (g : graph) (vs : list vertex) : graph := mkG vs (g_es g) (g_node g) (g_buf g).
Definition on_vertex (g : graph) (i : nat) (f : vertex -> vertex) : graph :=
  set_vs g (map (fun v => if v_id v =? i then f v else v) (g_vs g)).
Definition with_ins (l : list string) (v : vertex) : vertex :=
  mkV (v_id v) (v_name v) (v_kind v) (v_op v) l (v_outs v).
Definition with_outs (l : list string) (v : vertex) : vertex :=
  mkV (v_id v) (v_name v) (v_kind v) (v_op v) (v_ins v) l.
Definition with_op (c : nat) (v : vertex) : vertex :=
  mkV (v_id v) (v_name v) (v_kind v) c (v_ins v) (v_outs v).
(** [self.graph.add_edge(...)]. *)
Definition add_edge (g : graph) (e : edge) : graph := mkG (g_vs g) (g_es g ++ [e]) (g_node g) (g_buf g).

(** graph.py 369-384, one round of the loop of [connect_next_tensors] ([skips_nodes] is [None]). *)
Definition connect_one (f : nat) (name : string) (g : graph) (e : edge) : option graph :=
  obind (kind_of g (e_dst e)) (fun k =>
  if is_sink k
  then if String.prefix (name ++ "_output")%string (e_name e)
       then Some (add_edge g (mkE f (e_dst e) (e_name e) name)) else None
  else if String.eqb name (e_name e)
       then Some (add_edge g (mkE f (e_dst e) name name)) else None).

(** graph.py 405-420, one round of the loop of [replace_next_tensors]: an output node is refused by the
    [assert False], any other node without operator by [op.inputs]. *)
Definition replace_one (orig : string) (f : nat) (name : string) (g : graph) (e : edge) : option graph :=
  obind (kind_of g (e_dst e)) (fun k =>
  if is_kop k
  then if String.eqb orig (e_name e)
       then Some (add_edge (on_vertex g (e_dst e)
                             (fun v => with_ins (map (fun t => if String.eqb t orig then name else t) (v_ins v)) v))
                           (mkE f (e_dst e) name name))
       else None
  else None).

Fixpoint fold_opt {A B} (f : A -> B -> option A) (a : A) (l : list B) : option A :=
  match l with
  | [] => Some a
  | b :: l' => obind (f a b) (fun a' => fold_opt f a' l')
  end.

(** graph.py 354-384, 386-420: the edges are listed before the first new one. *)
Definition connect_next (g : graph) (l f : nat) (name : string) : option graph :=
  fold_opt (connect_one f name) g (out_edges g l).
Definition replace_next (g : graph) (l f : nat) (name : string) : option graph :=
  obind (vfind g l) (fun vl =>
  obind (nth_error (v_outs vl) 0) (fun orig =>
  fold_opt (replace_one orig f name) g (out_edges g l))).

(** A sequence with the answers of [remove_first_pred] and [remove_last_pred] for it, and what
    [remove_first_node_action] (or [remove_last_node_action]) does to the node that is kept: the operator
    it becomes at once, and the inputs replaced by [replace_operator_input] when all sequences are done,
    each with its position, the name of the new tensor and its buffer.  A sequence for which [skip_pred]
    answers yes is left out of the list. *)
Record sequence := mkS {
  s_nodes : list nat; s_rf : bool; s_rl : bool; s_edit : option (nat * list (nat * string * X)) }.

Definition s_first (s : sequence) : nat := hd 0 (s_nodes s).
Definition s_last (s : sequence) : nat := last (s_nodes s) 0.

(** optimize.py 4690-4691. *)
Definition last_id (s : sequence) : nat :=
  if s_rl s then s_last s else last (removelast (s_nodes s)) 0.

(** optimize.py 4684-4688. *)
Definition first_id (g : graph) (ii : nat) (s : sequence) : option nat :=
  if s_rf s
  then obind (vfind g (s_first s)) (fun v =>
       match v_kind v with
       | KOp => obind (nth_error (v_ins v) ii) (g_node g)
       | _ => None
       end)
  else Some (s_first s).

(** How a sequence is taken out. *)
Inductive mode := Skip | Forward | Connect.

(** optimize.py 4701-4749.  [next]: the node of the sequence that reads the tensor [oname] of the first
    node. *)
Definition decide (g : graph) (first : vertex) (last next : nat) (oname : string) (force : bool) : mode :=
  let fwd0 := is_kin (v_kind first) in
  let branch := 1 <? outdegree g (v_id first) in
  let sink := existsb (to_sink g) (out_edges g last) in
  let has_out := sink && negb fwd0 in
  let used := existsb (fun e =>
      if e_dst e =? next then false
      else if to_sink g e then has_out && String.eqb (e_label e) oname
      else match vfind g (e_dst e) with Some v => smem oname (v_ins v) | None => false end)
    (out_edges g (v_id first)) in
  let fwd := fwd0 || (branch && negb has_out) in
  if (sink && fwd0) || (branch && has_out && used) then Skip
  else if fwd then Forward
  else if force then (if has_out then Skip else Forward)
  else Connect.

(** optimize.py 4761-4773: the output of the first node gets the name of the last one. *)
Definition rename_out (g : graph) (f oi : nat) (name : string) : graph :=
  let g1 := on_vertex g f (fun v => with_outs (supd oi name (v_outs v)) v) in
  mkG (g_vs g1) (g_es g1) (fupd (g_node g1) name (Some f)) (g_buf g1).

(** optimize.py 4775-4782: the buffer of a constant follows its new name.  The name is that of the last
    node of the sequence, also if that node is kept. *)
Definition set_buffer (g : graph) (ii : nat) (s : sequence) : option graph :=
  obind (vfind g (s_first s)) (fun v0 =>
  obind (vfind g (s_last s)) (fun vl =>
  obind (if is_kconst (v_kind v0) then Some (v_name v0) else nth_error (v_ins v0) ii) (fun old =>
  obind (nth_error (v_outs vl) 0) (fun new =>
  Some (mkG (g_vs g) (g_es g) (g_node g) (fupd (g_buf g) new (g_buf g old))))))).

(** What the loop collects: the vertices to delete and the inputs to replace. *)
Definition action := (nat * nat * string * X)%type.
Record st := mkSt { st_g : graph; st_rm : list nat; st_acts : list action }.

(** optimize.py 4784-4806: the nodes of a sequence that go. *)
Definition removed (s : sequence) : list nat :=
  let l := if s_rf s then s_nodes s else tl (s_nodes s) in
  if s_rl s then l else removelast l.
Definition kept (s : sequence) : nat := if s_rf s then s_last s else s_first s.

(** optimize.py 4788-4803: the actions of the node that is kept. *)
Definition edit (s : sequence) (g : graph) : graph * list action :=
  if s_rf s && s_rl s then (g, []) else
  match s_edit s with
  | None => (g, [])
  | Some (c, l) => (on_vertex g (kept s) (with_op c), map (fun a => (kept s, fst (fst a), snd (fst a), snd a)) l)
  end.

(** optimize.py 4660-4806: one sequence. *)
Definition elim_one (ii : nat) (force : bool) (t : st) (s : sequence) : option st :=
  let g := st_g t in
  obind (first_id g ii s) (fun fid =>
  obind (vfind g fid) (fun first =>
  let next := if fid =? s_first s then nth 1 (s_nodes s) 0 else nth 0 (s_nodes s) 0 in
  obind (vfind g next) (fun vn =>
  obind (nth_error (v_ins vn) ii) (fun oname =>
  obind (sindex oname (v_outs first)) (fun oi =>
  let lid := last_id s in
  let done g' := let (g2, acts) := edit s g' in
                 Some (mkSt g2 (st_rm t ++ removed s) (st_acts t ++ acts)) in
  match decide g first lid next oname force with
  | Skip => Some t
  | Forward => obind (replace_next g lid fid oname) done
  | Connect =>
      obind (vfind g lid) (fun vl =>
      obind (nth_error (v_outs vl) 0) (fun new =>
      obind (connect_next g lid fid new) (fun g1 =>
      let g2 := rename_out g1 fid oi new in
      if is_kconst (v_kind first) then obind (set_buffer g2 ii s) done else done g2)))
  end))))).

(** graph.py 298-324 with 262-296 ([remove_operator_input]) and 116-154 ([add_nodes]). *)
Fixpoint drop_first {A} (p : A -> bool) (l : list A) : list A :=
  match l with [] => [] | a :: l' => if p a then l' else a :: drop_first p l' end.
Definition fresh_id (g : graph) : nat := S (list_max (map v_id (g_vs g))).
Definition old_edge (g : graph) (i : nat) (old : string) (e : edge) : bool :=
  (e_dst e =? i) && String.eqb (e_name e) old &&
  match vfind g (e_src e) with Some u => smem old (v_outs u) | None => false end.
Definition replace_input (g : graph) (a : action) : option graph :=
  let '(i, idx, new, x) := a in
  obind (vfind g i) (fun v =>
  obind (nth_error (v_ins v) idx) (fun old =>
  let drop := drop_first (old_edge g i old) in
  let vs := map (fun v => if v_id v =? i then with_ins (supd idx new (v_ins v)) v else v) (g_vs g) in
  match g_node g new with
  | Some j => Some (mkG vs (drop (g_es g) ++ [mkE j i new new]) (g_node g) (g_buf g))
  | None => let j := fresh_id g in
            Some (mkG (vs ++ [mkV j new KConst 0 [] [new]]) (drop (g_es g) ++ [mkE j i new new])
                      (fupd (g_node g) new (Some j)) (fupd (g_buf g) new (Some x)))
  end)).

(** [delete_vertices]: the edges of the vertices go with them. *)
Definition nmem (i : nat) (l : list nat) : bool := existsb (Nat.eqb i) l.
Definition delete (rm : list nat) (g : graph) : graph :=
  mkG (filter (fun v => negb (nmem (v_id v) rm)) (g_vs g))
      (filter (fun e => negb (nmem (e_src e) rm) && negb (nmem (e_dst e) rm)) (g_es g))
      (g_node g) (g_buf g).

(** optimize.py 4647-4811. *)
Definition eliminate (ii : nat) (force : bool) (g : graph) (l : list sequence) : option graph :=
  obind (fold_opt (elim_one ii force) (mkSt g [] []) l) (fun t =>
  obind (fold_opt replace_input (st_g t) (st_acts t)) (fun g' => Some (delete (st_rm t) g'))).

(** optimize.py 4012-4064 [is_ending_with_noop_edge]; [noop]: the disjunction about the operator and its
    shapes, which is [is_noop] of [PassModel.v]. *)
Definition noop_edge (noop : vertex -> bool) (branch : bool) (g : graph) (e : edge) : bool :=
  match vfind g (e_src e), vfind g (e_dst e) with
  | Some u, Some v =>
      (if branch then 1 <=? outdegree g (v_id u) else outdegree g (v_id u) =? 1) &&
      (1 <=? outdegree g (v_id v)) && is_kop (v_kind v) &&
      match v_ins v with x :: _ => smem x (v_outs u) | [] => false end && noop v
  | _, _ => false
  end.

(** optimize.py 1174-1185 [remove_noop_pass]. *)
Definition as_sequence (l : list nat) : sequence := mkS l false true None.
Definition remove_noop (noop : vertex -> bool) (branch : bool) (g : graph) : option graph :=
  let es := filter (noop_edge noop branch g) (g_es g) in
  let pairs := map (fun e => [e_src e; e_dst e]) es in
  obind (if branch then Some pairs else fuse_connected_edges (List.length es) pairs) (fun l =>
  eliminate 0 false g (map as_sequence l)).

(** optimize.py 4110-4147, 4196-4205 (the tests of the edges of the four [fuse_simple_*] passes, [fus]: what they ask
    of the two operators) and 748-757, 788-795, 906-912, 947-953 (the passes up to the call). [plan] is
    [_remove_first_pred] with the edit of [_remove_first_action]; a sequence is left out if it is skipped. *)
Definition chain_edge (fus : vertex -> vertex -> bool) (g : graph) (e : edge) : bool :=
  match vfind g (e_src e), vfind g (e_dst e) with
  | Some u, Some v =>
      fus u v && (outdegree g (v_id u) =? 1) && (1 <=? outdegree g (v_id v)) &&
      match v_outs u, v_ins v with o :: _, x :: _ => String.eqb o x | _, _ => false end
  | _, _ => false
  end.
Definition fuse_chains (fus : vertex -> vertex -> bool) (plan : list nat -> option sequence) (g : graph)
  : option graph :=
  let es := filter (chain_edge fus g) (g_es g) in
  obind (fuse_connected_edges (List.length es) (map (fun e => [e_src e; e_dst e]) es)) (fun l =>
  eliminate 0 false g (flat_map (fun c => match plan c with Some s => [s] | None => [] end) l)).

(** optimize.py 759-783 with 4461-4470, 798-821 and 917-942: the plan of the passes that fuse transposes,
    one-dimensional gathers and reshapes.  Input 1 of the operators is a constant; [comp] is one step of
    the loop that fuses them ([perm[next]] for the first two, the next shape for the last), [same] the test
    whether the chain does nothing, [name] the name of the tensor [create_attr_tensor] makes. *)
Definition param (g : graph) (i : nat) : option X :=
  obind (vfind g i) (fun v => obind (nth_error (v_ins v) 1) (g_buf g)).
Definition fuse_params (comp : X -> X -> X) (g : graph) (l : list nat) : option X :=
  match l with
  | [] => None
  | a :: l' => obind (param g a) (fun p =>
               fold_opt (fun p b => obind (param g b) (fun q => Some (comp p q))) p l')
  end.
Definition simple_plan (comp : X -> X -> X) (same : list nat -> X -> bool) (name : list nat -> string)
  (g : graph) (l : list nat) : option sequence :=
  obind (fuse_params comp g l) (fun p =>
  obind (vfind g (hd 0 l)) (fun v =>
  Some (if same l p then mkS l true true None else mkS l false true (Some (v_op v, [(1, name l, p)]))))).
End Elim.
Arguments sequence X : clear implicits.
Arguments st X : clear implicits.
Arguments action X : clear implicits.
