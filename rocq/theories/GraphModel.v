(** Model of the operator graph of the converter: scheduling, index tables, cleanup, fresh names,
    constant sharing, boundary folding and requantize splitting
    ([tinynn/converter/operators/graph.py], [tinynn/converter/operators/optimize.py]).

    Vertices and tensor names are numbers, except where the text of a name matters
    ([add_nodes]).  The order in which igraph lists the edges of a vertex is left open: the
    adjacency lists are data of the graph. *)
From Coq Require Import List Arith Bool ZArith String DecimalString.
Import ListNotations.
Local Open Scope nat_scope.

Definition memb (x : nat) (l : list nat) : bool := existsb (Nat.eqb x) l.

(** [ExtendedOperator.INPUT_NODE], [OUTPUT_NODE], [CONSTANT_NODE], [UNUSED_NODE]
    (operators/base.py 13-16); operators have codes [>= 0]. *)
Definition t_input : Z := (-1)%Z.
Definition t_output : Z := (-2)%Z.
Definition t_const : Z := (-3)%Z.
Definition t_unused : Z := (-4)%Z.

(** The igraph graph (graph.py 26-40): node types, and per vertex the targets of [out_edges()]
    and the sources of [in_edges()], in the order igraph reports them. *)
Record graph := { g_types : list Z; g_out : list (list nat); g_in : list (list nat) }.
(** Attribute and adjacency lookups [v['node_type']], [v.out_edges()], [v.in_edges()] (graph.py 478-533). *)
Definition gsize (g : graph) : nat := List.length (g_types g).
Definition ty (g : graph) (v : nat) : Z := nth v (g_types g) t_unused.
Definition outs (g : graph) (v : nat) : list nat := nth v (g_out g) [].
Definition ins (g : graph) (v : nat) : list nat := nth v (g_in g) [].
Definition is_op (g : graph) (v : nat) : bool := (0 <=? ty g v)%Z.

(** Start lists (graph.py 477-478): inputs, and operators without in-edges. *)
Definition start_inputs (g : graph) : list nat :=
  filter (fun v => (ty g v =? t_input)%Z) (seq 0 (gsize g)).
Definition start_orphans (g : graph) : list nat :=
  filter (fun v => is_op g v && match ins g v with [] => true | _ => false end) (seq 0 (gsize g)).
(** constants (graph.py 481). *)
Definition constants (g : graph) : list nat :=
  filter (fun v => (ty g v =? t_const)%Z) (seq 0 (gsize g)).

(** "all sources of the in-edges are visited" (graph.py 489-493, 526-530). *)
Definition ready (g : graph) (visited : list nat) (v : nat) : bool :=
  forallb (fun u => memb u visited) (ins g v).

(** Body of the loop over the out-edges of a constant (graph.py 485-505): the target is added to
    the start list when it is an operator, not in the list yet and ready.  The warnings are
    not modelled. *)
Definition const_step (g : graph) (visited : list nat) (other : list nat) (v : nat) : list nat :=
  if memb v other then other
  else if ready g visited v then (if is_op g v then other ++ [v] else other) else other.

(** The loop over the constants (graph.py 482-505).  [visited] is the set of the elements of
    [indices], so one list stands for both. *)
Definition const_loop (g : graph) (cs : list nat) (st : list nat * list nat) : list nat * list nat :=
  fold_left (fun st c =>
    let indices := fst st ++ [c] in
    (indices, fold_left (const_step g indices) (outs g c) (snd st))) cs st.

(** The stack loop (graph.py 518-543); the head of [q] is the top of the stack, pushing the
    reversed out-edges puts the first target on top.  [None]: fuel exhausted. *)
Fixpoint topo_loop (g : graph) (fuel : nat) (q indices : list nat) : option (list nat) :=
  match fuel with
  | 0 => None
  | S fuel' =>
      match q with
      | [] => Some indices
      | v :: q' =>
          if memb v indices then topo_loop g fuel' q' indices
          else if ready g indices v then topo_loop g fuel' (outs g v ++ q') (indices ++ [v])
          else topo_loop g fuel' q' indices
      end
  end.

(** [topological_sort] (graph.py 462-545).  The fuel is a bound on the number of [q.get()]. *)
Definition topo_fuel (g : graph) (q : list nat) : nat :=
  S (List.length q + list_sum (map (fun v => List.length (outs g v)) (seq 0 (gsize g)))).
Definition topological_sort (g : graph) : option (list nat) :=
  let '(indices, other) := const_loop g (constants g) ([], start_orphans g) in
  let q := start_inputs g ++ other in
  topo_loop g (topo_fuel g q) q indices.

(** [collect_operators] (graph.py 560-575): the operators among the sorted vertices; the k-th one
    gets [op.op.index = k]. *)
Definition collect_operators (g : graph) : option (list nat) :=
  option_map (filter (is_op g)) (topological_sort g).

(** A tensor (tflite/base.py 173-274): [index], [is_variable], and its [Buffer] object if any. *)
Record tensor := { t_index : Z; t_var : bool; t_buf : option nat }.
(** State of [collect_tensor_buffers] (graph.py 604-611): indices of tensor objects, indices of
    buffer objects, the two tables ([None] in the buffer table is the empty buffer), the two
    counters, and the two index lists. *)
Record cstate := {
  c_tidx : nat -> Z; c_bidx : nat -> Z;
  c_tensors : list nat; c_buffers : list (option nat);
  c_in : list Z; c_out : list Z }.
Definition upd {A} (f : nat -> A) (k : nat) (v : A) : nat -> A := fun x => if x =? k then v else f x.

(** [idx[item] = value] for all positions of [label] in [names] (graph.py 632-641). *)
Definition set_all (names : list nat) (label : nat) (v : Z) (idx : list Z) : list Z :=
  map (fun p => if fst p =? label then v else snd p) (combine names idx).

(** One iteration over the labels (graph.py 612-641).  [tensor_idx] is the length of the tensor
    table and [buffer_idx] the length of the buffer table.  [None]: a variable without buffer. *)
Definition collect_step (tm : nat -> tensor) (inputs outputs : list nat) (st : cstate) (label : nat)
  : option cstate :=
  let t := tm label in
  let fin (st : cstate) :=
    Some {| c_tidx := c_tidx st; c_bidx := c_bidx st; c_tensors := c_tensors st; c_buffers := c_buffers st;
            c_in := if memb label inputs then set_all inputs label (c_tidx st label) (c_in st) else c_in st;
            c_out := if memb label outputs then set_all outputs label (c_tidx st label) (c_out st) else c_out st |} in
  if (t_index t =? -1)%Z then fin st
  else
    let tidx := upd (c_tidx st) label (Z.of_nat (List.length (c_tensors st))) in
    let tensors := c_tensors st ++ [label] in
    match t_buf t with
    | None => if t_var t then None
              else fin {| c_tidx := tidx; c_bidx := c_bidx st; c_tensors := tensors; c_buffers := c_buffers st;
                          c_in := c_in st; c_out := c_out st |}
    | Some b =>
        if t_var t
        then fin {| c_tidx := tidx; c_bidx := upd (c_bidx st) b 0%Z; c_tensors := tensors;
                    c_buffers := c_buffers st; c_in := c_in st; c_out := c_out st |}
        else fin {| c_tidx := tidx; c_bidx := upd (c_bidx st) b (Z.of_nat (List.length (c_buffers st)));
                    c_tensors := tensors; c_buffers := c_buffers st ++ [Some b];
                    c_in := c_in st; c_out := c_out st |}
    end.
Fixpoint collect_loop (tm : nat -> tensor) (inputs outputs : list nat) (labels : list nat) (st : cstate)
  : option cstate :=
  match labels with
  | [] => Some st
  | l :: labels' => match collect_step tm inputs outputs st l with
                    | Some st' => collect_loop tm inputs outputs labels' st'
                    | None => None
                    end
  end.

(** names whose index is still negative (graph.py 643-644). *)
Definition missing (names : list nat) (idx : list Z) : list nat :=
  map fst (filter (fun p => (snd p <? 0)%Z) (combine names idx)).
(** [inputs.index(name)] then assignment: the first position only (graph.py 654-655). *)
Fixpoint set_first (names : list nat) (label : nat) (v : Z) (idx : list Z) : list Z :=
  match names, idx with
  | n :: names', i :: idx' => if n =? label then v :: idx' else i :: set_first names' label v idx'
  | _, _ => idx
  end.
(** Adding one missing input (graph.py 650-655). *)
Definition add_missing (inputs : list nat) (st : cstate) (name : nat) : cstate :=
  let k := Z.of_nat (List.length (c_tensors st)) in
  {| c_tidx := upd (c_tidx st) name k; c_bidx := c_bidx st; c_tensors := c_tensors st ++ [name];
     c_buffers := c_buffers st; c_in := set_first inputs name k (c_in st); c_out := c_out st |}.

(** [collect_tensor_buffers] (graph.py 577-657).  [labels] is any enumeration of the label set;
    the tensor map is a function ([tensor_map[label]] never fails for labels of edges).
    [None]: the assertion on missing outputs (646), or a variable without buffer (620). *)
Definition collect_tensor_buffers (tm : nat -> tensor) (bidx : nat -> Z)
    (labels inputs outputs : list nat) : option cstate :=
  let st0 := {| c_tidx := fun n => t_index (tm n); c_bidx := bidx; c_tensors := []; c_buffers := [None];
                c_in := map (fun _ => (-1)%Z) inputs; c_out := map (fun _ => (-1)%Z) outputs |} in
  match collect_loop tm inputs outputs labels st0 with
  | None => None
  | Some st =>
      match missing outputs (c_out st) with
      | _ :: _ => None
      | [] => Some (fold_left (add_missing inputs) (missing inputs (c_in st)) st)
      end
  end.
(** The buffer index written for a tensor (tflite/base.py 287-289). *)
Definition written_buffer (tm : nat -> tensor) (st : cstate) (label : nat) : Z :=
  match t_buf (tm label) with None => 0%Z | Some b => c_bidx st b end.

(** [cleanup_dead_nodes] (optimize.py 1054-1084).  [alive] lists the vertices left; deleting a
    vertex deletes its edges, so the out-degree counts the living targets.  Vertices keep
    their numbers (igraph renumbers them). *)
Definition dead (g : graph) (alive : list nat) (v : nat) : bool :=
  negb ((ty g v =? t_output)%Z || (ty g v =? t_unused)%Z) &&
  match filter (fun w => memb w alive) (outs g v) with [] => true | _ => false end &&
  negb (ty g v =? t_input)%Z.
Fixpoint cleanup_loop (g : graph) (fuel : nat) (alive : list nat) : option (list nat) :=
  match fuel with
  | 0 => None
  | S fuel' =>
      match filter (dead g alive) alive with
      | [] => Some alive
      | d => cleanup_loop g fuel' (filter (fun v => negb (memb v d)) alive)
      end
  end.
(** [connected] is the answer of [is_connected('weak')] (1056). *)
Definition cleanup_dead_nodes (g : graph) (connected : bool) : option (list nat) :=
  if connected then Some (seq 0 (gsize g)) else cleanup_loop g (S (gsize g)) (seq 0 (gsize g)).

(** Names.  [f'{t.name}_output_{i}'] (graph.py 136); a number prints in decimal. *)
Definition str_of_nat (i : nat) : string := NilEmpty.string_of_uint (Nat.to_uint i).
Definition suffixed (base suffix : string) (i : nat) : string :=
  (base ++ suffix ++ "_" ++ str_of_nat i)%string.
Definition smemb (s : string) (l : list string) : bool := existsb (String.eqb s) l.
(** The search loop of [add_nodes] (graph.py 130-140). *)
Fixpoint fresh_loop (base : string) (keys : list string) (fuel i : nat) : option string :=
  match fuel with
  | 0 => None
  | S fuel' => let s := suffixed base "_output" i in
               if smemb s keys then fresh_loop base keys fuel' (i + 1) else Some s
  end.
Definition output_name (base : string) (keys : list string) : option string :=
  let s := (base ++ "_output")%string in
  if smemb s keys then fresh_loop base keys (S (List.length keys)) 1 else Some s.
(** [add_nodes] for output and unused nodes, names only (graph.py 128-155): each new name enters
    the tensor map. *)
Fixpoint add_output_names (keys : list string) (tensors : list string) : option (list string * list string) :=
  match tensors with
  | [] => Some ([], keys)
  | t :: ts => match output_name t keys with
               | None => None
               | Some s => match add_output_names (keys ++ [s]) ts with
                           | None => None
                           | Some (r, ks) => Some (s :: r, ks)
                           end
               end
  end.
(** The k-th name of a counting generator: [create_attr_tensor], [create_transform_tensor] of the
    optimizer ("fuse", "_attr" / "_transform"; optimize.py 73-93), of the transformable operators
    (output name, "_te_attr" / "_te_transform"; transformable.py 27-44), of the operator
    converters (output name, "_attr" / "_transform"; torch/base.py 220-234) and of the
    half quantizer ("half"; half_quantizer.py 25-45). *)
Definition counter_name (base suffix : string) (k : nat) : string :=
  match k with 0 => (base ++ suffix)%string | _ => suffixed base suffix k end.

(** Constant sharing.  What the key of [group_tensors_pass] is made of (optimize.py 1016-1033):
    bytes, type, shape and quantization; a scale or zero point is a number or a tuple, a float
    stands as its bit pattern.  [k_buf = None]: an optional tensor without buffer. *)
Inductive qval := QScalar (z : Z) | QList (l : list Z).
Record tinfo := { k_buf : option (list Z); k_dtype : nat; k_shape : list nat;
                  k_quant : option (qval * qval * option nat) }.
(** An operator vertex: operand names, and the labels of its in-edges. *)
Record opnode := { o_in : list nat; o_edges : list nat }.
Fixpoint remove_one (x : nat) (l : list nat) : list nat :=
  match l with [] => [] | y :: l' => if y =? x then l' else y :: remove_one x l' end.
Fixpoint set_nth (i : nat) (x : nat) (l : list nat) : list nat :=
  match l, i with
  | [], _ => []
  | _ :: l', 0 => x :: l'
  | y :: l', S i' => y :: set_nth i' x l'
  end.
(** [replace_operator_input] (graph.py 294-321): the first in-edge labelled with the old name is
    removed (267-292) and one with the new name is added. *)
Definition replace_operator_input (o : opnode) (i new : nat) : opnode :=
  match nth_error (o_in o) i with
  | None => o
  | Some old => {| o_in := set_nth i new (o_in o); o_edges := remove_one old (o_edges o) ++ [new] |}
  end.
Definition qval_eqb (a b : qval) : bool :=
  match a, b with
  | QScalar x, QScalar y => Z.eqb x y
  | QList x, QList y => if list_eq_dec Z.eq_dec x y then true else false
  | _, _ => false
  end.
(** Equality of keys: tuples of three or six entries (optimize.py 1015-1035). *)
Definition key_eqb (a b : tinfo) : bool :=
  (match k_buf a, k_buf b with
   | Some x, Some y => if list_eq_dec Z.eq_dec x y then true else false
   | None, None => true
   | _, _ => false end) &&
  (k_dtype a =? k_dtype b) &&
  (if list_eq_dec Nat.eq_dec (k_shape a) (k_shape b) then true else false) &&
  match k_quant a, k_quant b with
  | None, None => true
  | Some (s, z, d), Some (s', z', d') =>
      qval_eqb s s' && qval_eqb z z' &&
      match d, d' with None, None => true | Some x, Some y => x =? y | _, _ => false end
  | _, _ => false
  end.
(** positions of [name] among the operands (optimize.py 1040-1041). *)
Definition positions (name : nat) (l : list nat) : list nat :=
  filter (fun i => match nth_error l i with Some n => n =? name | None => false end) (seq 0 (List.length l)).
(** The loop over the constant vertices (optimize.py 1013-1046): first tensor per key, and the
    list of actions (operator, position, new name).  [targets c] lists the operators at the
    out-edges of the constant, with repetitions.  [None]: [tensor.buffer.data] of a tensor
    without buffer. *)
Fixpoint group_loop (info : nat -> tinfo) (targets : nat -> list nat) (ops : nat -> opnode)
    (consts : list nat) (tmap : list nat) (acts : list (nat * nat * nat)) : option (list (nat * nat * nat)) :=
  match consts with
  | [] => Some acts
  | c :: consts' =>
      match k_buf (info c) with
      | None => None
      | Some _ =>
          match find (fun r => key_eqb (info r) (info c)) tmap with
          | Some r =>
              group_loop info targets ops consts' tmap
                (acts ++ flat_map (fun o => map (fun i => (o, i, r)) (positions c (o_in (ops o)))) (targets c))
          | None => group_loop info targets ops consts' (tmap ++ [c]) acts
          end
      end
  end.
Definition apply_action (ops : nat -> opnode) (a : nat * nat * nat) : nat -> opnode :=
  let '(o, i, r) := a in upd ops o (replace_operator_input (ops o) i r).
(** [group_tensors_pass] (optimize.py 1008-1052). *)
Definition group_tensors (info : nat -> tinfo) (targets : nat -> list nat) (consts : list nat)
    (ops : nat -> opnode) : option (nat -> opnode) :=
  match group_loop info targets ops consts [] [] with
  | None => None
  | Some acts => Some (fold_left apply_action acts ops)
  end.

(** Boundary folding.  [ExtendedOperator.QUANTIZE], [DEQUANTIZE] (schema_generated.py 54, 162). *)
Definition t_quantize : Z := 114%Z.
Definition t_dequantize : Z := 6%Z.
(** A vertex as [fuse_quant_dequant_nodes] sees it: [node_type], [outputs], and of [op] (absent for
    input, output and constant vertices) the names of [inputs[0]] and [outputs[0]]. *)
Record vtx := { v_ty : Z; v_outs : list nat; v_op : option (nat * nat) }.
(** [is_quant_dequant_edge] (optimize.py 4230-4240). *)
Definition qdq_edge (vs : nat -> vtx) (e : nat * nat) : bool :=
  let p := vs (fst e) in let n := vs (snd e) in
  ((v_ty p =? t_input)%Z && (v_ty n =? t_quantize)%Z &&
   match v_outs p, v_op n with o :: _, Some (i, _) => o =? i | _, _ => false end) ||
  ((v_ty p =? t_dequantize)%Z && (v_ty n =? t_output)%Z).
(** State of the loop (optimize.py 3447-3477): vertices, vertices to remove, and the two maps from
    old to new boundary names. *)
Record qdq_state := { q_vs : nat -> vtx; q_rm : list nat;
                      q_in : list (nat * list nat); q_out : list (nat * list nat) }.
(** [mapping.setdefault(name, []).extend(l)] (optimize.py 3461-3462, 3474-3475). *)
Fixpoint map_extend (name : nat) (l : list nat) (m : list (nat * list nat)) : list (nat * list nat) :=
  match m with
  | [] => [(name, l)]
  | (k, x) :: m' => if k =? name then (k, x ++ l) :: m' else (k, x) :: map_extend name l m'
  end.
(** [l.index(x)]; [None]: ValueError (optimize.py 3454, 3468). *)
Fixpoint index_of (x : nat) (l : list nat) : option nat :=
  match l with [] => None | y :: l' => if y =? x then Some 0 else option_map S (index_of x l') end.
(** [fuse_*_indices is not None and idx not in fuse_*_indices] → [continue] (3453-3456, 3467-3470);
    [None]: ValueError. *)
Definition skip_fuse (names : list nat) (sel : option (list nat)) (name : nat) : option bool :=
  match sel with
  | None => Some false
  | Some s => match index_of name names with None => None | Some k => Some (negb (memb k s)) end
  end.
(** Loop body (optimize.py 3450-3477). *)
Definition qdq_step (inputs outputs : list nat) (fin fout : option (list nat)) (st : qdq_state) (e : nat * nat)
  : option qdq_state :=
  let p := q_vs st (fst e) in let n := q_vs st (snd e) in
  if (v_ty p =? t_input)%Z then
    match v_outs p with
    | [] => None
    | name :: _ =>
        match skip_fuse inputs fin name with
        | None => None
        | Some true => Some st
        | Some false =>
            Some {| q_vs := upd (q_vs st) (snd e) {| v_ty := v_ty p; v_outs := v_outs n; v_op := None |};
                    q_rm := q_rm st ++ [fst e];
                    q_in := map_extend name (v_outs n) (q_in st); q_out := q_out st |}
        end
    end
  else
    match v_op p with
    | Some (i, o) =>
        match skip_fuse outputs fout o with
        | None => None
        | Some true => Some st
        | Some false =>
            Some {| q_vs := upd (q_vs st) (fst e) {| v_ty := v_ty n; v_outs := v_outs p; v_op := None |};
                    q_rm := q_rm st ++ [snd e];
                    q_in := q_in st; q_out := map_extend o [i] (q_out st) |}
        end
    | None => Some {| q_vs := q_vs st; q_rm := q_rm st ++ [snd e]; q_in := q_in st; q_out := q_out st |}
    end.
Fixpoint qdq_loop (inputs outputs : list nat) (fin fout : option (list nat)) (es : list (nat * nat)) (st : qdq_state)
  : option qdq_state :=
  match es with
  | [] => Some st
  | e :: es' => match qdq_step inputs outputs fin fout st e with
                | None => None
                | Some st' => qdq_loop inputs outputs fin fout es' st'
                end
  end.
(** Rewriting the boundary name lists (optimize.py 3481-3501). *)
Definition remap (m : list (nat * list nat)) (names : list nat) : list nat :=
  flat_map (fun n => match find (fun p => fst p =? n) m with Some (_, l) => l | None => [n] end) names.
(** [fuse_quant_dequant_nodes] (optimize.py 3442-3501): vertices, edges left after
    [delete_vertices], new inputs and outputs. *)
Definition fuse_quant_dequant (inputs outputs : list nat) (fin fout : option (list nat))
    (vs : nat -> vtx) (edges : list (nat * nat))
  : option ((nat -> vtx) * list nat * list (nat * nat) * list nat * list nat) :=
  match qdq_loop inputs outputs fin fout (filter (qdq_edge vs) edges)
          {| q_vs := vs; q_rm := []; q_in := []; q_out := [] |} with
  | None => None
  | Some st =>
      Some (q_vs st, q_rm st,
            filter (fun e => negb (memb (fst e) (q_rm st)) && negb (memb (snd e) (q_rm st))) edges,
            remap (q_in st) inputs, remap (q_out st) outputs)
  end.

(** Splitting requantize operators (optimize.py 658-704).  An operator is (code, input name,
    output name); [fresh k] is the name of the k-th new intermediate tensor.  The list [ops] is
    created once, before the loop, and every iteration adds all of it to the graph (686-702).
    The result lists the operators added, in order; the requantize operators themselves are removed. *)
Definition qop := (Z * nat * nat)%type.
Fixpoint split_requantize_loop (fresh : nat -> nat) (k : nat) (ops : list qop) (rqs : list (nat * nat)) : list qop :=
  match rqs with
  | [] => []
  | (i, o) :: rqs' =>
      let ops := ops ++ [(t_dequantize, i, fresh k); (t_quantize, fresh k, o)] in
      ops ++ split_requantize_loop fresh (S k) ops rqs'
  end.
Definition split_requantize (fresh : nat -> nat) (rqs : list (nat * nat)) : list qop :=
  split_requantize_loop fresh 0 [] rqs.
