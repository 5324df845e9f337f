(* The code generator of the tracer and its edits of a traced graph,
   /repo/tinynn/graph/tracer.py.

   Simplified: node numbers stand for unique names and tensor numbers for
   `id(t)`; an exception is [None].  `nodes_map`, `tensor_pre_node_dict` and
   the tables of constructor lines are left out: the functions below write
   them but do not read them.  In-place operators and their aliases
   (2340-2356), properties of modules, original names (`inplace`) and the
   nested brackets of the arguments of an LSTM are left out. *)
From Coq Require Import List Arith Bool.
From Verif Require Import TraceSpec.
Import ListNotations.

Fixpoint mem (x : nat) (l : list nat) : bool :=
  match l with [] => false | y :: t => (x =? y) || mem x t end.

Fixpoint list_eqb (a b : list nat) : bool :=
  match a, b with
  | [], [] => true
  | x :: s, y :: t => (x =? y) && list_eqb s t
  | _, _ => false
  end.

Definition ref_eqb (a b : ref) : bool :=
  Bool.eqb (r_self a) (r_self b) && (r_name a =? r_name b) && list_eqb (r_idx a) (r_idx b).

Definition upd (g : graph) (x : nat) (n : node) : graph :=
  mkgraph (fun y => if y =? x then n else g_node g y) (g_in g) (g_fwd g) (g_out g) (g_const g)
    (g_fresh g) (g_tensor g) (g_shape g).
Definition with_fwd (g : graph) (l : list nat) : graph :=
  mkgraph (g_node g) (g_in g) l (g_out g) (g_const g) (g_fresh g) (g_tensor g) (g_shape g).

Definition set_kind (n : node) k :=
  mknode k (n_prevs n) (n_nexts n) (n_prevt n) (n_nextt n) (n_previ n) (n_order n) (n_rev n).
Definition set_prevs (n : node) l :=
  mknode (n_kind n) l (n_nexts n) (n_prevt n) (n_nextt n) (n_previ n) (n_order n) (n_rev n).
Definition set_nexts (n : node) l :=
  mknode (n_kind n) (n_prevs n) l (n_prevt n) (n_nextt n) (n_previ n) (n_order n) (n_rev n).
Definition set_prevt (n : node) l :=
  mknode (n_kind n) (n_prevs n) (n_nexts n) l (n_nextt n) (n_previ n) (n_order n) (n_rev n).
Definition set_nextt (n : node) l :=
  mknode (n_kind n) (n_prevs n) (n_nexts n) (n_prevt n) l (n_previ n) (n_order n) (n_rev n).
Definition set_previ (n : node) l :=
  mknode (n_kind n) (n_prevs n) (n_nexts n) (n_prevt n) (n_nextt n) l (n_order n) (n_rev n).
Definition set_order (n : node) o :=
  mknode (n_kind n) (n_prevs n) (n_nexts n) (n_prevt n) (n_nextt n) (n_previ n) o (n_rev n).

(* 274-315: `prev_node_unique_name`; [None] is the empty string, which is a
   syntax error where it is used *)
Definition prev_ref (g : graph) (x i : nat) : option ref :=
  match nth_error (n_prevs (g_node g x)) i, nth_error (n_previ (g_node g x)) i with
  | Some p, Some idx => Some (mkref (is_const (n_kind (g_node g p))) p idx)
  | _, _ => None
  end.

(* 2325-2367: the line of a forward node; [Some []] when there is none.
   582-619 `extra_expr`: the first name of a method is the given one *)
Definition line (g : graph) (x : nat) : option (option stmt) :=
  let n := g_node g x in
  match n_kind n with
  | KFun cls names =>
    match names with
    | [] => if cls then None else Some (Some (Assign x []))
    | r :: t => if cls then bind (prev_ref g x 0) (fun first => Some (Some (Assign x (first :: t))))
                else Some (Some (Assign x names))
    end
  | _ =>
    match n_prevt n, n_nextt n with
    | [], [] => Some None
    | _, _ => bind (traverse (prev_ref g x) (seq 0 (length (n_prevs n)))) (fun args => Some (Some (Assign x args)))
    end
  end.

(* `{pn.unique_name: pn for pn in node.prev_nodes}.values()` *)
Fixpoint distinct (seen l : list nat) : list nat :=
  match l with
  | [] => []
  | x :: t => if mem x seen then distinct seen t else x :: distinct (x :: seen) t
  end.

Fixpoint max_list (l : list nat) : option nat :=
  match l with
  | [] => None
  | [x] => Some x
  | x :: t => bind (max_list t) (fun m => Some (Nat.max x m))
  end.

(* 2369-2372: the names released behind the line *)
Definition releases (g : graph) (x : nat) : option (list stmt) :=
  bind (traverse (fun p =>
      bind (max_list (map (fun y => n_order (g_node g y)) (n_nexts (g_node g p)))) (fun m =>
        Some (if (n_order (g_node g x) =? m) && negb (is_const (n_kind (g_node g p)))
              then [Release p] else [])))
    (distinct [] (n_prevs (g_node g x)))) (fun l => Some (concat l)).

(* 2320-2372: one node of the loop *)
Definition gen_node (g : graph) (x : nat) : option (list stmt) :=
  bind (line g x) (fun l =>
    match l with
    | None => Some []
    | Some s => bind (releases g x) (fun rs => Some (s :: rs))
    end).

(* 2374-2380: `_gen_output_node` *)
Definition gen_out (g : graph) (x : nat) : option (list ref) :=
  let n := g_node g x in
  if n_rev n then traverse (prev_ref g x) (seq 0 (length (n_prevs n)))
  else bind (prev_ref g x 0) (fun r => Some [r]).

(* 2320-2384: `__gen_forward_code` *)
Definition gen (g : graph) : option prog :=
  bind (traverse (gen_node g) (g_fwd g)) (fun body =>
  bind (traverse (gen_out g) (g_out g)) (fun ret =>
  Some (mkprog (g_in g) (concat body) ret))).

(* 2416-2418: the next nodes of the previous nodes of [x] *)
Definition relink (g : graph) (x : nat) : graph :=
  fold_left (fun g' p =>
    let n := g_node g' p in
    if mem x (n_nexts n) then g' else upd g' p (set_nexts n (n_nexts n ++ [x])))
    (n_prevs (g_node g x)) g.

Fixpoint number (g : graph) (l : list nat) (k : nat) : graph :=
  match l with
  | [] => g
  | x :: t => number (relink (upd g x (set_order (g_node g x) k)) x) t (S k)
  end.

(* 2411-2418: `recompute_forward_order` *)
Definition recompute (g : graph) : graph := number g (g_in g ++ g_fwd g ++ g_out g) 0.

(* ------------------------------------------------------------------ *)
(* Edits *)

(* `list.index` *)
Fixpoint index_of (x : nat) (l : list nat) : option nat :=
  match l with
  | [] => None
  | y :: t => if y =? x then Some 0 else bind (index_of x t) (fun i => Some (S i))
  end.
Definition insert_at (l : list nat) (i x : nat) : list nat := firstn i l ++ x :: skipn i l.

Fixpoint assoc {A} (l : list (nat * A)) (x : nat) : option A :=
  match l with [] => None | (k, v) :: t => if k =? x then Some v else assoc t x end.
(* `dict(zip(...))`: a later entry replaces an earlier one *)
Definition dict_get {A} (l : list (nat * A)) (x : nat) : option A := assoc (rev l) x.

(* `tensor.clone()` and the hashing of an item: only tensors have them *)
Definition as_tensor (it : item) : option nat := match it with TT t => Some t | _ => None end.

(* the output tensors: new tensors given by the caller (their number is
   [given]), or one clone per tensor *)
Definition clones (g : graph) (k : nat) (given : option nat) : list nat :=
  seq (g_tensor g) (match given with Some m => m | None => k end).

(* a clone has the shape of its tensor *)
Definition shapes (g : graph) (given : option nat) (ts cs : list nat) (t : nat) : list nat :=
  match given, dict_get (combine cs ts) t with
  | None, Some t0 => g_shape g t0
  | _, _ => g_shape g t
  end.

(* 655-659: `replace_tensor_name` *)
Definition rename (old new : ref) (names : list ref) : list ref :=
  map (fun r => if ref_eqb r old then new else r) names.

Definition rename_kind (old new : ref) (k : kind) : kind :=
  match k with KFun c names => KFun c (rename old new names) | _ => k end.

(* 2648-2671: one next node of the inserted node [w] behind [x] *)
Definition rewire_after (x w : nat) (xc : bool) (d : list (nat * nat)) (n : node) : node :=
  let prevs := map (fun p => if p =? x then w else p) (n_prevs n) in
  let idxs := flat_map (fun ti => match dict_get d (fst ti) with Some _ => [snd ti] | None => [] end)
                (combine (n_prevt n) (n_previ n)) in
  let prevt := map (fun t => match dict_get d t with Some t' => t' | None => t end) (n_prevt n) in
  let k := fold_left (fun k i => rename_kind (mkref xc x i) (mkref false w i) k) idxs (n_kind n) in
  mknode k prevs (n_nexts n) prevt (n_nextt n) (n_previ n) (n_order n) (n_rev n).

(* 2610-2671: `insert_after` of a new module or function (not of an existing node) *)
Definition insert_after (g : graph) (x : nat) (k : kind) (given : option nat) : option graph :=
  let w := g_fresh g in
  bind (if mem x (g_in g) || mem x (g_const g) then Some (w :: g_fwd g)
        else if mem x (g_out g) then None
        else bind (index_of x (g_fwd g)) (fun i => Some (insert_at (g_fwd g) (S i) w))) (fun fwd =>
  let n := g_node g x in
  bind (traverse as_tensor (n_nextt n)) (fun ts =>
  let cs := clones g (length ts) given in
  let d := combine ts cs in
  let new := mknode k [x] (n_nexts n) (map fst d) (map (fun p => TT (snd p)) d) (map (fun _ => []) d) 0 false in
  let g1 := mkgraph (g_node g) (g_in g) fwd (g_out g) (g_const g) (S w)
              (g_tensor g + length cs) (shapes g given ts cs) in
  let g2 := upd (upd g1 w new) x (set_nexts n [w]) in
  Some (fold_left (fun g' y => upd g' y (rewire_after x w (is_const (n_kind n)) d (g_node g' y)))
          (n_nexts n) g2))).

(* 3137-3205: the loop over the tensors of one next node of the removed node *)
Fixpoint rewire_tensors (x p : nat) (pc : bool) (dt : list (nat * nat)) (di : list (nat * list nat))
  (prevt : list nat) (previ : list (list nat)) (k : kind) : list nat * list (list nat) * kind :=
  match prevt, previ with
  | t :: ts, i :: is =>
    match dict_get dt t, dict_get di t with
    | Some t', Some i' =>
      let '(a, b, c) := rewire_tensors x p pc dt di ts is
                          (rename_kind (mkref false x i) (mkref pc p i') k) in
      (t' :: a, i' :: b, c)
    | _, _ =>
      let '(a, b, c) := rewire_tensors x p pc dt di ts is k in
      (t :: a, i :: b, c)
    end
  | _, _ => (prevt, previ, k)
  end.

Definition rewire_removed (x p : nat) (pc : bool) dt di (n : node) : node :=
  let '(a, b, c) := rewire_tensors x p pc dt di (n_prevt n) (n_previ n) (n_kind n) in
  mknode c (map (fun q => if q =? x then p else q) (n_prevs n)) (n_nexts n) a (n_nextt n) b
    (n_order n) (n_rev n).

(* `list.remove` *)
Fixpoint remove1 (x : nat) (l : list nat) : list nat :=
  match l with [] => [] | y :: t => if y =? x then t else y :: remove1 x t end.

(* 3137-3205: `remove_node`.  Where `prev_indices` is shorter than the tensors
   the code raises a KeyError; here the tensor keeps its entry. *)
Definition remove_node (g : graph) (x : nat) : option graph :=
  let n := g_node g x in
  if negb (mem x (g_fwd g)) then None else
  match n_prevs n with
  | [p] =>
    if negb (length (n_prevt n) =? length (n_nextt n)) then None else
    bind (traverse as_tensor (n_nextt n)) (fun ts =>
    if negb (forallb (fun ab => list_eqb (g_shape g (fst ab)) (g_shape g (snd ab)))
               (combine (n_prevt n) ts)) then None else
    if negb (mem x (n_nexts (g_node g p))) then None else
    let dt := combine ts (n_prevt n) in
    let di := combine ts (n_previ n) in
    let pc := is_const (n_kind (g_node g p)) in
    let np := g_node g p in
    let g1 := upd g p (set_nexts np (remove1 x (n_nexts np) ++ n_nexts n)) in
    let g2 := fold_left (fun g' y => upd g' y (rewire_removed x p pc dt di (g_node g' y))) (n_nexts n) g1 in
    Some (with_fwd g2 (remove1 x (g_fwd g2))))
  | _ => None
  end.
