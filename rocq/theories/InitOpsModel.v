(** The walk of the converter over the traced program: which operators are put into the graph, and under which names.
    Strings of debug names and scope names are numbers, and a prefixed name is the pair of the scope and the debug name. *)
From Coq Require Import String List Arith Bool.
Import ListNotations.

(** A node of the TorchScript graph: an operator with one output; prim::If without outputs; prim::PythonOp with its subgraph
    (torch.jit nodes as they are read by converter/base.py 397-493 and converter/operators/torch/prim.py 96-112, 168-225). List and
    tuple constructions, tensors without value and operators with several outputs are left out; prim::Constant is an operator
    without inputs. *)
Inductive node :=
| NOp (k : string) (ins : list nat) (out : nat)
| NIf (c : nat) (yes no : list node)
| NPy (s : nat) (k : nat) (ins : list nat) (out : nat) (params : list nat) (body : list node) (ret : nat).
(** what the queue of the walk holds: prim::Param and prim::Return are the nodes around the subgraph (prim.py 168-179) *)
Inductive item := INode (n : node) | IParam (params : list nat) | IReturn (ret : nat).
(** converter/operators/torch/base.py 60-73: get_tensor_name, the name behind the prefix of the scope *)
Definition scope := option (nat * nat).
Definition nm := (scope * nat)%type.
Definition scope_eqb (a b : scope) : bool :=
  match a, b with None, None => true | Some (x, y), Some (u, w) => (x =? u) && (y =? w) | _, _ => false end.
Definition nm_eqb (a b : nm) : bool := scope_eqb (fst a) (fst b) && (snd a =? snd b).
Definition upd {A} (f : nm -> option A) (k : nm) (a : A) : nm -> option A := fun x => if nm_eqb x k then Some a else f x.
(** an input of an operator of the new graph: a tensor of the graph or a constant (base.py 209-218) *)
Inductive arg (V : Type) := AVar (n : nm) | AConst (v : V).
Arguments AVar {V}. Arguments AConst {V}.
(** the operators put into the new graph: those of the converter of a node, whatever they are, and the reshapes of prim::Param
    and prim::Return *)
Inductive temit (V : Type) := EOp (k : string) (args : list (arg V)) (out : nm) | EReshape (a : arg V) (out : nm).
Arguments EOp {V}. Arguments EReshape {V}.
(** converter/operators/torch/__init__.py 223-236: operators that are run but never put into the graph. aten::Int and
    aten::ScalarImplicit only add to constant_mapping what the slices read; that is left out. *)
Definition no_track (k : string) : bool :=
  existsb (String.eqb k)
    ["aten::Int"; "aten::zeros"; "aten::detach"; "aten::size"; "aten::arange"; "aten::ones"; "aten::ones_like"; "aten::zeros_like"; "aten::empty";
     "aten::new_zeros"; "aten::new_ones"; "aten::ScalarImplicit"]%string.

Section Walk.
  Context {V : Type}.
  (** what torch computes for an operator (base.py 149-185), for a python function (prim.py 175), and whether a value counts as true
      (prim.py 108) *)
  Variables (sem : string -> list V -> V) (pyobj : nat -> list V -> V) (truth : V -> bool).

  (** converter/base.py: self.tensor_map; the tensor_map of the graph, where a tensor has a buffer or not; constant_mapping;
      scope_map; current_scope; the operators of the graph in the order they were added *)
  Record st := mkSt { env : nm -> option V; tm : nm -> option (option V); cm : nm -> option (nm * V); cnt : nat -> nat; sc : scope;
    em : list (temit V) }.
  (** base.py 75-82: get_input_tensors raises if a name is missing *)
  Fixpoint get_all (e : nm -> option V) (l : list nm) : option (list V) :=
    match l with
    | [] => Some []
    | n :: r => match e n, get_all e r with Some v, Some vs => Some (v :: vs) | _, _ => None end
    end.
  (** base.py 209-218: find_or_create_input *)
  Definition to_arg (s : st) (n : nm) (v : V) : arg V :=
    match tm s n with Some None => AVar n | Some (Some w) => AConst w | None => AConst v end.
  (** graph.py 228-244: add_operator puts new constants into the tensor map *)
  Fixpoint add_consts (t : nm -> option (option V)) (l : list nm) (vs : list V) : nm -> option (option V) :=
    match l, vs with
    | n :: r, v :: ws => add_consts (match t n with Some _ => t | None => upd t n (Some v) end) r ws
    | _, _ => t
    end.
  (** converter/base.py 429-439: an input that is in the graph and no constant *)
  Definition tracked (s : st) (n : nm) : bool := match tm s n with Some None => true | _ => false end.
  (** converter/base.py 406-493 for an operator: it is run, and put into the graph if one of its inputs is in the graph *)
  Definition op_step (s : st) (k : string) (ins : list nat) (out : nat) : option st :=
    let ins := map (pair (sc s)) ins in let out := (sc s, out) in
    match get_all (env s) ins with
    | None => None
    | Some vs =>
        let v := sem k vs in
        if no_track k || negb (existsb (tracked s) ins)
        then Some (mkSt (upd (env s) out v) (tm s) (cm s) (cnt s) (sc s) (em s))
        else Some (mkSt (upd (env s) out v) (upd (add_consts (tm s) ins vs) out None) (cm s) (cnt s) (sc s)
                        (em s ++ [EOp k (map (fun p => to_arg s (fst p) (snd p)) (combine ins vs)) out]))
    end.
  (** prim.py 96-112: PrimIfConverter *)
  Definition if_step (s : st) (c : nat) (yes no : list node) : option (list item) :=
    match env s (sc s, c), tm s (sc s, c) with
    | Some v, None => Some (map INode (if truth v then yes else no))
    | _, _ => None
    end.
  (** prim.py 181-197: prepare_scope_tensors *)
  Fixpoint map_params (c : nm -> option (nm * V)) (new : scope) (params : list nat) (ins : list nm) (vs : list V) : nm -> option (nm * V) :=
    match params, ins, vs with
    | p :: ps, n :: ns, v :: ws => map_params (upd c (new, p) (n, v)) new ps ns ws
    | _, _, _ => c
    end.
  (** prim.py 168-197 and converter/base.py 480-485: PrimPythonOpConverter *)
  Definition py_step (s : st) (name k : nat) (ins : list nat) (out : nat) (params : list nat) (body : list node) (ret : nat) : option (list item * st) :=
    let ins := map (pair (sc s)) ins in let out := (sc s, out) in
    match get_all (env s) ins with
    | None => None
    | Some vs =>
        let v := pyobj k vs in
        let new := Some (name, S (cnt s name)) in
        Some (IParam params :: map INode body ++ [IReturn ret],
              mkSt (upd (env s) out v) (tm s) (upd (map_params (cm s) new params ins vs) (new, ret) (out, v))
                   (fun x => if x =? name then S (cnt s x) else cnt s x) new (em s))
    end.
  (** a reshape from the tensor [n] to the tensor [out], if [n] is in the graph (prim.py 204-212, 222-226) *)
  Definition reshape_step (s : st) (n out : nm) : st :=
    match tm s n with
    | None => s
    | Some None => mkSt (env s) (upd (tm s) out None) (cm s) (cnt s) (sc s) (em s ++ [EReshape (AVar n) out])
    | Some (Some w) => mkSt (env s) (upd (tm s) out None) (cm s) (cnt s) (sc s) (em s ++ [EReshape (AConst w) out])
    end.
  (** prim.py 214-226: PrimParamConverter; the new values are written at the end (converter/base.py 489-493) but nothing reads them
      before *)
  Fixpoint param_step (s : st) (params : list nat) : option st :=
    match params with
    | [] => Some s
    | p :: ps =>
        match cm s (sc s, p) with
        | None => None
        | Some (n, v) =>
            let s := mkSt (upd (env s) (sc s, p) v) (tm s) (cm s) (cnt s) (sc s) (em s) in
            param_step (reshape_step s n (sc s, p)) ps
        end
    end.
  (** prim.py 200-212: PrimReturnConverter, and converter/base.py 486-487 *)
  Definition return_step (s : st) (ret : nat) : option st :=
    match env s (sc s, ret), cm s (sc s, ret) with
    | Some _, Some (out, _) =>
        let s := reshape_step s (sc s, ret) out in
        Some (mkSt (env s) (tm s) (cm s) (cnt s) None (em s))
    | _, _ => None
    end.
  (** converter/base.py 402-493: the loop over the queue; new nodes go to its front *)
  Fixpoint walk (fuel : nat) (q : list item) (s : st) : option st :=
    match q with
    | [] => Some s
    | i :: q =>
        match fuel with
        | 0 => None
        | S f =>
            match i with
            | INode (NOp k ins out) => match op_step s k ins out with Some s => walk f q s | None => None end
            | INode (NIf c yes no) => match if_step s c yes no with Some l => walk f (l ++ q) s | None => None end
            | INode (NPy n k ins out params body ret) =>
                match py_step s n k ins out params body ret with Some (l, s) => walk f (l ++ q) s | None => None end
            | IParam params => match param_step s params with Some s => walk f q s | None => None end
            | IReturn ret => match return_step s ret with Some s => walk f q s | None => None end
            end
        end
    end.
  (** converter/base.py 350-376: init_common_graph and init_inputs, the inputs with the values of dummy_input *)
  Fixpoint with_inputs (s : st) (ins : list nat) (xs : list V) : st :=
    match ins, xs with
    | n :: ns, x :: ys => with_inputs (mkSt (upd (env s) (None, n) x) (upd (tm s) (None, n) None) (cm s) (cnt s) (sc s) (em s)) ns ys
    | _, _ => s
    end.
  (** steps the loop needs at most; the queue of the code has no bound *)
  Fixpoint nsize (n : node) : nat :=
    match n with
    | NOp _ _ _ => 1
    | NIf _ a b => 1 + list_sum (map nsize a) + list_sum (map nsize b)
    | NPy _ _ _ _ _ b _ => 3 + list_sum (map nsize b)
    end.
  (** converter/base.py 397-493: init_operations after the inputs *)
  Definition init_operations (ins : list nat) (p : list node) (xs : list V) : option st :=
    walk (list_sum (map nsize p)) (map INode p)
      (with_inputs (mkSt (fun _ => None) (fun _ => None) (fun _ => None) (fun _ => 0) None []) ins xs).
End Walk.
Arguments st : clear implicits.
