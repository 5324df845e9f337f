(* Meaning of the code the tracer generates, and of an edit of the traced
   graph.  Nothing here refers to the functions of the model.

   A generated forward function binds one local name per input, then runs
   statements.  `Assign x args` is `x = self.x(args)` or `x = function(args)`;
   what is called depends on the name [x] only, because the name of a node
   is unique.  `Release x` is `x = None`.  A released name is unbound: it is
   an error to read it.  A reference is a local name, or an attribute of
   `self`, followed by subscripts. *)
From Coq Require Import List Arith Bool.
Import ListNotations.

Record ref := mkref { r_self : bool; r_name : nat; r_idx : list nat }.

Inductive stmt :=
| Assign (x : nat) (args : list ref)
| Release (x : nat).

Record prog := mkprog {
  p_params : list nat;
  p_body : list stmt;
  p_ret : list (list ref)
}.

Definition bind {A B} (o : option A) (f : A -> option B) : option B :=
  match o with Some a => f a | None => None end.

Fixpoint traverse {A B} (f : A -> option B) (l : list A) : option (list B) :=
  match l with
  | [] => Some []
  | a :: t => bind (f a) (fun b => bind (traverse f t) (fun bs => Some (b :: bs)))
  end.

Section Run.
  Variable V : Type.
  (* subscript of a value, value of an attribute, meaning of a call *)
  Variable pick : V -> nat -> option V.
  Variable attr : nat -> option V.
  Variable sem : nat -> list V -> option V.

  Definition env := nat -> option V.

  Fixpoint picks (v : V) (idx : list nat) : option V :=
    match idx with
    | [] => Some v
    | i :: t => bind (pick v i) (fun w => picks w t)
    end.

  Definition read (e : env) (r : ref) : option V :=
    bind (if r_self r then attr (r_name r) else e (r_name r)) (fun v => picks v (r_idx r)).

  Definition bindv (e : env) (x : nat) (o : option V) : env :=
    fun y => if y =? x then o else e y.

  Definition step (e : env) (s : stmt) : option env :=
    match s with
    | Assign x args =>
      bind (traverse (read e) args) (fun vs => bind (sem x vs) (fun v => Some (bindv e x (Some v))))
    | Release x => Some (bindv e x None)
    end.

  Fixpoint exec (body : list stmt) (e : env) : option env :=
    match body with
    | [] => Some e
    | s :: t => bind (step e s) (exec t)
    end.

  Fixpoint params (xs : list nat) (vs : list V) : option env :=
    match xs, vs with
    | [], [] => Some (fun _ => None)
    | x :: xs', v :: vs' => bind (params xs' vs') (fun e => Some (bindv e x (Some v)))
    | _, _ => None
    end.

  (* the returned groups of values *)
  Definition run (p : prog) (vs : list V) : option (list (list V)) :=
    bind (params (p_params p) vs) (fun e =>
    bind (exec (p_body p) e) (fun e' =>
    traverse (fun rs => traverse (read e') rs) (p_ret p))).
End Run.

Arguments run {V}.
Arguments exec {V}.
Arguments picks {V}.
Arguments read {V}.
Arguments bindv {V}.
Arguments params {V}.
Arguments step {V}.

(* the program without releases *)
Definition keeps (s : stmt) : bool := match s with Release _ => false | _ => true end.
Definition unreleased (p : prog) : prog :=
  mkprog (p_params p) (filter keeps (p_body p)) (p_ret p).

(* the call of [x] means [h] instead *)
Definition with_sem {V} (sem : nat -> list V -> option V) (x : nat) (h : list V -> option V)
  : nat -> list V -> option V := fun y => if y =? x then h else sem y.

(* a function of one argument applied to the only argument *)
Definition call1 {V} (f : V -> option V) (vs : list V) : option V :=
  match vs with [v] => f v | _ => None end.

(* the result of [h] is passed to [f] *)
Definition then_f {V} (f : V -> option V) (h : list V -> option V) (vs : list V) : option V :=
  bind (h vs) f.

(* [f] is applied to the arguments selected by [sel] before [h] sees them *)
Fixpoint some_args {V} (f : V -> option V) (sel : list bool) (vs : list V) : option (list V) :=
  match sel, vs with
  | [], _ => Some vs
  | _, [] => Some []
  | b :: sel', v :: vs' =>
    bind (if b then f v else Some v) (fun w => bind (some_args f sel' vs') (fun ws => Some (w :: ws)))
  end.
Definition through {V} (f : V -> option V) (sel : list bool) (h : list V -> option V)
  (vs : list V) : option V := bind (some_args f sel vs) h.

(* the value at a position of a list goes through [f] *)
Fixpoint nth_through {V} (f : V -> option V) (i : nat) (vs : list V) : option (list V) :=
  match i, vs with
  | 0, v :: t => bind (f v) (fun w => Some (w :: t))
  | S j, v :: t => bind (nth_through f j t) (fun ws => Some (v :: ws))
  | _, [] => None
  end.

(* one function per value *)
Fixpoint each_through {V} (fs : list (V -> option V)) (vs : list V) : option (list V) :=
  match fs, vs with
  | [], [] => Some []
  | f :: fs', v :: vs' => bind (f v) (fun w => bind (each_through fs' vs') (fun ws => Some (w :: ws)))
  | _, _ => None
  end.
Fixpoint with_sems {V} (sem : nat -> list V -> option V) (l : list (nat * (V -> option V)))
  : nat -> list V -> option V :=
  match l with [] => sem | (x, f) :: t => with_sem (with_sems sem t) x (call1 f) end.

(* ------------------------------------------------------------------ *)
(* The traced graph, /repo/tinynn/graph/tracer.py:172-240 (TraceNode) and
   the lists of TraceGraph.  Nodes and tensors are numbered; the number of
   a node is its unique name.  A missing index of an input is the empty
   list, an index `i` is `[i]`.  A function carries the rendered names of
   its tensor arguments (`TraceFunction.tensor_names`). *)
Inductive kind :=
| KIn
| KOut
| KConst
| KMod
| KFun (cls : bool) (names : list ref).

(* an output: a tensor, a list of tensors, or (by mistake) a node *)
Inductive item :=
| TT (t : nat)
| TL (ts : list nat)
| TN (n : nat).

Record node := mknode {
  n_kind : kind;
  n_prevs : list nat;
  n_nexts : list nat;
  n_prevt : list nat;
  n_nextt : list item;
  n_previ : list (list nat);
  n_order : nat;
  n_rev : bool
}.

Record graph := mkgraph {
  g_node : nat -> node;
  g_in : list nat;
  g_fwd : list nat;
  g_out : list nat;
  g_const : list nat;
  g_fresh : nat;
  g_tensor : nat;
  g_shape : nat -> list nat
}.

Definition is_const (k : kind) : bool := match k with KConst => true | _ => false end.

(* the arguments of a node according to its links *)
Definition refs (g : graph) (x : nat) : list ref :=
  map (fun pi => mkref (is_const (n_kind (g_node g (fst pi)))) (fst pi) (snd pi))
      (combine (n_prevs (g_node g x)) (n_previ (g_node g x))).

(* a module that was never called has no line *)
Definition idle (n : node) : bool :=
  match n_kind n, n_prevt n, n_nextt n with KMod, [], [] => true | _, _, _ => false end.

(* the program of the links *)
Definition plain (g : graph) : prog :=
  mkprog (g_in g)
    (map (fun x => Assign x (refs g x)) (filter (fun x => negb (idle (g_node g x))) (g_fwd g)))
    (map (fun x => if n_rev (g_node g x) then refs g x else firstn 1 (refs g x)) (g_out g)).

(* the tensors a node produces *)
Definition produced (n : node) : list nat :=
  flat_map (fun it => match it with TT t => [t] | TL ts => ts | TN _ => [] end) (n_nextt n).

Definition live (g : graph) (x : nat) : Prop := In x (g_fwd g) \/ In x (g_out g).
Definition defined (g : graph) (x : nat) : Prop :=
  In x (g_in g) \/ In x (g_fwd g) \/ is_const (n_kind (g_node g x)) = true.

(* The lists of a node agree, what a function was rendered with is what its
   links say, and names are not shared. *)
Record rendered (g : graph) : Prop := {
  rd_nodup : NoDup (g_in g ++ g_fwd g ++ g_out g);
  rd_align : forall x, live g x -> length (n_prevs (g_node g x)) <= length (n_previ (g_node g x));
  rd_fwd : forall x, In x (g_fwd g) ->
    match n_kind (g_node g x) with
    | KMod => True
    | KFun cls names => names = refs g x /\ (cls = true -> names <> [])
    | _ => False
    end;
  rd_out : forall x, In x (g_out g) -> n_prevs (g_node g x) <> []
}.

(* Every link is recorded at both ends, and by its tensor. *)
Record linked (g : graph) : Prop := {
  lk_rendered : rendered g;
  lk_in : forall x, In x (g_in g) -> n_kind (g_node g x) = KIn;
  lk_out : forall x, In x (g_out g) -> n_kind (g_node g x) = KOut;
  lk_const : forall x, In x (g_const g) -> n_kind (g_node g x) = KConst;
  lk_prev : forall x i p, live g x -> nth_error (n_prevs (g_node g x)) i = Some p ->
    defined g p /\ In x (n_nexts (g_node g p)) /\
    exists t, nth_error (n_prevt (g_node g x)) i = Some t /\ In t (produced (g_node g p));
  lk_own : forall x i p t, live g x -> In x (n_nexts (g_node g p)) ->
    nth_error (n_prevt (g_node g x)) i = Some t -> In t (produced (g_node g p)) ->
    i < length (n_prevs (g_node g x)) -> nth_error (n_prevs (g_node g x)) i = Some p;
  lk_fresh : forall x, In x (g_in g) \/ live g x \/ In x (g_const g) -> x < g_fresh g;
  lk_fresh_prev : forall x p, live g x -> In p (n_prevs (g_node g x)) -> p < g_fresh g;
  lk_fresh_next : forall x p, In x (n_nexts (g_node g p)) -> x < g_fresh g;
  lk_tensor : forall x t, In t (produced (g_node g x)) -> t < g_tensor g
}.

(* a node whose outputs are tensors, not lists of tensors *)
Definition outputs_of (n : node) (ts : list nat) : Prop := n_nextt n = map TT ts.
