(** What a traced program computes, and what the graph made from it computes. *)
From Coq Require Import String List Arith Bool.
From Verif Require Import InitOpsModel.
Import ListNotations.

(** the operators that give numbers, shapes or tensors filled with them, and aten::detach *)
Definition untracked : list string :=
  ["aten::size"; "aten::Int"; "aten::ScalarImplicit"; "aten::detach";
   "aten::zeros"; "aten::ones"; "aten::empty"; "aten::arange"; "aten::zeros_like"; "aten::ones_like"; "aten::new_zeros"; "aten::new_ones"]%string.
Section Meaning.
  Context {V : Type}.
  Variables (sem : string -> list V -> V) (pyobj : nat -> list V -> V) (truth : V -> bool).

  (** the values of the names of one graph *)
  Definition set (e : nat -> option V) (n : nat) (v : V) : nat -> option V := fun x => if x =? n then Some v else e x.
  Fixpoint get (e : nat -> option V) (l : list nat) : option (list V) :=
    match l with
    | [] => Some []
    | n :: r => match e n, get e r with Some v, Some vs => Some (v :: vs) | _, _ => None end
    end.
  Fixpoint bind (e : nat -> option V) (ps : list nat) (vs : list V) : nat -> option V :=
    match ps, vs with p :: ps, v :: vs => bind (set e p v) ps vs | _, _ => e end.
  (** running a program: a python function is its subgraph, with names of its own *)
  Fixpoint run1 (n : node) (e : nat -> option V) {struct n} : option (nat -> option V) :=
    let fix runs (l : list node) (e : nat -> option V) : option (nat -> option V) :=
      match l with [] => Some e | m :: r => match run1 m e with Some e => runs r e | None => None end end in
    match n with
    | NOp k ins out => match get e ins with Some vs => Some (set e out (sem k vs)) | None => None end
    | NIf c yes no => match e c with Some v => if truth v then runs yes e else runs no e | None => None end
    | NPy _ _ ins out params body ret =>
        match get e ins with
        | Some vs => match runs body (bind (fun _ => None) params vs) with
                     | Some l => match l ret with Some r => Some (set e out r) | None => None end
                     | None => None end
        | None => None
        end
    end.
  Fixpoint run (l : list node) (e : nat -> option V) : option (nat -> option V) :=
    match l with [] => Some e | m :: r => match run1 m e with Some e => run r e | None => None end end.
  Definition run_program (ins : list nat) (p : list node) (xs : list V) : option (nat -> option V) := run p (bind (fun _ => None) ins xs).

  (** running the new graph, in the order its operators were added *)
  Definition arg_val (e : nm -> option V) (a : arg V) : option V := match a with AVar n => e n | AConst v => Some v end.
  Fixpoint arg_vals (e : nm -> option V) (l : list (arg V)) : option (list V) :=
    match l with
    | [] => Some []
    | a :: r => match arg_val e a, arg_vals e r with Some v, Some vs => Some (v :: vs) | _, _ => None end
    end.
  Definition put (e : nm -> option V) (n : nm) (v : option V) : nm -> option V := fun x => if nm_eqb x n then v else e x.
  Definition run_emit (e : nm -> option V) (t : temit V) : nm -> option V :=
    match t with
    | EOp k l out => put e out (match arg_vals e l with Some vs => Some (sem k vs) | None => None end)
    | EReshape a out => put e out (arg_val e a)
    end.
  Definition run_graph (ins : list nat) (l : list (temit V)) (xs : list V) : nm -> option V :=
    fold_left run_emit l (fun n => match n with (None, x) => bind (fun _ => None) ins xs x | _ => None end).
  (** the value the new graph gives to a name of the program: what it computes, or the constant found when tracing *)
  Definition converted (s : st V) (ins : list nat) (xs : list V) (n : nat) : option V :=
    match tm s (None, n) with Some None => run_graph ins (em s) xs (None, n) | _ => env s (None, n) end.

  (** every name is given once *)
  Fixpoint defs (n : node) : list nat :=
    match n with
    | NOp _ _ out => [out]
    | NIf _ a b => flat_map defs a ++ flat_map defs b
    | NPy _ _ _ out _ _ _ => [out]
    end.
  Definition flat_op (k : string) : Prop := k <> "aten::detach"%string.
  (** a subgraph without python functions inside, and without aten::detach *)
  Inductive plain : node -> Prop :=
  | plain_op k ins out : flat_op k -> plain (NOp k ins out)
  | plain_if c a b : Forall plain a -> Forall plain b -> plain (NIf c a b).
  Inductive well : node -> Prop :=
  | well_op k ins out : flat_op k -> well (NOp k ins out)
  | well_if c a b : Forall well a -> Forall well b -> well (NIf c a b)
  | well_py s k ins out params body ret :
      Forall plain body -> NoDup (params ++ flat_map defs body) -> ~ In ret params -> length ins = length params ->
      (* the traced subgraph is what the function computes *)
      (forall vs l, length vs = length params -> run body (bind (fun _ => None) params vs) = Some l -> l ret = Some (pyobj k vs)) ->
      well (NPy s k ins out params body ret).
  (** no prim::If anywhere *)
  Fixpoint no_if (n : node) : bool :=
    match n with NOp _ _ _ => true | NIf _ _ _ => false | NPy _ _ _ _ _ b _ => forallb no_if b end.

  (** shapes are fixed: they do not depend on the values, and the operators that are not tracked depend on nothing else *)
  Definition shapes_fixed (same : V -> V -> Prop) : Prop :=
    (forall k vs ws, Forall2 same vs ws -> same (sem k vs) (sem k ws)) /\
    (forall k vs ws, In k untracked -> flat_op k -> Forall2 same vs ws -> sem k vs = sem k ws).
End Meaning.
