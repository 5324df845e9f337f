(** What a graph has to be and to compute when the converter's own operators are replaced. *)
From Coq Require Import List Arith Bool Sorting.Sorted.
From Verif Require Import OutTransModel OutTransSpec TransformModel.
Import ListNotations.

(** there is an edge for every input, from the node that makes it, and no other *)
Definition t_consistent (g : tg) : Prop :=
  forall s d x, ecount s d x (ted g) =
    match tprod g x with Some p => if (s =? p) && o_mem d (tids g) then count_occ Nat.eq_dec (tin (tn g d)) x else 0 | None => 0 end.
(** nodes in the order of their numbers; the map of the tensors is right; every tensor read is made by a node *)
Definition t_wf (outs : list nat) (g : tg) : Prop :=
  StronglySorted lt (tids g) /\
  (forall n, In n (tids g) -> n < tnext g /\
     (forall x, In x (tin (tn g n)) -> x < tnext g /\ tprod g x <> None) /\
     (forall x, In x (tout (tn g n)) -> x < tnext g /\ tprod g x = Some n) /\
     (tk (tn g n) = KOut -> tout (tn g n) = [] /\ exists x, tin (tn g n) = [x] /\ In x outs) /\
     (forall f, tk (tn g n) = KGen f -> exists t, tout (tn g n) = [t])) /\
  (forall x p, tprod g x = Some p -> In p (tids g) /\ In x (tout (tn g p))) /\
  (forall x, In x outs -> x < tnext g).
(** an operator of the converter's own kinds comes after those whose results it reads *)
Definition gens_ordered (g : tg) : Prop :=
  forall n d f f' x, In n (tids g) -> In d (tids g) -> tk (tn g n) = KGen f -> tk (tn g d) = KGen f' ->
    In x (tout (tn g n)) -> In x (tin (tn g d)) -> n < d.
(** the values [v] of the tensors are those of the constants and the results of the operators *)
Definition t_computes {V} (den : nat -> list V -> V) (cv : nat -> V) (g : tg) (v : nat -> V) : Prop :=
  forall n, In n (tids g) -> match tk (tn g n) with
    | KOp f | KGen f => forall x, In x (tout (tn g n)) -> v x = den f (map v (tin (tn g n)))
    | KConst c => forall x, In x (tout (tn g n)) -> v x = cv c
    | _ => True end.
(** the value of a list of operators: that of the last *)
Fixpoint all_some {A} (l : list (option A)) : option (list A) :=
  match l with
  | [] => Some []
  | Some a :: r => match all_some r with Some rs => Some (a :: rs) | None => None end
  | None :: _ => None
  end.
Fixpoint e_run {V} (den : nat -> list V -> V) (cv : nat -> V) (ins temps : list V) (e : texp) : option V :=
  match e with
  | [] => None
  | (f, args) :: rest =>
      match all_some (map (fun a => match a with RIn i => nth_error ins i | RTmp j => nth_error temps j | RNew c => Some (cv c) end) args) with
      | Some xs => match rest with [] => Some (den f xs) | _ => e_run den cv ins (temps ++ [den f xs]) rest end
      | None => None
      end
  end.
(** for every operator of the converter's own kinds, what replaces it has its value on inputs as many as it has *)
Definition exp_right {V} (den : nat -> list V -> V) (cv : nat -> V) (exp : nat -> texp) (g : tg) : Prop :=
  forall n f vs, In n (tids g) -> tk (tn g n) = KGen f -> length vs = length (tin (tn g n)) ->
    e_run den cv vs [] (exp f) = Some (den f vs).
(** [n] is read by some node *)
Definition is_read (g : tg) (n : nat) : Prop := exists d x, In d (tids g) /\ In x (tout (tn g n)) /\ In x (tin (tn g d)).
(** what goes: the converter's own operators that are read, and OUTPUT nodes of their results *)
Definition replaced (g : tg) (n : nat) : Prop := (exists f, tk (tn g n) = KGen f) /\ is_read g n.
Definition goes (g : tg) (n : nat) : Prop :=
  replaced g n \/ (tk (tn g n) = KOut /\ exists s x, In s (tids g) /\ replaced g s /\ In x (tout (tn g s)) /\ In x (tin (tn g n))).
Definition has_output (g : tg) (x : nat) : Prop := exists d, In d (tids g) /\ tk (tn g d) = KOut /\ tin (tn g d) = [x].
