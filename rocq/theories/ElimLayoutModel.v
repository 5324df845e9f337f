(** Model of [fuse_simple_transpose_pass] and [fuse_simple_reshape_pass] on the operator graph
    ([tinynn/converter/operators/optimize.py] 748-785, 906-944), on top of [ElimModel.v].

    A value is a tensor with its elements in row-major order, or a list of numbers (the constant operand
    of these operators).  The hints about the direction of a transpose carry no value and are left out. *)
From Coq Require Import List Arith Bool String.
From Verif Require Import Tensor ChainModel ElimModel.
Import ListNotations.

Inductive val (A : Type) := Data (s : list nat) (l : list A) | Ints (p : list nat).
Arguments Data {A}. Arguments Ints {A}.

Section Layout.
Context {A : Type}.

(** optimize.py 4461-4470 [fuse_transpose_perms], one round of the loop: [cur_perm[next_perm]]. *)
Definition comp_perms (x y : val A) : val A :=
  match x, y with Ints p, Ints q => Ints (sel p q) | _, _ => x end.
(** optimize.py 770 [np.array_equal(new_perm, np.sort(new_perm))]. *)
Definition is_sorted (x : val A) : bool :=
  match x with Ints p => list_eqb p (np_sort p) | Data _ _ => false end.
(** optimize.py 748-785 [fuse_simple_transpose_pass]; [cls]: the node is a TRANSPOSE. *)
Definition fuse_transposes (cls : vertex -> bool) (name : list nat -> string) (g : graph (val A)) : option (graph (val A)) :=
  fuse_chains (fun u v => cls u && cls v) (simple_plan comp_perms (fun _ => is_sorted) name g) g.

(** optimize.py 919: the shape of the last node of the chain counts. *)
Definition comp_shapes (x y : val A) : val A := y.
(** optimize.py 920-932: the new shape is the recorded shape ([shape]) of the first input of the chain. *)
Definition is_shape (shape : string -> list nat) (g : graph (val A)) (l : list nat) (x : val A) : bool :=
  match x, vfind g (hd 0 l) with
  | Ints p, Some v => match v_ins v with n :: _ => list_eqb p (shape n) | [] => false end
  | _, _ => false
  end.
(** optimize.py 906-944 [fuse_simple_reshape_pass]; [cls]: the node is a RESHAPE. *)
Definition fuse_reshapes (shape : string -> list nat) (cls : vertex -> bool) (name : list nat -> string) (g : graph (val A))
  : option (graph (val A)) :=
  fuse_chains (fun u v => cls u && cls v) (simple_plan comp_shapes (is_shape shape g) name g) g.
End Layout.
