(** Specification for the passes that fuse transposes and reshapes in the operator graph: a tensor is its
    shape with its elements in row-major order, and a constant operand a list of numbers. *)
From Coq Require Import List Arith Bool String.
From Verif Require Import Tensor ElimModel ElimLayoutModel.
Import ListNotations.

Section Layout.
Context {A : Type}.
Variable d : A.

Definition unpack (s : list nat) (l : list A) : tensor A := mkT s (fun i => nth (ravel s i) l d).
Definition pack (t : tensor A) : val A :=
  Data (tshape t) (map (fun k => tget t (unravel (tshape t) k)) (seq 0 (prod (tshape t)))).

(** TRANSPOSE and RESHAPE; what does not fit is handed on. *)
Definition do_transpose (x y : val A) : val A :=
  match x, y with
  | Data s l, Ints p =>
      if (List.length l =? prod s) && (List.length s =? List.length p) then pack (transpose p (unpack s l)) else x
  | _, _ => x
  end.
Definition do_reshape (x y : val A) : val A :=
  match x, y with
  | Data s l, Ints p => if (List.length l =? prod s) && (prod s =? prod p) then pack (reshape p (unpack s l)) else x
  | _, _ => x
  end.

(** Two permutations of one rank; two shapes of one size. *)
Definition perms_meet (x y : val A) : Prop :=
  exists n p q, x = Ints p /\ y = Ints q /\ is_perm n p /\ is_perm n q.
Definition shapes_meet (x y : val A) : Prop :=
  exists p q, x = Ints p /\ y = Ints q /\ prod p = prod q.
(** A tensor of this shape. *)
Definition has_shape (s : list nat) (x : val A) : Prop := exists l, x = Data s l /\ List.length l = prod s.
End Layout.
