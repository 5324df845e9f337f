(** What layers have to be like that are equalized together. *)
From Coq Require Import List Arith Bool ZArith.
From Verif Require Import ClsModel.
Import ListNotations.

(** the output of [c] goes through the nodes of [l], each with one reader and scalable, to [n] and nowhere else *)
Inductive only_through (g : lgraph) (c : nat) : list nat -> nat -> Prop :=
| ot_one n : nx g c = [n] -> only_through g c [] n
| ot_step l x n : only_through g c l x -> lk g x = LScal -> nx g x = [n] -> only_through g c (l ++ [x]) n.
(** two layers, the second reads the first through scalable nodes *)
Definition pair_ok (g : lgraph) (p : list item) : Prop :=
  exists c1 m1 c2 m2 l, p = [(c1, m1); (c2, m2)] /\ lk g c1 = LSup m1 /\ lk g c2 = LSup m2 /\ only_through g c1 l c2.
(** readers and inputs fit, layers and scalable nodes have one input, and no layer reads itself through others *)
Definition l_wf (g : lgraph) : Prop :=
  (forall x y, In x (nx g y) <-> In y (pr g x)) /\ (forall x, lk g x <> LOther -> length (pr g x) = 1) /\ (forall x y, In x (nx g y) -> y < x).
(** what the nodes compute: layers by their modules [den], others by [fo] *)
Definition l_computes {V} (den : nat -> list V -> V) (fo : nat -> list V -> V) (g : lgraph) (v : nat -> V) : Prop :=
  forall n, v n = match lk g n with LSup m => den m (map v (pr g n)) | _ => fo n (map v (pr g n)) end.
(** two layers are equalized: the output of the first is scaled, the second takes that back *)
Definition equalized {V} (sc un : V -> V) (m1 m2 : nat) (den : nat -> list V -> V) (m : nat) (l : list V) : V :=
  if m =? m1 then sc (den m l) else if m =? m2 then den m (map un l) else den m l.
(** the module belongs to one node only *)
Definition own_module (g : lgraph) (c m : nat) : Prop := forall n, lk g n = LSup m -> n = c.
(** two channels of two columns; a convolution and a linear layer with diagonal weights *)
Definition mat := ((Z * Z) * (Z * Z))%type.
Definition conv_rows (w : Z * Z) (x : mat) : mat := let '((a, b), (c, d)) := x in ((fst w * a, fst w * b), (snd w * c, snd w * d))%Z.
Definition lin_cols (w : Z * Z) (x : mat) : mat := let '((a, b), (c, d)) := x in ((fst w * a, snd w * b), (fst w * c, snd w * d))%Z.
(** one node after the other from the input 0 to the output [n] *)
Definition chain (g : lgraph) (n : nat) : Prop :=
  lk g 0 = LOther /\ lk g n = LOther /\ (forall i, i < n -> nx g i = [S i]) /\ (forall i, n <= i -> nx g i = []) /\ fwd g = seq 1 n.
