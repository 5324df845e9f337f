(** What the removal of channels has to respect: which channels of the centers depend on each other, and networks whose
    channels fall into labelled classes (residual connections, flattening, permuted channels). *)
From Coq Require Import List Arith Bool ZArith Relations.
From Verif Require Import PruneModel PruneIdxModel.
Import ListNotations.
Local Open Scope Z_scope.

(** one recorded set of a leaf: index [i] of leaf [l] is fed by the channels [s] of center [c] *)
Definition records (sg : subgraph) (l : leafm) (c : nat) (i : Z) (s : pset) : Prop :=
  In l (sg_leaves sg) /\ In c (sg_mods sg) /\
  exists dim d r row, lf_dims l = [(dim, d)] /\ In (c, r) d /\ In row r /\
    0 <= i < Z.of_nat (length row) /\ s = nth (Z.to_nat i) row [].
(** index [i] of leaf [l] is fed by channel [j] of center [c] *)
Definition fed (sg : subgraph) (l : leafm) (c : nat) (i j : Z) : Prop :=
  exists s, records sg l c i s /\ In j s /\ j <> -1.
(** two channels that meet in an index of a leaf can only be removed together *)
Definition depend (sg : subgraph) (p q : nat * Z) : Prop :=
  exists l i, fed sg l (fst p) i (snd p) /\ fed sg l (fst q) i (snd q).
(** two channels of one center in one recorded set *)
Definition together (sg : subgraph) (c : nat) (a b : Z) : Prop :=
  exists l i s, records sg l c i s /\ In a s /\ In b s.

(** the centers of a leaf *)
Definition centers_of (l : leafm) : list nat := concat (map (fun e => map fst (snd e)) (lf_dims l)).
(** the centers in the order in which they are met *)
Definition first_order (sg : subgraph) : list nat :=
  fold_left (fun acc c => if existsb (Nat.eqb c) acc then acc else acc ++ [c]) (concat (map centers_of (sg_leaves sg))) [].

(** Every center has the channels [0..n-1]; every index of a leaf is fed by every center of the leaf, and by channels of
    its own label only; the channels of a center with one label are tied together by what is recorded for that center. *)
Record labelled (sg : subgraph) (n : nat) (kap lam : nat -> Z -> Z) : Prop := {
  lb_n : (0 < n)%nat;
  lb_names : NoDup (map lf_name (sg_leaves sg));
  lb_leaf : forall l, In l (sg_leaves sg) ->
    (exists c, In c (centers_of l)) /\ NoDup (centers_of l) /\
    (forall c, In c (centers_of l) -> In c (sg_mods sg)) /\
    (forall c, In c (lf_centers l) -> In c (sg_mods sg)) /\
    exists dim d w, lf_dims l = [(dim, d)] /\ (0 < w)%nat /\
      forall c r, In (c, r) d ->
        r <> [] /\
        (forall row, In row r -> length row = w) /\
        (forall row i, In row r -> (i < w)%nat -> nth i row [] <> [] /\
           forall j, In j (nth i row []) -> 0 <= j < Z.of_nat n /\ kap c j = lam (lf_name l) (Z.of_nat i)) /\
        (forall j, 0 <= j < Z.of_nat n -> exists row i, In row r /\ (i < w)%nat /\ In j (nth i row []));
  lb_tied : forall l c a b, In l (sg_leaves sg) -> In c (centers_of l) ->
    0 <= a < Z.of_nat n -> 0 <= b < Z.of_nat n -> kap c a = kap c b ->
    clos_refl_trans Z (together sg c) a b }.

(** every center but the first shares a leaf with an earlier one *)
Definition chained (sg : subgraph) : Prop :=
  forall a c b, first_order sg = a ++ c :: b -> a <> [] ->
    exists c' l, In c' a /\ In l (sg_leaves sg) /\ In c (centers_of l) /\ In c' (centers_of l).

(** A network of convolutions, element-wise operations and additions: every channel [i] of a center feeds index [i] of
    its leaves.  [leaves] gives the name and the centers of each leaf. *)
Definition same_index (n : nat) : rows := [map (fun i => [Z.of_nat i]) (seq 0 n)].
Definition plain_net (n : nat) (mods : list nat) (leaves : list (nat * list nat)) : subgraph :=
  mkSG mods
    (map (fun e => mkLeaf (fst e) [(1%nat, map (fun c => (c, same_index n)) (snd e))] (snd e) [map Z.of_nat (seq 0 n)]) leaves)
    (map (fun c => (c, [map Z.of_nat (seq 0 n)])) mods).
