(** Which channels may be removed when batch normalizations see no variance. *)
From Coq Require Import List Arith Bool ZArith.
From Verif Require Import PruneModel PruneIdxModel.
Import ListNotations.
Local Open Scope nat_scope.

(** channel [j] of center [c] feeds index [i] of leaf [l] *)
Definition feeds (l : pleaf) (i c : nat) (j : Z) : Prop :=
  j <> (-1)%Z /\ exists r row, In (c, r) (pl_rows l) /\ In row r /\ i < length row /\ In j (nth i row []).
(** channels of different centers meet in an index of a leaf *)
Definition meets (ls : list pleaf) (c : nat) (j : Z) (c' : nat) (j' : Z) : Prop :=
  c <> c' /\ exists l i, In l ls /\ feeds l i c j /\ feeds l i c' j'.
(** index [i] of leaf [l] bears on a channel: it is fed by it or by one that it meets *)
Definition bears (ls : list pleaf) (l : pleaf) (i c : nat) (j : Z) : Prop :=
  feeds l i c j \/ exists c1 j1, feeds l i c1 j1 /\ meets ls c1 j1 c j.
(** the batch normalization [l] sees variance, or none, at index [i] *)
Definition flat_at (ls : list pleaf) (bn : nat -> option (list bool)) (l : pleaf) (i : nat) (b : bool) : Prop :=
  In l ls /\ pl_real l = true /\ exists flags, bn (pl_name l) = Some flags /\ nth_error flags i = Some b.
(** Each batch normalization bears on a channel with at most one index. *)
Definition one_index (ls : list pleaf) : Prop :=
  forall l i i' c j, In l ls -> bears ls l i c j -> bears ls l i' c j -> i = i'.
(** Channels that meet a common channel meet. *)
Definition cliques (ls : list pleaf) : Prop :=
  forall c j c1 j1 c2 j2, meets ls c1 j1 c j -> meets ls c j c2 j2 -> (c1 = c2 /\ j1 = j2) \/ meets ls c1 j1 c2 j2.
(** Leaves have different names and list a center once. *)
Definition well_named (ls : list pleaf) : Prop :=
  NoDup (map pl_name ls) /\ forall l, In l ls -> NoDup (map fst (pl_rows l)).
(** channel [j] of center [c] is removed; index [i] of the leaf named [n] is removed *)
Definition gone_center (pc : list (nat * pset)) (c : nat) (j : Z) : Prop := exists s, In (c, s) pc /\ In j s.
Definition gone_leaf (pl : list (nat * pset)) (n i : nat) : Prop := exists t, In (n, t) pl /\ In (Z.of_nat i) t.
(** some batch normalization bears on the channel; some one that bears on it sees variance *)
Definition borne (ls : list pleaf) (bn : nat -> option (list bool)) (c : nat) (j : Z) : Prop :=
  exists l i b, flat_at ls bn l i b /\ bears ls l i c j.
Definition lively (ls : list pleaf) (bn : nat -> option (list bool)) (c : nat) (j : Z) : Prop :=
  exists l i, flat_at ls bn l i false /\ bears ls l i c j.
