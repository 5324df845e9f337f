(** What a graph has to be and to compute when its outputs are transposed. *)
From Coq Require Import List Arith Bool.
From Verif Require Import OutTransModel.
Import ListNotations.

(** edges [s] -> [d] labelled [t] *)
Definition ecount (s d t : nat) (l : list oedge) : nat :=
  length (filter (fun e => (fst (fst e) =? s) && (snd (fst e) =? d) && (snd e =? t)) l).
(** there is an edge for every input and no other *)
Definition o_consistent (g : og) : Prop :=
  forall s d t, ecount s d t (oed g) = if (s =? oprod g t) && o_mem d (oids g) then count_occ Nat.eq_dec (oin (on g d)) t else 0.
Definition o_wf (g : og) : Prop :=
  NoDup (oids g) /\
  (forall n, In n (oids g) -> n < onext g /\ NoDup (oout (on g n)) /\
     (forall t, In t (oin (on g n)) -> t < onext g /\ In (oprod g t) (oids g) /\ In t (oout (on g (oprod g t)))) /\
     (forall t, In t (oout (on g n)) -> t < onext g /\ oprod g t = n) /\
     (okd (on g n) = OOut -> oout (on g n) = [] /\ exists t, In t (oouts g) /\ oin (on g n) = [t])) /\
  (forall t, In t (oouts g) -> In (oprod g t) (oids g) /\ In t (oout (on g (oprod g t)))).

(** the operators [den], and [tr] for transposing to and from channels-last *)
Definition o_computes {V} (den : nat -> list V -> list V) (tr : bool -> V -> V) (g : og) (v : nat -> V) : Prop :=
  forall n, In n (oids g) ->
    match okd (on g n) with
    | OOp | ODeq => map v (oout (on g n)) = den n (map v (oin (on g n)))
    | OTr b => map v (oout (on g n)) = map (tr b) (map v (oin (on g n)))
    | OIn | OConst | OOut => True
    end.
(** [g'] has the nodes of [g] but for OUTPUT nodes, with the same values in and out; transposed outputs have the transposed
    value, the others their value *)
Definition o_keeps {V} (tr : bool -> V -> V) (ts : list nat) (g : og) (v : nat -> V) (g' : og) (v' : nat -> V) : Prop :=
  (forall n, In n (oids g) -> okd (on g n) <> OOut ->
     In n (oids g') /\ okd (on g' n) = okd (on g n) /\ map v' (oin (on g' n)) = map v (oin (on g n)) /\ map v' (oout (on g' n)) = map v (oout (on g n))) /\
  (forall t, In t (oouts g) -> v' t = if o_mem t ts then tr true (v t) else v t).
(** [n] is an OUTPUT node of [t] *)
Definition out_at (g : og) (t n : nat) : Prop := In n (oids g) /\ on g n = mkON OOut [t] [].
(** the outputs that are to be transposed *)
Definition flagged (g : og) (flags : list bool) : list nat := map fst (filter snd (combine (oouts g) flags)).
(** one decision for every name *)
Definition one_choice (g : og) (flags : list bool) : Prop :=
  forall t b b', In (t, b) (combine (oouts g) flags) -> In (t, b') (combine (oouts g) flags) -> b = b'.
