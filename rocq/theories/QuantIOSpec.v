(** What has to become of a graph whose inputs and outputs get another type. *)
From Coq Require Import ZArith List Arith Bool.
From Verif Require Import OutTransModel OutTransSpec BranchModel BranchSpec InTransSpec QuantIOModel.
Import ListNotations.

(** a selected input or output of another type *)
Definition changed (tgt : qty) (ty : nat -> qty) (l : list (nat * bool)) (t : nat) : Prop := In (t, true) l /\ ty t <> tgt.
(** [r] is an OUTPUT node of [t] *)
Definition out_node (g : bg) (r t : nat) : Prop := In r (bids g) /\ bk (bn g r) = BOut /\ bin (bn g r) = [t].
(** the outputs are tensors of the graph, listed once, each with one OUTPUT node, and there are no other OUTPUT nodes *)
Definition outputs_ok (g : bg) (os : list (nat * bool)) : Prop :=
  NoDup (map fst os) /\
  (forall t b, In (t, b) os -> t < bnext g /\ In (bprod g t) (bids g) /\ In t (bout (bn g (bprod g t))) /\ exists r, forall r', out_node g r' t <-> r' = r) /\
  (forall r, In r (bids g) -> bk (bn g r) = BOut -> exists t b, bn g r = mkBN BOut [t] [] /\ In (t, b) os).
(** 8-bit types *)
Definition types_ok (ty : nat -> qty) (l : list (nat * bool)) : Prop := forall t, In (t, true) l -> ty t <> TOther.
(** no input that is changed is an output *)
Definition not_through (tgt : qty) (ty : nat -> qty) (ns os : list (nat * bool)) : Prop := forall t b, changed tgt ty ns t -> ~ In (t, b) os.
(** the outputs that one node makes are changed together *)
Definition together (tgt : qty) (ty : nat -> qty) (g : bg) (os : list (nat * bool)) : Prop :=
  forall t t' b, changed tgt ty os t -> In (t', b) os -> bprod g t' = bprod g t -> changed tgt ty os t'.
(** values and types of the tensors there were *)
Definition io_values {V} (conv : qty -> qty -> V -> V) (tgt : qty) (ns : list (nat * bool)) (g : bg) (ty : nat -> qty) (v : nat -> V) (ty' : nat -> qty) (v' : nat -> V) : Prop :=
  forall x, x < bnext g -> (changed tgt ty ns x -> v' x = conv (ty x) tgt (v x) /\ ty' x = tgt) /\ (~ changed tgt ty ns x -> v' x = v x /\ ty' x = ty x).
(** the outputs, in their order *)
Definition io_outputs {V} (conv : qty -> qty -> V -> V) (tgt : qty) (os : list (nat * bool)) (g : bg) (ty : nat -> qty) (v : nat -> V) (ty' : nat -> qty) (v' : nat -> V) (outs : list nat) : Prop :=
  Forall2 (fun o t' => (changed tgt ty os (fst o) -> bnext g <= t' /\ v' t' = conv (ty (fst o)) tgt (v (fst o)) /\ ty' t' = tgt) /\ (~ changed tgt ty os (fst o) -> t' = fst o)) os outs.
(** nodes: all but OUTPUT nodes stay, with the same values; new are QUANTIZE of tensors there were, and OUTPUT nodes *)
Definition io_nodes {V} (q : qty -> qty -> nat) (g : bg) (v : nat -> V) (g' : bg) (v' : nat -> V) : Prop :=
  (forall r, In r (bids g) -> bk (bn g r) <> BOut -> In r (bids g') /\ bk (bn g' r) = bk (bn g r) /\ bout (bn g' r) = bout (bn g r) /\ map v' (bin (bn g' r)) = map v (bin (bn g r))) /\
  (forall r, In r (bids g') -> In r (bids g) \/ bk (bn g' r) = BOut \/ exists a b t, t < bnext g /\ bn g' r = mkBN (BOp (q a b)) [t] [r]).
(** the codes of an 8-bit type *)
Definition code_of (a : qty) (c : Z) : Prop := match a with TI8 => (-128 <= c <= 127)%Z | TU8 => (0 <= c <= 255)%Z | TOther => False end.
