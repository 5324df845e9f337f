(** What the outputs of a graph have to be connected to. *)
From Coq Require Import List Arith Bool.
From Verif Require Import OutTransModel UnpackModel.
Import ListNotations.

(** every tensor of a node is known as made by it, numbers are below the next unused one; edges start at the node that makes the label *)
Definition u_wf (g : ug) : Prop :=
  (forall n, In n (uids g) -> n < unext g /\ forall t, In t (uout (un g n)) -> t < unext g /\ uprod g t = Some n) /\
  (forall s d t, In (s, d, t) (ued g) -> In s (uids g) /\ In d (uids g) /\ t < unext g) /\
  (forall t p, uprod g t = Some p -> t < unext g).
(** every tensor that is known is made by a node of the graph *)
Definition live (g : ug) : Prop := forall t q, uprod g t = Some q -> In q (uids g).
(** the old nodes and edges are there, and what is new is of one kind *)
Definition u_extends (k : ukind) (g g' : ug) : Prop :=
  (forall n, In n (uids g) -> In n (uids g') /\ un g' n = un g n) /\ (forall e, In e (ued g) -> In e (ued g')) /\
  (forall n, In n (uids g') -> In n (uids g) \/ (uk (un g' n) = k /\ exists p t, In (p, n, t) (ued g'))) /\
  (forall t p, uprod g t = Some p -> uprod g' t = Some p).
(** OUTPUT nodes of a tensor *)
Definition out_count (g : ug) (t : nat) : nat :=
  length (filter (fun e => match uk (un g (snd (fst e))) with UOut => snd e =? t | _ => false end) (ued g)).
(** the items of the list that a name stands for *)
Definition items (im : umap) (n : nat) : option (list nat) := option_map snd (find (fun e => fst e =? n) im).
(** the outputs with every list replaced by its items *)
Inductive unpacked (im : umap) : list nat -> list nat -> Prop :=
| up_nil : unpacked im [] []
| up_list n l ns r : items im n = Some l -> unpacked im ns r -> unpacked im (n :: ns) (l ++ r)
| up_one n ns r : items im n = None -> unpacked im ns r -> unpacked im (n :: ns) (n :: r).
(** how often a tensor is the item of a list among the outputs *)
Fixpoint listed_in (im : umap) (t : nat) (ns : list nat) : nat :=
  match ns with [] => 0 | n :: ns => match items im n with Some l => count_occ Nat.eq_dec l t | None => 0 end + listed_in im t ns end.
(** an operator with several outputs, one of which is read *)
Definition several (g : ug) (n : nat) : Prop :=
  In n (uids g) /\ (uk (un g n) = UOp \/ uk (un g n) = UReshape) /\ 2 <= length (uout (un g n)) /\ exists d t, In (n, d, t) (ued g).
(** its outputs are the items of a list *)
Definition makes_list (im : umap) (g : ug) (n : nat) : Prop := exists t k l, In t (uout (un g n)) /\ In (k, l) im /\ In t l.
(** tensors that have to be read afterwards: the outputs, or the outputs of the RESHAPE operators behind a list *)
Definition wants (im : umap) (g : ug) (n t : nat) : Prop :=
  (~ makes_list im g n /\ In t (uout (un g n))) \/
  (makes_list im g n /\ exists d u, In (n, d, u) (ued g) /\ uk (un g d) = UReshape /\ uout (un g d) = [t]).
Definition is_read (g : ug) (t : nat) : Prop := exists s d, In (s, d, t) (ued g).
