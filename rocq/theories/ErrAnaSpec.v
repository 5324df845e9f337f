(** What an error report has to say and how it has to leave the model. *)
From Coq Require Import List Arith Bool Permutation Sorting.Sorted.
From Verif Require Import ErrAnaModel.
Import ListNotations.

(** [x] is what [n] was called with last in the calls [l] *)
Definition last_call {T} (l : list (nat * T)) (n : nat) (x : T) : Prop := exists l1 l2, l = l1 ++ (n, x) :: l2 /\ forall y, ~ In (n, y) l2.
(** the names in [l] in the order in which they come first *)
Fixpoint firsts (seen : list nat) (l : list nat) : list nat :=
  match l with [] => [] | n :: l => if in_dec Nat.eq_dec n seen then firsts seen l else n :: firsts (n :: seen) l end.
(** a float run: in evaluation mode, all the flags off *)
Definition float_state {T} (M : qmodel T) (s s' : qst) : Prop := forall n, In n (qms M) ->
  qtr s' n = false /\ qfq s' n = (if q_isbase M n then false else qfq s n) /\ qob s' n = (if q_isbase M n then false else qob s n).
(** a run in evaluation mode with the fake quantization the model had and the observers off *)
Definition quant_state {T} (M : qmodel T) (s s' : qst) : Prop := forall n, In n (qms M) ->
  qtr s' n = false /\ (q_isfq M n = true -> qfq s' n = qfq s n) /\ (q_isbase M n = true -> qob s' n = false).
(** the error of the module [n] alone: its input in the float run against what it makes of it *)
Definition layer_error {T L} (M : qmodel T) (metric : T -> T -> L) (s sf : qst) (n : nat) (e : L) : Prop :=
  In n (qms M) /\ q_isfq M n = true /\ exists x, last_call (q_run M sf) n x /\ e = metric x (if qfq s n then q_quant M n x else x).
(** [rep] is sorted and holds the [k] smallest of [full] *)
Definition smallest {L} (leb : L -> L -> bool) (k : nat) (full rep : list (nat * L)) : Prop :=
  exists rest, Permutation full (rep ++ rest) /\ length rep = Nat.min k (length full) /\
  StronglySorted (fun a b => leb (snd a) (snd b) = true) rep /\ forall a b, In a rep -> In b rest -> leb (snd a) (snd b) = true.
(** a report of the [k] smallest among the errors described by [P] *)
Definition report {L} (leb : L -> L -> bool) (k : nat) (P : nat -> L -> Prop) (rep : list (nat * L)) : Prop :=
  exists full, NoDup (map fst full) /\ (forall n e, In (n, e) full <-> P n e) /\ smallest leb k full rep.
Definition total_preorder {L} (leb : L -> L -> bool) : Prop :=
  (forall a b, leb a b = true \/ leb b a = true) /\ forall a b c, leb a b = true -> leb b c = true -> leb a c = true.
Definition flags_kept {T} (M : qmodel T) (s s' : qst) : Prop :=
  forall n, In n (qms M) -> q_isfq M n = true \/ q_isbase M n = false -> qfq s' n = qfq s n /\ qob s' n = qob s n.
Definition mode_kept {T} (M : qmodel T) (s s' : qst) : Prop := forall n, In n (qms M) -> qtr s' n = qtr s n.
Definition one_mode {T} (M : qmodel T) (s : qst) : Prop := forall n, In n (qms M) -> qtr s n = qtr s (qroot M).
