(** Model of the quantization error reports [layer_error_analysis] and [graph_error_analysis]
    (tinynn/util/quantization_analysis_util.py 75-174, 177-256).

    Simplified: modules are numbers and stand for their names; the modules of [named_modules] are a list without duplicates (torch);
    the inputs of a module are one value; exceptions of the model, the metric and the input conversion (123-136, 221-234) are left out. *)
From Coq Require Import List Arith Bool.
Import ListNotations.

(** [training], [fake_quant_enabled], [observer_enabled] of every module *)
Record qst := mkQS { qtr : nat -> bool; qfq : nat -> bool; qob : nat -> bool }.
Definition q_in (n : nat) (l : list nat) : bool := existsb (Nat.eqb n) l.
(** torch: assign to the modules of [ms] that satisfy [p] *)
Definition q_set (ms : list nat) (p : nat -> bool) (b : nat -> bool) (f : nat -> bool) : nat -> bool := fun n => if q_in n ms && p n then b n else f n.
(** what is measured: the modules, the root, which are [FakeQuantize], which are [FakeQuantizeBase] (torch tests for that in
    [disable_fake_quant], [disable_observer]), which have a name that ends with [.weight_fake_quant], and what a run of the model calls
    with what input *)
Record qmodel (T : Type) := mkQM { qms : list nat; qroot : nat; q_isfq : nat -> bool; q_isbase : nat -> bool; q_isw : nat -> bool; q_run : qst -> list (nat * T); q_quant : nat -> T -> T }.
Arguments qms {T}. Arguments qroot {T}. Arguments q_isfq {T}. Arguments q_isbase {T}. Arguments q_isw {T}. Arguments q_run {T}. Arguments q_quant {T}.

(** 93-94, 117-118 (192-193, 215-216): [eval], fake quantization and observers off *)
Definition q_off {T} (M : qmodel T) (s : qst) : qst :=
  mkQS (q_set (qms M) (fun _ => true) (fun _ => false) (qtr s)) (q_set (qms M) (q_isbase M) (fun _ => false) (qfq s)) (q_set (qms M) (q_isbase M) (fun _ => false) (qob s)).
(** 144-145 (239-240): the saved flags, [s0] is the state they were saved in *)
Definition q_fq_back {T} (M : qmodel T) (s0 s : qst) : qst := mkQS (qtr s) (q_set (qms M) (q_isfq M) (qfq s0) (qfq s)) (qob s).
(** 170-174 (252-256) *)
Definition q_end {T} (M : qmodel T) (s0 s : qst) : qst :=
  mkQS (if qtr s0 (qroot M) then q_set (qms M) (fun _ => true) (fun _ => true) (qtr s) else qtr s) (qfq s) (q_set (qms M) (q_isfq M) (qob s0) (qob s)).

(** 101-103: the hook writes into a dictionary; a key that is there keeps its place *)
Fixpoint d_put {T} (n : nat) (x : T) (d : list (nat * T)) : list (nat * T) :=
  match d with [] => [(n, x)] | (m, y) :: d => if n =? m then (m, x) :: d else (m, y) :: d_put n x d end.
Definition hooked {T} (M : qmodel T) (n : nat) : bool := q_in n (qms M) && q_isfq M n.
(** the dictionary after a run in the state [s] *)
Definition q_results {T} (M : qmodel T) (s : qst) : list (nat * T) :=
  fold_left (fun d c => if hooked M (fst c) then d_put (fst c) (snd c) d else d) (q_run M s) [].
Fixpoint d_get {T} (n : nat) (d : list (nat * T)) : option T :=
  match d with [] => None | (m, x) :: d => if n =? m then Some x else d_get n d end.

(** [sorted]: stable *)
Fixpoint s_ins {L} (leb : L -> L -> bool) (a : nat * L) (l : list (nat * L)) : list (nat * L) :=
  match l with [] => [a] | b :: l => if leb (snd a) (snd b) then a :: b :: l else b :: s_ins leb a l end.
Definition s_sort {L} (leb : L -> L -> bool) (l : list (nat * L)) : list (nat * L) := fold_right (s_ins leb) [] l.

(** 147-159: [popitem] takes the last item first; a FakeQuantize module called with fake quantization off returns its input *)
Definition layer_errors {T L} (M : qmodel T) (metric : T -> T -> L) (s : qst) (d : list (nat * T)) : list (nat * L) :=
  map (fun nx => (fst nx, metric (snd nx) (if qfq s (fst nx) then q_quant M (fst nx) (snd nx) else snd nx))) (rev d).
(** 75-174: the report for weights, for activations, and the state of the model afterwards *)
Definition layer_analysis {T L} (leb : L -> L -> bool) (metric : T -> T -> L) (k : nat) (M : qmodel T) (s0 : qst) : list (nat * L) * list (nat * L) * qst :=
  let s1 := q_off M s0 in
  let d := q_results M s1 in
  let s2 := q_fq_back M s0 s1 in
  let es := layer_errors M metric s2 d in
  (firstn k (s_sort leb (filter (fun e => q_isw M (fst e)) es)), firstn k (s_sort leb (filter (fun e => negb (q_isw M (fst e))) es)), q_end M s0 s2).

(** 242-250; [None]: the assertion of 245 *)
Fixpoint graph_errors {T L} (metric : T -> T -> L) (isw : nat -> bool) (d2 d : list (nat * T)) : option (list (nat * L)) :=
  match d with
  | [] => Some []
  | (n, x) :: d => match d_get n d2, graph_errors metric isw d2 d with
                   | Some y, Some es => Some (if isw n then es else (n, metric x y) :: es)
                   | _, _ => None
                   end
  end.
(** 177-256 *)
Definition graph_analysis {T L} (metric : T -> T -> L) (M : qmodel T) (s0 : qst) : option (list (nat * L) * qst) :=
  let s1 := q_off M s0 in
  let d1 := q_results M s1 in
  let s2 := q_fq_back M s0 s1 in
  let d2 := q_results M s2 in
  match graph_errors metric (q_isw M) d2 d1 with Some es => Some (es, q_end M s0 s2) | None => None end.
