(** Quantization error reports. *)
From Coq Require Import List Arith Bool Lia Permutation Sorting.Sorted.
From Verif Require Import ErrAnaModel ErrAnaSpec ErrAnaProofs.
Import ListNotations.

(** The two lists of the layer report: the [k] smallest errors of the weights (of the activations) in order, every error being that of
    one FakeQuantize module on the input it got last in a float run. *)
Theorem C144_layer_report :
  forall {T L} leb (metric : T -> T -> L) k (M : qmodel T) s, total_preorder leb ->
  exists ws acts s' sf, layer_analysis leb metric k M s = (ws, acts, s') /\ float_state M s sf /\
    report leb k (fun n e => q_isw M n = true /\ layer_error M metric s sf n e) ws /\
    report leb k (fun n e => q_isw M n = false /\ layer_error M metric s sf n e) acts.
Proof. exact @layer_ok. Qed.
Print Assumptions C144_layer_report.

(** The graph report: in the order of the first calls, for every activation the input of the float run against the input of the run
    with fake quantization; it fails only when a module of the float run is not called in the other one. *)
Theorem C144_graph_report :
  forall {T L} (metric : T -> T -> L) (M : qmodel T) s,
  exists sf sq, float_state M s sf /\ quant_state M s sq /\
  let called := filter (hooked M) (map fst (q_run M sf)) in
  match graph_analysis metric M s with
  | Some (es, _) => incl called (map fst (q_run M sq)) /\ map fst es = filter (fun n => negb (q_isw M n)) (firsts [] called) /\
      forall n e, In (n, e) es -> exists x y, last_call (q_run M sf) n x /\ last_call (q_run M sq) n y /\ e = metric x y
  | None => ~ incl called (map fst (q_run M sq))
  end.
Proof. exact @graph_ok. Qed.
Print Assumptions C144_graph_report.

(** Both leave the flags of every FakeQuantize module as they were, and the training mode if all the modules have the same. *)
Theorem C144_restored_partial :
  forall {T L} leb (metric : T -> T -> L) k (M : qmodel T) s,
  (let '(_, _, s') := layer_analysis leb metric k M s in flags_kept M s s' /\ (one_mode M s -> mode_kept M s s')) /\
  (forall es s', graph_analysis metric M s = Some (es, s') -> flags_kept M s s' /\ (one_mode M s -> mode_kept M s s')).
Proof. exact @restored. Qed.
Print Assumptions C144_restored_partial.

(** a model in training mode: 1 and 3 quantize activations (1 is called twice), 2 quantizes a weight, 4 was switched off; quantizing rounds
    to a multiple of 4; the second call of 1 gets what 3 gives *)
Definition ex_round (x : nat) : nat := 4 * (x / 4).
Definition ex_run (s : qst) : list (nat * nat) :=
  let q n x := if qfq s n then ex_round x else x in [(1, 7); (2, 10); (5, 0); (3, q 1 7 + q 2 10); (4, 9); (1, q 3 (q 1 7 + q 2 10))].
Definition ex_qm : qmodel nat := mkQM nat [0; 1; 2; 3; 4; 5] 0 (fun n => (1 <=? n) && (n <=? 4)) (fun n => (1 <=? n) && (n <=? 4)) (fun n => n =? 2) ex_run (fun _ => ex_round).
Definition ex_qs : qst := mkQS (fun _ => true) (fun n => negb (n =? 4)) (fun n => n =? 3).
Definition ex_metric (x y : nat) : nat := (x - y) + (y - x).
Example C144_example :
  total_preorder Nat.leb /\ one_mode ex_qm ex_qs /\
  (let '(ws, acts, s') := layer_analysis Nat.leb ex_metric 2 ex_qm ex_qs in
   ws = [(2, 2)] /\ acts = [(4, 0); (3, 1)] /\ map (qfq s') [1; 2; 3; 4] = [true; true; true; false] /\ map (qob s') [1; 2; 3; 4] = [false; false; true; false] /\ qtr s' 5 = true) /\
  match graph_analysis ex_metric ex_qm ex_qs with Some (es, s') => es = [(1, 5); (3, 5); (4, 0)] /\ map (qfq s') [1; 4] = [true; false] | None => False end.
Proof.
  split; [|split; [|split]].
  - split; [intros a b; rewrite !Nat.leb_le; lia|intros a b c; rewrite !Nat.leb_le; lia].
  - intros n H. reflexivity.
  - vm_compute. repeat split; reflexivity.
  - vm_compute. repeat split; reflexivity.
Qed.

(** a model in training mode with a frozen batch norm: afterwards the batch norm is in training mode *)
Theorem C144_mode_refuted :
  exists (M : qmodel nat) s n, In n (qms M) /\ In (qroot M) (qms M) /\
  (forall leb (metric : nat -> nat -> nat) k, let '(_, _, s') := layer_analysis leb metric k M s in qtr s' n <> qtr s n) /\
  forall metric : nat -> nat -> nat, match graph_analysis metric M s with Some (_, s') => qtr s' n <> qtr s n | None => False end.
Proof. exact mode_lemma. Qed.
Print Assumptions C144_mode_refuted.

(** a module that is a FakeQuantizeBase and no FakeQuantize is switched off and stays off *)
Theorem C144_base_refuted :
  exists (M : qmodel nat) s n, In n (qms M) /\ (forall n, q_isfq M n = true -> q_isbase M n = true) /\
  (forall leb (metric : nat -> nat -> nat) k, let '(_, _, s') := layer_analysis leb metric k M s in qfq s' n <> qfq s n /\ qob s' n <> qob s n) /\
  forall metric : nat -> nat -> nat, match graph_analysis metric M s with Some (_, s') => qfq s' n <> qfq s n /\ qob s' n <> qob s n | None => False end.
Proof. exact base_lemma. Qed.
Print Assumptions C144_base_refuted.
