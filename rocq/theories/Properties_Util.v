(** Theorems about helper code and slicing (C53-C56, C58). *)
From Coq Require Import List Arith ZArith Bool Reals Lra Lia.
From Verif Require Import Tensor ConvSpec FuseModel FuseProofs UtilModel UtilProofs SliceModel SliceProofs.
Import ListNotations.

(** C53: after any history the meter holds the weighted mean of the updates since the last
    reset, and zeros if there are none; the last value is reported as [val]. *)
Theorem C53_average : forall h m, meter_run h = Some m ->
  m_sum m = value_sum (since_reset h) /\ m_count m = weight_sum (since_reset h) /\
  (since_reset h = [] -> m = meter_reset) /\
  (since_reset h <> [] -> m_avg m = weighted_mean (since_reset h)).
Proof. exact meter_state. Qed.
Print Assumptions C53_average.
(** With positive weights no history raises. *)
Theorem C53_defined : forall h, Forall positive_op h -> exists m, meter_run h = Some m.
Proof. exact meter_defined. Qed.
Print Assumptions C53_defined.
Theorem C53_last : forall h v n m, meter_run (h ++ [MUpdate v n]) = Some m -> m_val m = v.
Proof. exact meter_last. Qed.
Print Assumptions C53_last.
Example C53_witness :
  let h := [MUpdate 7 3; MReset; MUpdate 2 1; MUpdate 5 2] in
  Forall positive_op h /\ since_reset h = [(2%R, 1%Z); (5%R, 2%Z)] /\ weighted_mean (since_reset h) = 4%R.
Proof.
  cbn zeta. split; [repeat constructor|]. split; [reflexivity|].
  unfold weighted_mean. cbn. lra.
Qed.

(** C54: if some epoch has accuracy above 0, training ends with the weights of the first epoch
    of best accuracy.  Missing for the full statement: the case that no accuracy is above 0,
    which is refuted below. *)
Theorem C54_best_partial : forall (W : Type) (step : nat -> W -> W) validate n m file,
  (exists i, (i < n)%nat /\ (0 < acc_of step validate m i)%R) ->
  exists k, (k < n)%nat /\ train step validate n m file = Some (after step m (S k)) /\
    forall i, (i < n)%nat -> (acc_of step validate m i <= acc_of step validate m k)%R /\
                             ((i < k)%nat -> (acc_of step validate m i < acc_of step validate m k)%R).
Proof. exact train_best. Qed.
Print Assumptions C54_best_partial.
(** If no epoch exceeds 0, the result is the file left by an earlier run, or an exception. *)
Theorem C54_never_partial : forall (W : Type) (step : nat -> W -> W) validate n m file,
  (forall i, (i < n)%nat -> (acc_of step validate m i <= 0)%R) -> train step validate n m file = file.
Proof. exact train_never. Qed.
Print Assumptions C54_never_partial.
(** Witness: accuracies -3, -1, -2 (a negated loss); no earlier file: the run fails; an earlier file
    with weight 9: the run ends with 9, not with the best weight 2. *)
Theorem C54_best_refuted : exists (step : nat -> nat -> nat) (validate : nat -> R) (n m : nat),
  (n > 0)%nat /\ train step validate n m None = None /\
  train step validate n m (Some 9%nat) = Some 9%nat /\
  (forall i, (i < n)%nat -> after step m (S i) <> 9%nat).
Proof.
  exists (fun _ w => S w), (fun w => match w with 1%nat => (-3)%R | 2%nat => (-1)%R | _ => (-2)%R end), 3%nat, 0%nat.
  split; [lia|]. split; [|split].
  - apply train_never. intros i Hi. unfold acc_of. destruct i as [|[|[|i]]]; cbn; try lra; lia.
  - apply train_never. intros i Hi. unfold acc_of. destruct i as [|[|[|i]]]; cbn; try lra; lia.
  - intros i Hi. destruct i as [|[|[|i]]]; cbn; lia.
Qed.
Print Assumptions C54_best_refuted.
Example C54_witness : exists i, (i < 3)%nat /\
  (0 < acc_of (fun _ w => S w) (fun w => match w with 2%nat => 1%R | _ => 0%R end) 0%nat i)%R.
Proof. exists 1%nat. split; [lia|]. cbn. lra. Qed.

(** C55: in evaluation mode the restored pair differs from the convolution by at most the relative
    eps term, channel by channel. *)
Theorem C55_restored_bound : forall eps rm rv (y : tensor R) idx, (0 <= eps)%R ->
  (nth 1 idx 0 < length rv)%nat -> (0 <= nth (nth 1 idx 0%nat) rv 0)%R ->
  (0 < nth (nth 1 idx 0%nat) rv 0 + eps)%R ->
  (Rabs (tget (run_bn (restored_bn eps rm rv) ANone y) idx - tget y idx) <=
   Rabs (tget y idx - nth (nth 1 idx 0%nat) rm 0) * (eps / (nth (nth 1 idx 0%nat) rv 0 + eps)))%R.
Proof. exact restored_bound. Qed.
Print Assumptions C55_restored_bound.
Theorem C55_restored_exact : forall rm rv (y : tensor R) idx,
  (nth 1 idx 0 < length rv)%nat -> (0 < nth (nth 1 idx 0%nat) rv 0)%R ->
  tget (run_bn (restored_bn 0 rm rv) ANone y) idx = tget y idx.
Proof. exact restored_exact. Qed.
Print Assumptions C55_restored_exact.
Example C55_witness : let idx := [0; 1; 0; 0]%nat in let rv := [4; 9]%R in
  (nth 1 idx 0 < length rv)%nat /\ (0 < nth (nth 1 idx 0%nat) rv 0)%R /\
  (0 < nth (nth 1 idx 0%nat) rv 0 + 1 / 100)%R.
Proof. cbn. split; [lia|]. lra. Qed.

(** C56: positional arguments always get the right object. *)
Theorem C56_positional_partial : forall (K V : Type) (pos : list (lopt V)) (kw : list (K * lopt V)) p k,
  get_next pos kw = Some (p, k) -> Forall2 stands_for pos p.
Proof. exact get_next_pos. Qed.
Print Assumptions C56_positional_partial.
(** Keyword arguments are right exactly when every lazy keyword argument currently is the object of
    the last positional argument; in particular when none is lazy. *)
Theorem C56_keyword_partial : forall (K V : Type) (pos : list (lopt V)) (kw : list (K * lopt V)),
  (exists p k, get_next pos kw = Some (p, k) /\
               Forall2 (fun a b => fst a = fst b /\ stands_for (snd a) (snd b)) kw k) <->
  (forall k v, In (k, LObj v) kw -> last_opt pos = Some (LObj v)).
Proof. exact get_next_kw. Qed.
Print Assumptions C56_keyword_partial.
(** Witnesses: no positional argument (exception); a positional lazy object 1 and a keyword lazy
    object 2, where keyword receives 1. *)
Theorem C56_keyword_refuted :
  (exists kw : list (nat * lopt nat), get_next [] kw = None) /\
  (exists (pos : list (lopt nat)) (kw : list (nat * lopt nat)), kw = [(0%nat, LObj 2%nat)] /\
     get_next pos kw = Some ([1%nat], [(0%nat, 1%nat)])).
Proof.
  split.
  - exists [(0%nat, LObj 2%nat)]. reflexivity.
  - exists [LObj 1%nat], [(0%nat, LObj 2%nat)]. split; reflexivity.
Qed.
Print Assumptions C56_keyword_refuted.
Example C56_witness : get_next [LObj 1%nat; LPlain 4%nat] [(7%nat, LExpr 2%nat); (8%nat, LPlain 3%nat)] =
  Some ([1; 4], [(7, 2); (8, 3)])%nat.
Proof. reflexivity. Qed.

Local Open Scope Z_scope.
(** C58: constant bounds, step 1: right for every stop and every start from -d to d. *)
Theorem C58_static_one_partial : forall d start stop, 0 <= d -> in_range_start d start -> below d start ->
  run_emitted d (emit_slice d start stop None None 1) = Some (torch_slice d start stop 1).
Proof. exact emit_static_one. Qed.
Print Assumptions C58_static_one_partial.
(** Constant bounds, larger step: right for every stop and every start from -d on. *)
Theorem C58_static_step_partial : forall d start stop step, 0 <= d -> 1 < step -> in_range_start d start ->
  run_emitted d (emit_slice d start stop None None step) = Some (torch_slice d start stop step).
Proof. exact emit_static_step. Qed.
Print Assumptions C58_static_step_partial.
(** Start computed at run time: right when the traced start did not exceed the stop. *)
Theorem C58_dynamic_start_partial : forall d traced stop start step, 0 <= d -> 0 < step ->
  - d <= start -> torch_start d (Some traced) <= torch_stop d stop ->
  in_range_start d (Some traced) ->
  run_emitted d (emit_slice d (Some traced) stop (Some start) None step) =
  Some (torch_slice d (Some start) stop step).
Proof. exact emit_dyn_start. Qed.
Print Assumptions C58_dynamic_start_partial.
Theorem C58_dynamic_stop_partial : forall d start traced stop step, 0 <= d -> 0 < step -> in_range_start d start ->
  run_emitted d (emit_slice d start (Some traced) None (Some stop) step) =
  Some (torch_slice d start (Some stop) step).
Proof. exact emit_dyn_stop. Qed.
Print Assumptions C58_dynamic_stop_partial.
Theorem C58_dynamic_both_partial : forall d s0 e0 start stop step, 0 <= d -> 0 < step ->
  run_emitted d (emit_slice d s0 e0 (Some start) (Some stop) step) =
  Some (torch_slice d (Some start) (Some stop) step).
Proof. exact emit_dyn_both. Qed.
Print Assumptions C58_dynamic_both_partial.
(** Legal slices that are converted wrongly: [x[-6:]] and [x[6:]] of 4 elements become undefined SLICE
    operators; [x[-6::2]] of 4 elements selects 2 only; start 1 at run time with stop 3, traced with start 5, selects up to 5. *)
Theorem C58_slice_refuted :
  (run_emitted 4 (emit_slice 4 (Some (-6)) None None None 1) = None /\ torch_slice 4 (Some (-6)) None 1 = [0; 1; 2; 3]) /\
  (run_emitted 4 (emit_slice 4 (Some 6) None None None 1) = None /\ torch_slice 4 (Some 6) None 1 = []) /\
  (run_emitted 4 (emit_slice 4 (Some (-6)) None None None 2) = Some [2] /\ torch_slice 4 (Some (-6)) None 2 = [0; 2]) /\
  (run_emitted 10 (emit_slice 10 (Some 5) (Some 3) (Some 1) None 1) = Some [1; 2; 3; 4] /\
   torch_slice 10 (Some 1) (Some 3) 1 = [1; 2]).
Proof. repeat split. Qed.
Print Assumptions C58_slice_refuted.
Example C58_witness : in_range_start 5 (Some (-4)) /\ below 5 (Some (-4)) /\
  torch_slice 5 (Some (-4)) (Some 9) 2 = [1; 3] /\ torch_start 5 (Some (-4)) <= torch_stop 5 (Some 9).
Proof. cbn. repeat split; lia. Qed.
