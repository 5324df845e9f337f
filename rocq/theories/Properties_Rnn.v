(** C92-C94: lowering of LSTM and GRU.  Real arithmetic, floats; any number of layers, one or two directions, with or
    without biases, both layouts. *)
From Coq Require Import List Arith Bool Reals Lia Lra.
From Verif Require Import Tensor EltSpec RnnSpec AtenRnnModel AtenRnnProofs.
Import ListNotations.
Local Open Scope R_scope.

(** weights that differ from each other, for the examples *)
Definition ex_params (G H I : nat) (v : R) : rnn_params :=
  mkP (mkT [(G * H)%nat; I] (fun idx => v + INR (nth 0 idx 0 * I + nth 1 idx 0)%nat)) (mkT [(G * H)%nat; H] (fun idx => v - INR (nth 0 idx 0 + nth 1 idx 0)%nat))
      (Some (mkT [(G * H)%nat] (fun idx => INR (nth 0 idx 0%nat)), mkT [(G * H)%nat] (fun _ => v))).
(** two layers of two directions, three features, two units *)
Definition ex_net (G : nat) : list (list rnn_params) :=
  [[ex_params G 2 3 1; ex_params G 2 3 2]; [ex_params G 2 4 3; ex_params G 2 4 4]].
Definition ex_state (v : R) : tensor R := mkT [4; 5; 2]%nat (fun idx => v + INR (nth 0 idx 0 + nth 2 idx 0)%nat).
Definition ex_x : tensor R := mkT [5; 6; 3]%nat (fun idx => INR (nth 0 idx 0 + 2 * nth 1 idx 0 + nth 2 idx 0)%nat).

(* ------------------------------------------------------------------ *)
Theorem C92_lstm_unrolled : forall (sep bf bi has : bool) ps hs cs (h0 c0 x : tensor R) T B I H,
  ps <> [] -> net_ok 4 H I (ndirs bi) ps -> all_biases has ps ->
  tshape x = (if bf then [B; T; I] else [T; B; I]) -> (0 < T)%nat -> (0 < I)%nat -> (0 < H)%nat ->
  starts (length ps * ndirs bi) B H hs h0 -> starts (length ps * ndirs bi) B H cs c0 ->
  (sep = true -> is_given cs = true \/ recorded_zero (length ps * ndirs bi) B H hs) ->
  let r := torch_lstm bf H (ndirs bi) ps h0 c0 x in
  exists y hn cn, aten_lstm_unrolled sep bf bi has (length ps) x hs cs (flat ps) = Some (y, (hn, cn)) /\
    teq y (fst r) /\
    match hn with Some t => is_given hs = true /\ teq t (fst (snd r)) | None => is_given hs = false end /\
    match cn with Some t => is_given cs = true /\ teq t (snd (snd r)) | None => is_given cs = false end.
Proof. exact lstm_unrolled_ok. Qed.
Print Assumptions C92_lstm_unrolled.
(** a recorded initial state that is not zero is lost *)
Theorem C92_recorded_state_refuted : exists ps h0 c0 x y o, net_ok 4 1 1 1 ps /\ all_biases true ps /\ tshape x = [1; 1; 1]%nat /\
  tshape h0 = [1; 1; 1]%nat /\ tshape c0 = [1; 1; 1]%nat /\
  aten_lstm_unrolled false false false true 1 x (Recorded h0) (Recorded c0) (flat ps) = Some (y, o) /\
  ~ teq y (fst (torch_lstm false 1 1 ps h0 c0 x)).
Proof. exact lstm_recorded_refuted. Qed.
Print Assumptions C92_recorded_state_refuted.
(** gates computed separately, hidden state from the graph, cell state recorded as zero: the conversion raises *)
Theorem C92_separated_refuted : exists ps h0 c0 x, net_ok 4 1 1 1 ps /\ all_biases true ps /\ tshape x = [1; 1; 1]%nat /\
  tshape h0 = [1; 1; 1]%nat /\ tshape c0 = [1; 1; 1]%nat /\ (forall idx, tget c0 idx = 0) /\
  aten_lstm_unrolled true false false true 1 x (Given h0) (Recorded c0) (flat ps) = None.
Proof. exact lstm_separated_refuted. Qed.
Print Assumptions C92_separated_refuted.
(** no operator produces the final states when the initial ones were recorded *)
Theorem C92_state_outputs_refuted : exists ps x y, net_ok 4 1 1 1 ps /\ all_biases true ps /\ tshape x = [1; 1; 1]%nat /\
  aten_lstm_unrolled false false false true 1 x (Recorded (zeros [1; 1; 1]%nat)) (Recorded (zeros [1; 1; 1]%nat)) (flat ps) = Some (y, (None, None)) /\
  tget (snd (snd (torch_lstm false 1 1 ps (zeros [1; 1; 1]%nat) (zeros [1; 1; 1]%nat) x))) [0; 0; 0]%nat > 0.
Proof. exact lstm_state_outputs_refuted. Qed.
Print Assumptions C92_state_outputs_refuted.
Example C92_ex : net_ok 4 2 3 (ndirs true) (ex_net 4) /\ all_biases true (ex_net 4) /\ tshape ex_x = [5; 6; 3]%nat /\
  starts (length (ex_net 4) * ndirs true) 5 2 (Given (ex_state 1)) (ex_state 1) /\
  starts (length (ex_net 4) * ndirs true) 5 2 (Recorded (zeros [4; 5; 2]%nat)) (zeros [4; 5; 2]%nat) /\
  recorded_zero (length (ex_net 4) * ndirs true) 5 2 (Recorded (zeros [4; 5; 2]%nat)) /\ length (flat (ex_net 4)) = 16%nat.
Proof. repeat split; repeat constructor. Qed.

(* ------------------------------------------------------------------ *)
(** one invocation, whatever the variables hold; afterwards they hold the final state *)
Theorem C93_lstm_sequence : forall mem map_bi (bf bi has : bool) ps hs cs (x : tensor R) T B I H,
  ps <> [] -> net_ok 4 H I (ndirs bi) ps -> all_biases has ps ->
  tshape x = (if bf then [B; T; I] else [T; B; I]) -> (0 < H)%nat ->
  let n := (length ps * ndirs bi)%nat in
  let r := torch_lstm bf H (ndirs bi) ps (mem_tensor mem 0 n B H) (mem_tensor mem 1 n B H) x in
  exists y fs, aten_lstm_sequence mem map_bi bf bi has (length ps) x hs cs (flat ps) = Some (y, fs) /\
    teq y (fst r) /\ length fs = n /\
    forall k b j, (k < n)%nat -> (b < B)%nat -> (j < H)%nat ->
      tget (fst (nth k fs (nt, nt))) [b; j] = tget (fst (snd r)) [k; b; j] /\ tget (snd (nth k fs (nt, nt))) [b; j] = tget (snd (snd r)) [k; b; j].
Proof. exact lstm_sequence_ok. Qed.
Print Assumptions C93_lstm_sequence.
(** the same input twice: the second answer is not the one torch gives *)
Theorem C93_second_run_refuted : exists ps x y fs y' fs', net_ok 4 1 1 1 ps /\ all_biases true ps /\ tshape x = [1; 1; 1]%nat /\
  let z := zeros [1; 1; 1]%nat in
  aten_lstm_sequence no_mem false false false true 1 x (Recorded z) (Recorded z) (flat ps) = Some (y, fs) /\
  aten_lstm_sequence (mem_after fs) false false false true 1 x (Recorded z) (Recorded z) (flat ps) = Some (y', fs') /\
  teq y (fst (torch_lstm false 1 1 ps z z x)) /\ ~ teq y' (fst (torch_lstm false 1 1 ps z z x)).
Proof. exact lstm_second_refuted. Qed.
Print Assumptions C93_second_run_refuted.
(** a state that is an input of the graph is ignored *)
Theorem C93_given_state_refuted : exists ps h0 c0 x y fs, net_ok 4 1 1 1 ps /\ all_biases true ps /\ tshape x = [1; 1; 1]%nat /\
  tshape h0 = [1; 1; 1]%nat /\ tshape c0 = [1; 1; 1]%nat /\
  aten_lstm_sequence no_mem false false false true 1 x (Given h0) (Given c0) (flat ps) = Some (y, fs) /\
  ~ teq y (fst (torch_lstm false 1 1 ps h0 c0 x)).
Proof. exact lstm_given_refuted. Qed.
Print Assumptions C93_given_state_refuted.
(** the variables of a fresh interpreter are zero; an earlier invocation of the same node leaves others *)
Example C93_ex : net_ok 4 2 3 (ndirs true) (ex_net 4) /\ all_biases true (ex_net 4) /\ tshape ex_x = (if true then [5; 6; 3]%nat else [6; 5; 3]%nat) /\
  tget (mem_tensor no_mem 0 4 5 2) [3; 4; 1]%nat = 0 /\
  tget (mem_tensor (mem_after [(nt, nt); (mkT [5; 2]%nat (fun _ => 7), nt)]) 0 4 5 2) [1; 4; 1]%nat = 7.
Proof. repeat split; repeat constructor. Qed.

(* ------------------------------------------------------------------ *)
Theorem C94_gru : forall (sep bf bi has : bool) ps hs (h0 x : tensor R) T B I H,
  ps <> [] -> net_ok 3 H I (ndirs bi) ps -> all_biases has ps ->
  tshape x = (if bf then [B; T; I] else [T; B; I]) -> (0 < T)%nat -> (0 < I)%nat -> (0 < H)%nat ->
  starts (length ps * ndirs bi) B H hs h0 ->
  let r := torch_gru bf H (ndirs bi) ps h0 x in
  exists y hn, aten_gru sep bf bi has (length ps) x hs (flat ps) = Some (y, hn) /\
    teq y (fst r) /\ match hn with Some t => is_given hs = true /\ teq t (snd r) | None => is_given hs = false end.
Proof. exact gru_ok. Qed.
Print Assumptions C94_gru.
Theorem C94_recorded_state_refuted : exists ps h0 x y o, net_ok 3 1 1 1 ps /\ all_biases true ps /\ tshape x = [1; 1; 1]%nat /\ tshape h0 = [1; 1; 1]%nat /\
  aten_gru false false false true 1 x (Recorded h0) (flat ps) = Some (y, o) /\ ~ teq y (fst (torch_gru false 1 1 ps h0 x)).
Proof. exact gru_recorded_refuted. Qed.
Print Assumptions C94_recorded_state_refuted.
Theorem C94_state_output_refuted : exists ps x y, net_ok 3 1 1 1 ps /\ all_biases true ps /\ tshape x = [1; 1; 1]%nat /\
  aten_gru false false false true 1 x (Recorded (zeros [1; 1; 1]%nat)) (flat ps) = Some (y, None) /\
  tshape (snd (torch_gru false 1 1 ps (zeros [1; 1; 1]%nat) x)) = [1; 1; 1]%nat.
Proof. exact gru_state_output_refuted. Qed.
Print Assumptions C94_state_output_refuted.
Example C94_ex : net_ok 3 2 3 (ndirs true) (ex_net 3) /\ all_biases true (ex_net 3) /\ tshape ex_x = [5; 6; 3]%nat /\
  starts (length (ex_net 3) * ndirs true) 5 2 (Given (ex_state 1)) (ex_state 1).
Proof. repeat split; repeat constructor. Qed.
