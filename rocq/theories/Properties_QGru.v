(** C97: the quantizable GRU module computes the float GRU it replaces.  Real arithmetic, floats, before observers. *)
From Coq Require Import List Arith Bool Reals Lia Lra.
From Verif Require Import Tensor EltSpec RnnSpec AtenRnnModel AtenRnnProofs QGruModel QGruProofs.
Import ListNotations.
Local Open Scope R_scope.

(** the sequence of outputs: any number of layers, one or two directions *)
Theorem C97_output : forall (bf bi : bool) (ps : list (list rnn_params)) (hidden : option (tensor R)) (h0 x : tensor R) (T B I H : nat),
  ps <> [] -> net_ok 3 H I (ndirs bi) ps -> tshape x = (if bf then [B; T; I] else [T; B; I]) ->
  (0 < T)%nat -> (0 < B)%nat -> (0 < H)%nat -> gru_start (length ps * ndirs bi) B H hidden h0 ->
  exists y hn, qgru bf bi H ps hidden x = Some (y, hn) /\ teq y (fst (torch_gru bf H (ndirs bi) ps h0 x)).
Proof. exact qgru_output. Qed.
Print Assumptions C97_output.
(** the final state, one direction; two directions are refuted below *)
Theorem C97_final_state_partial : forall (bf : bool) (ps : list (list rnn_params)) (hidden : option (tensor R)) (h0 x : tensor R) (T B I H : nat),
  ps <> [] -> net_ok 3 H I 1 ps -> tshape x = (if bf then [B; T; I] else [T; B; I]) ->
  (0 < T)%nat -> (0 < B)%nat -> (0 < H)%nat -> gru_start (length ps) B H hidden h0 ->
  exists y hn, qgru bf false H ps hidden x = Some (y, hn) /\ teq hn (snd (torch_gru bf H 1 ps h0 x)).
Proof. exact qgru_state. Qed.
Print Assumptions C97_final_state_partial.
(** with two directions the final state never has the shape torch gives it *)
Theorem C97_bidirectional_state_refuted : forall (bf : bool) (ps : list (list rnn_params)) (hidden : option (tensor R)) (h0 x : tensor R) (T B I H : nat),
  ps <> [] -> net_ok 3 H I 2 ps -> tshape x = (if bf then [B; T; I] else [T; B; I]) ->
  (0 < T)%nat -> (0 < B)%nat -> (0 < H)%nat -> gru_start (length ps * 2) B H hidden h0 ->
  exists y hn, qgru bf true H ps hidden x = Some (y, hn) /\ tshape hn = [length ps; 2; H]%nat /\
    tshape (snd (torch_gru bf H 2 ps h0 x)) = [(length ps * 2)%nat; B; H] /\ ~ teq hn (snd (torch_gru bf H 2 ps h0 x)).
Proof. exact qgru_state_refuted. Qed.
Print Assumptions C97_bidirectional_state_refuted.

(** weights that differ from each other, for the examples *)
Definition ex_gru (H I : nat) (v : R) : rnn_params :=
  mkP (mkT [(3 * H)%nat; I] (fun idx => v + INR (nth 0 idx 0 * I + nth 1 idx 0)%nat)) (mkT [(3 * H)%nat; H] (fun idx => v - INR (nth 0 idx 0 + nth 1 idx 0)%nat))
      (Some (mkT [(3 * H)%nat] (fun idx => INR (nth 0 idx 0%nat)), mkT [(3 * H)%nat] (fun _ => v))).
Definition ex_grus : list (list rnn_params) := [[ex_gru 2 3 1; ex_gru 2 3 2]; [ex_gru 2 4 3; ex_gru 2 4 4]].
Definition ex_h : tensor R := mkT [4; 5; 2]%nat (fun idx => 1 + INR (nth 0 idx 0 + nth 2 idx 0)%nat).
Definition ex_seq : tensor R := mkT [5; 6; 3]%nat (fun idx => INR (nth 0 idx 0 + 2 * nth 1 idx 0 + nth 2 idx 0)%nat).
Example C97_ex : ex_grus <> [] /\ net_ok 3 2 3 (ndirs true) ex_grus /\ tshape ex_seq = [5; 6; 3]%nat /\
  gru_start (length ex_grus * ndirs true) 5 2 (Some ex_h) ex_h /\ gru_start (length ex_grus * ndirs true) 5 2 None (mkT [4; 5; 2]%nat (fun _ => 0)) /\
  net_ok 3 2 3 1 [[ex_gru 2 3 1]; [ex_gru 2 2 3]] /\ gru_start 2 5 2 (Some (mkT [2; 5; 2]%nat (fun _ => 7))) (mkT [2; 5; 2]%nat (fun _ => 7)).
Proof. split; [discriminate|]. repeat split; repeat constructor. Qed.
