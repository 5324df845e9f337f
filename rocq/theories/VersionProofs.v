(** Operator versions. *)
From Coq Require Import List Bool ZArith Arith Lia.
From Verif Require Import VersionModel.
Import ListNotations.
Local Open Scope Z_scope.

(** Specification: the operators whose signed 8-bit kernels start at version 2 or later, with the
    operand that decides ("i" input position, "o" first output).  Taken from the table
    [GetBuiltinOperatorVersion] the function says it translates. *)
Inductive decides := AtInput (k : nat) | AtOutput.
Definition operand_i8 (o : vop) (d : decides) : Prop :=
  match d with
  | AtInput k => exists r, nth_error (vo_in o) k = Some (I8, r)
  | AtOutput => exists r, nth_error (vo_out o) 0 = Some (I8, r)
  end.
(** Rows the function reaches. *)
Definition int8_table : list (Z * decides) :=
  [ (c_GATHER, AtInput 0); (c_SVDF, AtInput 0); (c_MUL, AtInput 0); (c_TRANSPOSE, AtInput 0);
    (c_TRANSPOSE_CONV, AtInput 0); (c_SPLIT, AtInput 1); (c_SPARSE_TO_DENSE, AtInput 2); (c_SLICE, AtInput 0);
    (c_UNPACK, AtInput 0); (c_DEQUANTIZE, AtInput 0); (c_L2_NORMALIZATION, AtOutput); (c_RELU, AtInput 0);
    (c_GELU, AtInput 0); (c_STRIDED_SLICE, AtInput 0); (c_RESIZE_BILINEAR, AtInput 0);
    (c_MINIMUM, AtInput 0); (c_MAXIMUM, AtInput 0); (c_PACK, AtInput 0);
    (c_AVERAGE_POOL_2D, AtInput 0); (c_ADD, AtInput 0); (c_CONCATENATION, AtInput 0); (c_MAX_POOL_2D, AtInput 0);
    (c_PAD, AtInput 0); (c_PADV2, AtInput 0); (c_SOFTMAX, AtInput 0); (c_SPACE_TO_DEPTH, AtInput 0);
    (c_SPLIT_V, AtInput 0); (c_MEAN, AtInput 0); (c_SUM, AtInput 0); (c_REDUCE_MAX, AtInput 0);
    (c_REDUCE_MIN, AtInput 0); (c_RELU6, AtInput 0); (c_RESIZE_NEAREST_NEIGHBOR, AtInput 0); (c_TANH, AtInput 0);
    (c_LOGISTIC, AtInput 0); (c_LOG_SOFTMAX, AtInput 0); (c_TOPK_V2, AtInput 0); (c_ARG_MAX, AtInput 0);
    (c_ARG_MIN, AtInput 0); (c_EQUAL, AtInput 0); (c_NOT_EQUAL, AtInput 0); (c_GREATER, AtInput 0);
    (c_GREATER_EQUAL, AtInput 0); (c_LESS, AtInput 0); (c_LESS_EQUAL, AtInput 0); (c_SELECT, AtInput 0) ].
(** Rows the function misses. *)
Definition int8_missed : list (Z * decides) :=
  [ (c_SUB, AtInput 0); (c_SPACE_TO_BATCH_ND, AtInput 0); (c_BATCH_TO_SPACE_ND, AtInput 0) ].
(** Versions in use are small. *)
Definition small_version (o : vop) : Prop := 1 <= vo_version o <= 6.

Ltac codes := unfold c_ADD, c_AVERAGE_POOL_2D, c_CONCATENATION, c_CONV_2D, c_DEPTHWISE_CONV_2D, c_DEQUANTIZE,
  c_FULLY_CONNECTED, c_L2_NORMALIZATION, c_LOGISTIC, c_LSTM, c_MAX_POOL_2D, c_MUL, c_RELU, c_RELU6,
  c_RESIZE_BILINEAR, c_SOFTMAX, c_SPACE_TO_DEPTH, c_SVDF, c_TANH, c_PAD, c_GATHER, c_BATCH_TO_SPACE_ND,
  c_SPACE_TO_BATCH_ND, c_TRANSPOSE, c_MEAN, c_SUB, c_UNIDIRECTIONAL_SEQUENCE_LSTM, c_STRIDED_SLICE, c_TOPK_V2,
  c_SPLIT, c_LOG_SOFTMAX, c_MAXIMUM, c_ARG_MAX, c_MINIMUM, c_LESS, c_PADV2, c_GREATER, c_GREATER_EQUAL,
  c_LESS_EQUAL, c_SELECT, c_SLICE, c_TRANSPOSE_CONV, c_SPARSE_TO_DENSE, c_TILE, c_EQUAL, c_NOT_EQUAL, c_SUM,
  c_ARG_MIN, c_FAKE_QUANT, c_REDUCE_MAX, c_PACK, c_UNPACK, c_REDUCE_MIN, c_FLOOR_DIV,
  c_RESIZE_NEAREST_NEIGHBOR, c_SPLIT_V, c_REVERSE_V2, c_GELU in *.

Lemma in_is_i8 o k r : nth_error (vo_in o) k = Some (I8, r) -> in_is o k I8 = true.
Proof. unfold in_is. now intros ->. Qed.
Lemma out_is_i8 o r : nth_error (vo_out o) 0 = Some (I8, r) -> out_is o 0 I8 = true.
Proof. unfold out_is. now intros ->. Qed.
Lemma in_is_excl o k d : in_is o k I8 = true -> d <> I8 -> in_is o k d = false.
Proof.
  unfold in_is. destruct (nth_error (vo_in o) k) as [(d', r)|]; [|discriminate].
  destruct d'; try discriminate. intros _ H. destruct d; auto; congruence.
Qed.
Lemma small_rows o : small_version o ->
  (vo_version o =? c_TILE) = false /\ (vo_version o =? c_SPACE_TO_BATCH_ND) = false /\
  (vo_version o =? c_BATCH_TO_SPACE_ND) = false /\ (vo_version o =? c_SUB) = false.
Proof. unfold small_version. codes. intro H. rewrite !Z.eqb_neq. lia. Qed.

Theorem int8_ok o c d : small_version o -> In (c, d) int8_table -> vo_code o = c -> operand_i8 o d ->
  2 <= process_op o.
Proof.
  intros S H E Hd. destruct (small_rows o S) as (V1 & V2 & V3 & V4).
  unfold process_op. cbv zeta. rewrite V1, V2, V3, V4, E. clear E V1 V2 V3 V4 S.
  unfold int8_table in H. codes. cbn [In] in H.
  repeat (destruct H as [H|H]; [injection H as <- <-; cbn [operand_i8] in Hd; destruct Hd as (r & Hd);
    (apply in_is_i8 in Hd || apply out_is_i8 in Hd); cbn -[in_is out_is in_rank Nat.ltb ranks_differ_gt4];
    rewrite ?Hd; cbn -[in_is out_is in_rank Nat.ltb ranks_differ_gt4];
    repeat match goal with |- context [if ?b then _ else _] => destruct b end; lia|]).
  destruct H.
Qed.
(** Convolution-like operators: all operands int8. *)
Theorem int8_weights_ok o r0 r1 r2 :
  (vo_code o = c_CONV_2D \/ vo_code o = c_DEPTHWISE_CONV_2D \/ vo_code o = c_FULLY_CONNECTED) ->
  nth_error (vo_in o) 0 = Some (I8, r0) -> nth_error (vo_in o) 1 = Some (I8, r1) ->
  nth_error (vo_out o) 0 = Some (I8, r2) -> 3 <= process_op o.
Proof.
  intros H H0 H1 H2. apply in_is_i8 in H0, H1. apply out_is_i8 in H2.
  assert (A : all_i8 o = true) by (unfold all_i8; now rewrite H0, H1, H2).
  unfold process_op. cbv zeta. codes. destruct H as [H|[H|H]]; rewrite H; cbn -[all_i8 hybrid_i8 Nat.eqb]; rewrite A;
    repeat match goal with |- context [if ?b then _ else _] => destruct b end; lia.
Qed.
(** The result is a small version again, and does not depend on the version found. *)
Definition with_version (o : vop) (v : Z) : vop :=
  {| vo_code := vo_code o; vo_version := v; vo_in := vo_in o; vo_out := vo_out o; vo_dilated := vo_dilated o;
     vo_narrow := vo_narrow o; vo_keep_dims := vo_keep_dims o; vo_shuffled := vo_shuffled o;
     vo_mul_ge1 := vo_mul_ge1 o; vo_lstm_full := vo_lstm_full o; vo_lstm_basic := vo_lstm_basic o;
     vo_half_pixel := vo_half_pixel o |}.
Theorem version_range o : 1 <= process_op o <= 6.
Proof.
  unfold process_op. cbv zeta.
  repeat match goal with |- context [if ?b then _ else _] => destruct b end; lia.
Qed.
Theorem version_indep o v : small_version o -> 1 <= v <= 6 -> process_op (with_version o v) = process_op o.
Proof.
  intros S Hv. destruct (small_rows o S) as (V1 & V2 & V3 & V4).
  destruct (small_rows (with_version o v) Hv) as (U1 & U2 & U3 & U4).
  unfold process_op. cbv zeta. rewrite V1, V2, V3, V4, U1, U2, U3, U4. reflexivity.
Qed.
Theorem int8_missed_v1 o c d : small_version o -> In (c, d) int8_missed -> vo_code o = c -> process_op o = 1.
Proof.
  intros S H E. destruct (small_rows o S) as (V1 & V2 & V3 & V4).
  unfold process_op. cbv zeta. rewrite V1, V2, V3, V4, E. unfold int8_missed in H. codes. cbn [In] in H.
  repeat (destruct H as [H|H]; [injection H as <- <-; reflexivity|]). destruct H.
Qed.
