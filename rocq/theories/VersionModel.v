(** Model of [OPVersioner.process_op] ([tinynn/converter/operators/op_version.py] 25-315). *)
From Coq Require Import List Bool ZArith Arith.
Import ListNotations.
Local Open Scope Z_scope.

(** The data types the function compares with ([str(t.dtype)]; [DStr]: a name starting with "<U"). *)
Inductive dtype := F32 | F16 | I8 | U8 | I16 | I32 | I64 | DBool | DStr | DOther.
Definition dtype_eqb (a b : dtype) : bool :=
  match a, b with
  | F32, F32 | F16, F16 | I8, I8 | U8, U8 | I16, I16 | I32, I32 | I64, I64 | DBool, DBool | DStr, DStr
  | DOther, DOther => true
  | _, _ => false
  end.

(** What the function reads of an operator: code, current version, type and rank of operands and
    results, and the attributes it tests.  [vo_mul_ge1] is the floating-point test on the three
    scales of MUL (op_version.py 103-113), [vo_shuffled] the test on [weightsFormat] (83),
    [vo_lstm_full] / [vo_lstm_basic] the two kernel types (140, 146). *)
Record vop := {
  vo_code : Z; vo_version : Z;
  vo_in : list (dtype * nat); vo_out : list (dtype * nat);
  vo_dilated : bool; vo_narrow : bool; vo_keep_dims : bool; vo_shuffled : bool;
  vo_mul_ge1 : bool; vo_lstm_full : bool; vo_lstm_basic : bool; vo_half_pixel : bool }.

(** [str(op.inputs[k].dtype) == d] and [str(op.outputs[k].dtype) == d].  An operand that does not
    exist compares unequal (python raises IndexError). *)
Definition in_is (o : vop) (k : nat) (d : dtype) : bool :=
  match nth_error (vo_in o) k with Some (d', _) => dtype_eqb d' d | None => false end.
Definition out_is (o : vop) (k : nat) (d : dtype) : bool :=
  match nth_error (vo_out o) k with Some (d', _) => dtype_eqb d' d | None => false end.
(** [len(op.inputs[k].shape)]. *)
Definition in_rank (o : vop) (k : nat) : nat := match nth_error (vo_in o) k with Some (_, r) => r | None => 0%nat end.
(** input, weight and output all int8; float input and output with int8 weight (op_version.py 36-46). *)
Definition all_i8 (o : vop) : bool := in_is o 0 I8 && in_is o 1 I8 && out_is o 0 I8.
Definition hybrid_i8 (o : vop) (w : nat) : bool := in_is o 0 F32 && in_is o w I8 && out_is o 0 F32.
Definition ranks_differ_gt4 (o : vop) : bool :=
  negb (Nat.eqb (in_rank o 0) (in_rank o 1)) && Nat.ltb 4 (Nat.max (in_rank o 0) (in_rank o 1)).

(** Operator codes (schema_generated.py 48-206). *)
Definition c_ADD := 0. Definition c_AVERAGE_POOL_2D := 1. Definition c_CONCATENATION := 2.
Definition c_CONV_2D := 3. Definition c_DEPTHWISE_CONV_2D := 4. Definition c_DEQUANTIZE := 6.
Definition c_FULLY_CONNECTED := 9. Definition c_L2_NORMALIZATION := 11. Definition c_LOGISTIC := 14.
Definition c_LSTM := 16. Definition c_MAX_POOL_2D := 17. Definition c_MUL := 18. Definition c_RELU := 19.
Definition c_RELU6 := 21. Definition c_RESIZE_BILINEAR := 23. Definition c_SOFTMAX := 25.
Definition c_SPACE_TO_DEPTH := 26. Definition c_SVDF := 27. Definition c_TANH := 28. Definition c_PAD := 34.
Definition c_GATHER := 36. Definition c_BATCH_TO_SPACE_ND := 37. Definition c_SPACE_TO_BATCH_ND := 38.
Definition c_TRANSPOSE := 39. Definition c_MEAN := 40. Definition c_SUB := 41.
Definition c_UNIDIRECTIONAL_SEQUENCE_LSTM := 44. Definition c_STRIDED_SLICE := 45. Definition c_TOPK_V2 := 48.
Definition c_SPLIT := 49. Definition c_LOG_SOFTMAX := 50. Definition c_MAXIMUM := 55. Definition c_ARG_MAX := 56.
Definition c_MINIMUM := 57. Definition c_LESS := 58. Definition c_PADV2 := 60. Definition c_GREATER := 61.
Definition c_GREATER_EQUAL := 62. Definition c_LESS_EQUAL := 63. Definition c_SELECT := 64.
Definition c_SLICE := 65. Definition c_TRANSPOSE_CONV := 67. Definition c_SPARSE_TO_DENSE := 68.
Definition c_TILE := 69. Definition c_EQUAL := 71. Definition c_NOT_EQUAL := 72. Definition c_SUM := 74.
Definition c_ARG_MIN := 79. Definition c_FAKE_QUANT := 80. Definition c_REDUCE_MAX := 82. Definition c_PACK := 83.
Definition c_UNPACK := 88. Definition c_REDUCE_MIN := 89. Definition c_FLOOR_DIV := 90.
Definition c_RESIZE_NEAREST_NEIGHBOR := 97. Definition c_SPLIT_V := 102. Definition c_REVERSE_V2 := 105.
Definition c_GELU := 150.

(** The last row of the function (op_version.py 280-309). *)
Definition generic_codes : list Z :=
  [c_AVERAGE_POOL_2D; c_ADD; c_CONCATENATION; c_MAX_POOL_2D; c_PAD; c_PADV2; c_SOFTMAX; c_SPACE_TO_DEPTH;
   c_SPLIT_V; c_MEAN; c_SUM; c_REDUCE_MAX; c_REDUCE_MIN; c_RELU6; c_RESIZE_NEAREST_NEIGHBOR; c_TANH;
   c_LOGISTIC; c_LOG_SOFTMAX; c_TOPK_V2; c_ARG_MAX; c_ARG_MIN; c_EQUAL; c_NOT_EQUAL; c_GREATER;
   c_GREATER_EQUAL; c_LESS; c_LESS_EQUAL; c_SELECT].
Definition is_in (c : Z) (l : list Z) : bool := existsb (Z.eqb c) l.

(** [process_op] (op_version.py 34-315), row by row.  Three rows compare the version instead of
    the code (258, 263, 270), as in the source. *)
Definition process_op (o : vop) : Z :=
  let c := vo_code o in
  let ver := vo_version o in
  if c =? c_CONV_2D then if all_i8 o then 3 else if hybrid_i8 o 1 then 2 else 1
  else if c =? c_DEPTHWISE_CONV_2D then
    if hybrid_i8 o 1 then 4 else if all_i8 o then 3 else if vo_dilated o then 2 else 1
  else if c =? c_FAKE_QUANT then if vo_narrow o then 2 else 1
  else if c =? c_FULLY_CONNECTED then
    if Nat.eqb (List.length (vo_in o)) 2 then 6 else if vo_keep_dims o then 5
    else if all_i8 o then 4 else if hybrid_i8 o 1 then 3 else if vo_shuffled o then 2 else 1
  else if c =? c_GATHER then if in_is o 0 DBool then 3 else if in_is o 0 I8 then 2 else 1
  else if c =? c_SVDF then if in_is o 0 I8 then 3 else if hybrid_i8 o 1 then 2 else 1
  else if c =? c_MUL then if vo_mul_ge1 o then 3 else if in_is o 0 I8 then 2 else 1
  else if c =? c_TRANSPOSE then
    if Nat.ltb 4 (in_rank o 0) then 4 else if in_is o 0 DBool then 3 else if in_is o 0 I8 then 2 else 1
  else if c =? c_TRANSPOSE_CONV then if in_is o 0 I8 then 2 else 1
  else if c =? c_LSTM then
    if vo_lstm_full o && hybrid_i8 o 2 then 3 else if vo_lstm_basic o then 2 else 1
  else if c =? c_UNIDIRECTIONAL_SEQUENCE_LSTM then if hybrid_i8 o 2 then 2 else 1
  else if c =? c_SPLIT then if in_is o 1 I32 then 3 else if in_is o 1 I8 then 2 else 1
  else if c =? c_SPARSE_TO_DENSE then
    if in_is o 2 I8 || in_is o 2 U8 then 3 else if in_is o 2 I64 then 2 else 1
  else if c =? c_SLICE then if in_is o 0 DStr then 3 else if in_is o 0 I8 then 2 else 1
  else if c =? c_UNPACK then
    if in_is o 0 I16 || out_is o 0 I16 then 4 else if in_is o 0 DBool then 3
    else if in_is o 0 I8 || in_is o 0 U8 then 2 else 1
  else if c =? c_DEQUANTIZE then
    if in_is o 0 I16 || in_is o 0 F16 then 3 else if in_is o 0 I8 then 2 else 1
  else if c =? c_FLOOR_DIV then if in_is o 0 F32 then 2 else 1
  else if c =? c_L2_NORMALIZATION then if out_is o 0 I8 then 2 else 1
  else if c =? c_RELU then if in_is o 0 I8 || in_is o 0 U8 then 2 else 1
  else if c =? c_GELU then if in_is o 0 I8 || in_is o 0 U8 then 2 else 1
  else if c =? c_STRIDED_SLICE then
    if Nat.ltb 4 (in_rank o 0) then 4 else if in_is o 0 DBool then 3 else if in_is o 0 I8 then 2 else 1
  else if c =? c_REVERSE_V2 then if out_is o 0 DBool then 2 else 1
  else if c =? c_RESIZE_BILINEAR then if vo_half_pixel o then 3 else if in_is o 0 I8 then 2 else 1
  else if (c =? c_MINIMUM) || (c =? c_MAXIMUM) then
    if in_is o 0 I16 && out_is o 0 I16 then 4 else if ranks_differ_gt4 o then 3
    else if in_is o 0 I8 then 2 else 1
  else if c =? c_PACK then
    if in_is o 0 I16 && out_is o 0 I16 then 3 else if in_is o 0 I8 then 2 else 1
  else if ver =? c_TILE then if in_is o 0 DStr then 2 else 1
  else if (ver =? c_SPACE_TO_BATCH_ND) || (ver =? c_BATCH_TO_SPACE_ND) then
    if negb (Nat.eqb (in_rank o 0) 4) then 3 else if in_is o 0 I8 then 2 else 1
  else if ver =? c_SUB then
    if ranks_differ_gt4 o then 3 else if in_is o 0 I8 then 2 else 1
  else if is_in c generic_codes then if in_is o 0 I8 then 2 else 1
  else 1.
