(** Model of the lowering of matrix products, softmax and axis permutations: matmul, mm, bmm, linear, addmm, addbmm,
    baddbmm, softmax, log_softmax, permute, transpose, select, unbind and embedding of
    tinynn/converter/operators/torch/aten.py.  [None]: Python raises, nothing is emitted for the output, or TFLite
    refuses the operator.  Floats only. *)
From Coq Require Import List Arith Bool Reals ZArith.
From Verif Require Import Tensor ConvSpec CatSpec LayoutSpec ChainModel FuseModel MoveSpec NormSpec LinSpec.
Import ListNotations.
Local Open Scope R_scope.

(** [np.zeros(n)] as a bias *)
Definition zero_bias (n : nat) : tensor R := mkT [n] (fun _ => 0).
(** [ATenMatmulOperator.parse_common] (aten.py 1516-1535), also used by mm (2910-2914) and bmm (3752-3757).
    [keep_dims]: the rank of the output is that of the input when the weight has two axes *)
Definition aten_matmul (x w : tensor R) : option (tensor R) :=
  let rx := length (tshape x) in let rw := length (tshape w) in
  if (2 <=? rx)%nat && (rx <=? 5)%nat then
    if (rw =? 2)%nat then
      fully_connected (2 <? rx)%nat x (transpose [1; 0]%nat w) (zero_bias (nth 1 (tshape w) 0%nat))
    else if (2 <=? rw)%nat && (rw <=? 5)%nat then batch_matmul x w
    else None
  else None.
(** [ATenLinearOperator.parse] (aten.py 2250-2282) *)
Definition aten_linear (x w : tensor R) (b : option (tensor R)) : option (tensor R) :=
  let rx := length (tshape x) in
  if (2 <=? rx)%nat && (rx <=? 5)%nat && (length (tshape w) =? 2)%nat then
    fully_connected (2 <? rx)%nat x w (match b with Some b => b | None => zero_bias (nth 0 (tshape w) 0%nat) end)
  else None.
(** [ATenAddmmOperator.parse] (aten.py 1654-1670): [alpha] and [beta] are not looked at *)
Definition aten_addmm (beta alpha : R) (s x w : tensor R) : option (tensor R) :=
  if (length (tshape w) =? 2)%nat then fully_connected false x (transpose [1; 0]%nat w) s else None.
(** [ATenAddbmmOperator.parse] (aten.py 4501-4520) *)
Definition aten_addbmm (beta alpha : R) (s x w : tensor R) : option (tensor R) :=
  if (length (tshape x) =? 3)%nat && (length (tshape w) =? 3)%nat then
    obind (batch_matmul x w) (fun y => binop Rplus s (reduce_op total [0%nat] false y))
  else None.
(** [ATenBaddbmmOperator.parse] (aten.py 4523-4537) *)
Definition aten_baddbmm (beta alpha : R) (s x w : tensor R) : option (tensor R) :=
  if (length (tshape x) =? 3)%nat && (length (tshape w) =? 3)%nat then
    obind (batch_matmul x w) (fun y => binop Rplus s y)
  else None.

(** [wrap_ops_with_last_dim_transposes] (torch/base.py 481-514) around one operator *)
Definition wrap_last (op : tensor R -> tensor R) (ax : nat) (x : tensor R) : tensor R :=
  let n := length (tshape x) in
  if (n =? ax)%nat then op x
  else let perm := filter (fun i => negb (i =? ax)%nat) (seq 0 n) ++ [ax] in
       transpose (argsort perm) (op (transpose perm x)).
(** a negative axis, as normalised in all of these classes *)
Definition norm_dim (n : nat) (d : Z) : nat := Z.to_nat (if (d <? 0)%Z then d + Z.of_nat n else d)%Z.
(** [ATenSoftmaxOperator.parse] (aten.py 1616-1634) *)
Definition aten_softmax (dim : Z) (x : tensor R) : tensor R := wrap_last softmax_op (norm_dim (length (tshape x)) dim) x.
(** [ATenLogSoftmaxOperator.parse] (aten.py 2792-2810) *)
Definition aten_log_softmax (dim : Z) (x : tensor R) : tensor R := wrap_last log_softmax_op (norm_dim (length (tshape x)) dim) x.

(** [ATenPermuteOperator.parse] (aten.py 2123-2133) *)
Definition aten_permute {A} (dims : list Z) (x : tensor A) : option (tensor A) := transpose_op dims x.
(** [ATenTransposeOperator.parse] (aten.py 1325-1340); numpy counts negative positions from the end *)
Definition aten_transpose {A} (d1 d2 : Z) (x : tensor A) : option (tensor A) :=
  let n := length (tshape x) in
  let a := norm_dim n d1 in let b := norm_dim n d2 in
  let perm := seq 0 n in
  transpose_op (map Z.of_nat (upd (upd perm a (nth b perm 0%nat)) b (nth a perm 0%nat))) x.
(** [ATenSelectOperator.parse] (aten.py 2187-2224): GATHER with one index, then RESHAPE *)
Definition aten_select {A} (dim index : Z) (x : tensor A) : tensor A :=
  let ax := norm_dim (length (tshape x)) dim in
  let i := norm_dim (nth ax (tshape x) 0%nat) index in
  reshape (remove_at ax (tshape x)) (gather ax [i] x).
(** [ATenUnbindOperator.parse] (aten.py 4183-4203); [int64]: the type of the operand *)
Definition aten_unbind {A} (int64 : bool) (dim : Z) (x : tensor A) : list (tensor A) :=
  let ax := norm_dim (length (tshape x)) dim in
  if int64 && (length (tshape x) =? 1)%nat && (prod (tshape x) =? 1)%nat then [reshape [] x]
  else map (fun i => unpack ax i x) (seq 0 (nth ax (tshape x) 0%nat)).
(** [ATenEmbeddingOperator.parse] (aten.py 2235-2247) *)
Definition aten_embedding {A} (w : tensor A) (ix : tensor nat) : option (tensor A) :=
  if (length (tshape w) =? 2)%nat then Some (gather_nd 0 ix w) else None.
