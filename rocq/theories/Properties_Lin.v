(** Matrix products, softmax and axis permutations are lowered faithfully (C88-C91), and where they are not. *)
From Coq Require Import List Arith Bool Reals ZArith Lia Lra.
From Verif Require Import Tensor ConvSpec LayoutSpec MoveSpec LinSpec AtenLinModel AtenLinProofs.
Import ListNotations.
Local Open Scope R_scope.

(** C88: matmul, mm, bmm of operands with two to five axes *)
Theorem C88_matmul_partial : forall x w z,
  (2 <= length (tshape x) <= 5)%nat -> (2 <= length (tshape w) <= 5)%nat -> (0 < cols_of (tshape x))%nat ->
  torch_matmul x w = Some z -> exists y, aten_matmul x w = Some y /\ teq y z.
Proof. exact aten_matmul_ok. Qed.
Print Assumptions C88_matmul_partial.
Example C88_matmul_ex :
  let x := mkT [2; 1; 2]%nat (fun idx => INR (nth 0 idx 0%nat + nth 2 idx 0%nat)) in
  let w := mkT [2; 3]%nat (fun idx => INR (nth 1 idx 0%nat)) in
  exists z, torch_matmul x w = Some z /\ tshape z = [2; 1; 3]%nat /\ tget z [1; 0; 2]%nat = 6.
Proof. eexists. split; [reflexivity|]. split; [reflexivity|]. cbn. unfold lsum. cbn. lra. Qed.
(** a vector on either side: nothing is emitted *)
Theorem C88_vector_refuted : exists x v, tshape x = [2; 2]%nat /\ tshape v = [2]%nat /\ tshape (torch_matvec x v) = [2]%nat /\
  aten_matmul x v = None /\ aten_matmul v x = None.
Proof. exact matmul_vector_refuted. Qed.
Print Assumptions C88_vector_refuted.
Theorem C88_linear_partial : forall x w bias out,
  (2 <= length (tshape x) <= 5)%nat -> (0 < last (tshape x) 0)%nat -> tshape w = [out; last (tshape x) 0%nat] ->
  match bias with Some b => tshape b = [out] | None => True end ->
  exists y, aten_linear x w bias = Some y /\ teq y (torch_linear x w bias).
Proof. exact aten_linear_ok. Qed.
Print Assumptions C88_linear_partial.
Example C88_linear_ex :
  let x := mkT [2; 2]%nat (fun idx => INR (nth 0 idx 0%nat + nth 1 idx 0%nat)) in
  let w := mkT [3; 2]%nat (fun idx => INR (nth 1 idx 0%nat)) in let b := mkT [3]%nat (fun idx => INR (nth 0 idx 0%nat)) in
  tget (torch_linear x w (Some b)) [1; 2]%nat = 4.
Proof. cbn. unfold lsum. cbn. lra. Qed.

(** C89: products with an addition, for the default factors *)
Theorem C89_addmm_partial : forall s x w n k p,
  tshape x = [n; k] -> tshape w = [k; p] -> (tshape s = [p] \/ tshape s = [1; p]%nat) -> (0 < k)%nat ->
  exists y, aten_addmm 1 1 s x w = Some y /\ teq y (torch_addmm 1 1 s x w).
Proof. exact aten_addmm_ok. Qed.
Print Assumptions C89_addmm_partial.
Theorem C89_baddbmm_partial : forall s x w b n k p,
  tshape x = [b; n; k] -> tshape w = [b; k; p] -> bshape (tshape s) [b; n; p] = Some [b; n; p] ->
  exists y, aten_baddbmm 1 1 s x w = Some y /\ teq y (torch_baddbmm 1 1 s x w).
Proof. exact aten_baddbmm_ok. Qed.
Print Assumptions C89_baddbmm_partial.
Theorem C89_addbmm_partial : forall s x w b n k p,
  tshape x = [b; n; k] -> tshape w = [b; k; p] -> bshape (tshape s) [n; p] = Some [n; p] ->
  exists y, aten_addbmm 1 1 s x w = Some y /\ teq y (torch_addbmm 1 1 s x w).
Proof. exact aten_addbmm_ok. Qed.
Print Assumptions C89_addbmm_partial.
Example C89_ex :
  let s := mkT [3]%nat (fun idx => INR (nth 0 idx 0%nat)) in let x := mkT [2; 1; 2]%nat (fun _ => 1) in
  let w := mkT [2; 2; 3]%nat (fun idx => INR (nth 2 idx 0%nat)) in
  bshape (tshape s) [1; 3]%nat = Some [1; 3]%nat /\ bshape (tshape s) [2; 1; 3]%nat = Some [2; 1; 3]%nat /\
  tget (torch_addbmm 1 1 s x w) [0; 2]%nat = 10 /\ tget (torch_baddbmm 1 1 s x w) [1; 0; 2]%nat = 6.
Proof. split; [reflexivity|]. split; [reflexivity|]. cbn. unfold lsum. cbn. lra. Qed.
(** the factors [alpha] and [beta] are ignored *)
Theorem C89_alpha_refuted : exists alpha s x w y, tshape s = [1]%nat /\ tshape x = [1; 1]%nat /\ tshape w = [1; 1]%nat /\
  aten_addmm 1 alpha s x w = Some y /\ tshape y = [1; 1]%nat /\ tget y [0; 0]%nat <> tget (torch_addmm 1 alpha s x w) [0; 0]%nat.
Proof. exact addmm_alpha_refuted. Qed.
Print Assumptions C89_alpha_refuted.
Theorem C89_beta_refuted : exists beta s x w, tshape s = [1; 1; 1]%nat /\ tshape x = [1; 1; 1]%nat /\ tshape w = [1; 1; 1]%nat /\
  (exists y, aten_baddbmm beta 1 s x w = Some y /\ tget y [0; 0; 0]%nat <> tget (torch_baddbmm beta 1 s x w) [0; 0; 0]%nat) /\
  (exists y, aten_addbmm beta 1 (reshape [1; 1]%nat s) x w = Some y /\
     tget y [0; 0]%nat <> tget (torch_addbmm beta 1 (reshape [1; 1]%nat s) x w) [0; 0]%nat).
Proof. exact bmm_beta_refuted. Qed.
Print Assumptions C89_beta_refuted.
(** a column as addend of addmm is read as a row, a full matrix is refused *)
Theorem C89_column_refuted : exists s x w y, tshape s = [2; 1]%nat /\ tshape x = [2; 1]%nat /\ tshape w = [1; 2]%nat /\
  aten_addmm 1 1 s x w = Some y /\ tshape y = [2; 2]%nat /\ tget y [0; 1]%nat <> tget (torch_addmm 1 1 s x w) [0; 1]%nat.
Proof. exact addmm_column_refuted. Qed.
Print Assumptions C89_column_refuted.
Theorem C89_matrix_refuted : exists s x w, tshape s = [2; 2]%nat /\ tshape x = [2; 1]%nat /\ tshape w = [1; 2]%nat /\ aten_addmm 1 1 s x w = None.
Proof. exact addmm_matrix_refuted. Qed.
Print Assumptions C89_matrix_refuted.

(** C90: softmax and log_softmax along any axis *)
Theorem C90_softmax : forall dim x, axis_ok (length (tshape x)) dim ->
  teq (aten_softmax dim x) (torch_softmax (axis_of (length (tshape x)) dim) x).
Proof. exact aten_softmax_ok. Qed.
Print Assumptions C90_softmax.
Theorem C90_log_softmax : forall dim x, axis_ok (length (tshape x)) dim ->
  teq (aten_log_softmax dim x) (torch_log_softmax (axis_of (length (tshape x)) dim) x).
Proof. exact aten_log_softmax_ok. Qed.
Print Assumptions C90_log_softmax.
Example C90_ex : axis_ok 3 (-2) /\ axis_of 3 (-2) = 1%nat /\
  tget (torch_softmax 1 (mkT [1; 2; 3]%nat (fun _ => 0))) [0; 1; 2]%nat = 1 / 2.
Proof. split; [unfold axis_ok; lia|]. split; [reflexivity|]. cbn. unfold lsum. cbn. rewrite exp_0. lra. Qed.

(** C91: permute, transpose, select, unbind, embedding *)
Theorem C91_permute_partial : forall (x : tensor R) dims, dims_ok (length (tshape x)) dims -> Forall (fun d => (0 <= d)%Z) dims ->
  exists y, aten_permute dims x = Some y /\ is_permute dims x y.
Proof. intros x dims. exact (aten_permute_ok dims x). Qed.
Print Assumptions C91_permute_partial.
Example C91_permute_ex : dims_ok 3 [2; 0; 1]%Z /\ Forall (fun d => (0 <= d)%Z) [2; 0; 1]%Z.
Proof.
  split; [|repeat constructor; lia]. split; [repeat constructor; unfold axis_ok; lia|]. split; [|reflexivity].
  cbn. repeat constructor; cbn; intuition lia.
Qed.
(** negative positions are legal in torch and refused by TFLite *)
Theorem C91_permute_refuted : exists (x : tensor R) dims, tshape x = [2; 3]%nat /\ dims_ok 2 dims /\ aten_permute dims x = None /\
  exists y, is_permute dims x y.
Proof. exact permute_negative_refuted. Qed.
Print Assumptions C91_permute_refuted.
Theorem C91_transpose : forall (x : tensor R) d1 d2, axis_ok (length (tshape x)) d1 -> axis_ok (length (tshape x)) d2 ->
  exists y, aten_transpose d1 d2 x = Some y /\
    teq y (torch_transpose (axis_of (length (tshape x)) d1) (axis_of (length (tshape x)) d2) x).
Proof. intros x d1 d2. exact (aten_transpose_ok d1 d2 x). Qed.
Print Assumptions C91_transpose.
Theorem C91_select : forall (x : tensor R) dim index, axis_ok (length (tshape x)) dim ->
  axis_ok (nth (axis_of (length (tshape x)) dim) (tshape x) 0%nat) index ->
  teq (aten_select dim index x)
      (torch_select (axis_of (length (tshape x)) dim) (axis_of (nth (axis_of (length (tshape x)) dim) (tshape x) 0%nat) index) x).
Proof. intros x dim index. exact (aten_select_ok dim index x). Qed.
Print Assumptions C91_select.
Theorem C91_unbind : forall int64 (x : tensor R) dim, axis_ok (length (tshape x)) dim ->
  Forall2 teq (aten_unbind int64 dim x)
    (map (fun i => torch_select (axis_of (length (tshape x)) dim) i x) (seq 0 (nth (axis_of (length (tshape x)) dim) (tshape x) 0%nat))).
Proof. intros int64 x dim. exact (aten_unbind_ok int64 dim x). Qed.
Print Assumptions C91_unbind.
Theorem C91_embedding : forall (w : tensor R) ix v d, tshape w = [v; d] ->
  exists y, aten_embedding w ix = Some y /\ teq y (torch_embedding w ix).
Proof. intros w ix v d. exact (aten_embedding_ok w ix v d). Qed.
Print Assumptions C91_embedding.
Example C91_ex :
  let x := mkT [2; 3]%nat (fun idx => INR (3 * nth 0 idx 0 + nth 1 idx 0)%nat) in
  axis_ok 2 (-1) /\ axis_ok 3 (-3) /\ tget (torch_transpose 0 1 x) [2; 1]%nat = 5 /\ tget (torch_select 1 (axis_of 3 (-3)) x) [1]%nat = 3 /\
  tget (torch_embedding x (mkT [2; 2]%nat (fun _ => 1%nat))) [0; 1; 2]%nat = 5.
Proof. split; [unfold axis_ok; lia|]. split; [unfold axis_ok; lia|]. cbn. repeat split; lra. Qed.
