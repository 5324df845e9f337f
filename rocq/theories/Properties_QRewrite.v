(** C113-C119: the operators the quantizer writes in place of others. *)
From Coq Require Import String List Arith ZArith Bool Reals Lia Lra.
From Verif Require Import Tensor ConvSpec EltSpec MoveSpec PoolSpec LayoutSpec CatSpec FuseModel QatSpec QRewriteSpec QRewriteModel.
From Verif Require Import QRewriteProofs QRewriteShapeProofs.
Import ListNotations.
Local Open Scope R_scope.

(** ** C113: negation, division and subtraction *)

Theorem C113_neg : forall x, exists y, arun [x] rewrite_neg = Some y /\ teq y (torch_neg x).
Proof. exact neg_ok. Qed.
Print Assumptions C113_neg.

Theorem C113_div : forall a e x, rewrite_div a = Some e ->
  exists y z, torch_div a x = Some y /\ arun [x] e = Some z /\ teq z y.
Proof. exact div_ok. Qed.
Print Assumptions C113_div.
Theorem C113_div_taken : forall l c, lit_val l = Some c -> c <> 0 -> (forall r, l <> LExp r) ->
  exists e, rewrite_div (mkA [l] []) = Some e.
Proof. exact div_taken. Qed.
Print Assumptions C113_div_taken.
Example C113_div_example : exists e, rewrite_div (mkA [LInt 4] []) = Some e /\
  exists z, arun [mkT [2%nat] (fun i => INR (nth 0 i 0%nat))] e = Some z /\ tget z [1%nat] = 1 / 4.
Proof.
  destruct (C113_div_taken (LInt 4) 4 eq_refl ltac:(lra) ltac:(discriminate)) as (e & E). exists e. split; [exact E|].
  destruct (C113_div _ _ (mkT [2%nat] (fun i => INR (nth 0 i 0%nat))) E) as (y & z & Ey & Ez & T & G). exists z. split; [exact Ez|].
  revert Ey. unfold torch_div. cbn [param nth_error a_pos a_kw keyword lit_val]. destruct (Req_EM_T 4 0); [lra|].
  intro Ey. inversion Ey; subst. rewrite G; [cbn; lra|]. rewrite T. repeat constructor.
Qed.

Theorem C113_sub_number : forall a e x, rewrite_sub false 1 a = Some e ->
  exists y z, torch_sub_scalar a x = Some y /\ arun [x] e = Some z /\ teq z y.
Proof. exact sub_scalar_ok. Qed.
Print Assumptions C113_sub_number.
Theorem C113_sub_number_taken : forall l c, lit_val l = Some c -> exists e, rewrite_sub false 1 (mkA [l] []) = Some e.
Proof. exact sub_scalar_taken. Qed.
Print Assumptions C113_sub_number_taken.
Theorem C113_rsub_number : forall a e x, rewrite_sub true 1 a = Some e ->
  exists y z, torch_rsub_scalar a x = Some y /\ arun [x] e = Some z /\ teq z y.
Proof. exact rsub_scalar_ok. Qed.
Print Assumptions C113_rsub_number.
Theorem C113_sub_tensors : forall a x y, alpha_of a = Some 1 ->
  exists e, rewrite_sub false 2 a = Some e /\ same_result (arun [x; y] e) (torch_sub a x y).
Proof. exact sub_tensors_ok. Qed.
Print Assumptions C113_sub_tensors.
Example C113_sub_example : rewrite_sub false 1 (mkA [LExp (1 / 1000)] []) = Some (AAddScalar (AArg 0) (- (1 / 1000))) /\
  rewrite_sub true 1 (mkA [LInt 1] []) = Some (AAddScalar (AMulScalar (AArg 0) (-1)) 1) /\ alpha_of (mkA [] []) = Some 1.
Proof. repeat split. Qed.

(** the multiplier of the second operand is lost *)
Theorem C113_sub_alpha_refuted : exists a e x y u v, accepted ["other"; "alpha"]%string (mkA [LDot 0] (a_kw a)) /\
  rewrite_sub false 2 a = Some e /\ torch_sub a x y = Some u /\ arun [x; y] e = Some v /\ ~ teq v u.
Proof. exact sub_alpha_wrong. Qed.
Print Assumptions C113_sub_alpha_refuted.
(** [x.__rsub__(y)] of two tensors becomes [x - y] *)
Theorem C113_rsub_tensors_refuted : exists e x y u v,
  rewrite_sub true 2 (mkA [] []) = Some e /\ torch_rsub x y = Some u /\ arun [x; y] e = Some v /\ ~ teq v u.
Proof. exact rsub_tensors_wrong. Qed.
Print Assumptions C113_rsub_tensors_refuted.
(** a number such as [1e-05] raises as a divisor and in [1e-05 - x] *)
Theorem C113_numbers_refuted : exists a, (forall x, exists y, torch_div a x = Some y) /\
  (forall x, exists y, torch_rsub_scalar a x = Some y) /\ rewrite_div a = None /\ rewrite_sub true 1 a = None.
Proof. exact numbers_refused. Qed.
Print Assumptions C113_numbers_refuted.

(** ** C114: stack as a concatenation *)

Theorem C114_stack : forall A (d : A) a sh (ts : list (tensor A)) dim y, ts <> [] -> Forall (fun t => tshape t = sh) ts ->
  stack_dim a = Some dim -> axis_ok (S (length sh)) dim -> rewrite_stack d a ts = Some y -> teq y (torch_stack d dim ts).
Proof. exact @stack_ok. Qed.
Print Assumptions C114_stack.
Theorem C114_stack_taken : forall a dim, accepted ["dim"%string] a \/ accepted ["axis"%string] a -> stack_dim a = Some dim ->
  rewrite_stack_dim a = Some dim.
Proof. exact stack_dim_taken. Qed.
Print Assumptions C114_stack_taken.
Example C114_stack_example :
  let t := fun v => mkT [2; 3]%nat (fun i => v + INR (nth 1 i 0%nat)) in
  exists y, rewrite_stack 0 (mkA [] [("axis"%string, LInt (-1))]) [t 0; t 10] = Some y /\ tshape y = [2; 3; 2]%nat /\
  tget y [1; 2; 1]%nat = 12.
Proof.
  eexists. split; [reflexivity|]. split; [reflexivity|]. lazy -[Rplus IZR INR]. cbn [INR]. lra.
Qed.

(** ** C115: clamps *)

Theorem C115_clamp : forall a f, finite_bounds a -> clamp_call a = Some f ->
  exists g, crun (rewrite_clamp a) = Some g /\ forall v, g v = f v.
Proof. exact clamp_ok. Qed.
Print Assumptions C115_clamp.
Theorem C115_clamp_min : forall a f, clamp_min_call a = Some f -> exists r, rewrite_clamp_min a = Some r /\
  forall c, r = Some c -> exists g, crun c = Some g /\ forall v, g v = f v.
Proof. exact clamp_min_ok. Qed.
Print Assumptions C115_clamp_min.
Example C115_clamp_example : rewrite_clamp (mkA [LInt 0] [("max"%string, LDot 6)]) = KRelu6 /\
  rewrite_clamp (mkA [] [("max"%string, LDot 1)]) = KClampMax (LDot 1) /\
  finite_bounds (mkA [LInt 0] [("max"%string, LDot 6)]) /\ clamp_call (mkA [LInt 0] [("max"%string, LDot 6)]) <> None.
Proof.
  split; [|split; [|split]].
  - unfold rewrite_clamp. cbn [param nth_error a_pos a_kw keyword py_eq lit_val is_none andb].
    destruct (Req_EM_T 0 0); [|lra]. cbn. destruct (Req_EM_T 6 6); [reflexivity|lra].
  - reflexivity.
  - intro n. cbn. split; discriminate.
  - discriminate.
Qed.
(** a bound that is infinite is printed as the name [inf], which the generated code does not know *)
Theorem C115_infinite_refuted : exists a f, clamp_call a = Some f /\ crun (rewrite_clamp a) = None.
Proof. exact clamp_inf_wrong. Qed.
Print Assumptions C115_infinite_refuted.

(** ** C116: functions as modules *)

Theorem C116_leaky_relu : forall a f, by_position a -> leaky_call a = Some f ->
  exists g, rewrite_leaky a = Some g /\ forall v, g v = f v.
Proof. exact leaky_ok. Qed.
Print Assumptions C116_leaky_relu.
Theorem C116_elu : forall a f, elu_call a = Some f -> exists g, rewrite_elu a = Some g /\ forall v, g v = f v.
Proof. exact elu_ok. Qed.
Print Assumptions C116_elu.
Theorem C116_glu : forall a d, glu_dim a = Some d -> rewrite_glu_dim a = Some d.
Proof. exact glu_ok. Qed.
Print Assumptions C116_glu.
Theorem C116_dropout : forall keep a x p t, dropout_call a = Some (p, t) ->
  rewrite_dropout t keep a x = Some (dropped keep p t x).
Proof. exact dropout_ok. Qed.
Print Assumptions C116_dropout.
Example C116_example : by_position (mkA [LDot (1 / 5)] [("inplace"%string, LBool true)]) /\
  leaky_call (mkA [LDot (1 / 5)] [("inplace"%string, LBool true)]) <> None /\
  elu_call (mkA [] [("alpha"%string, LDot (1 / 2))]) <> None /\ glu_dim (mkA [LInt 1] []) = Some 1%Z /\
  dropout_call (mkA [LDot (1 / 4)] [("training"%string, LBool true)]) = Some (1 / 4, true).
Proof. split; [left; discriminate|]. repeat split; discriminate. Qed.
(** a slope given by its name is lost: the module is the identity; and so is the default slope as soon as there is any
    other argument *)
Theorem C116_leaky_relu_refuted : exists a f g, accepted ["negative_slope"; "inplace"]%string a /\ leaky_call a = Some f /\
  rewrite_leaky a = Some g /\ exists v, g v <> f v.
Proof. exact leaky_wrong. Qed.
Print Assumptions C116_leaky_relu_refuted.
Theorem C116_leaky_relu_default_refuted : exists a f g, accepted ["negative_slope"; "inplace"]%string a /\
  keyword "negative_slope" (a_kw a) = None /\ leaky_call a = Some f /\ rewrite_leaky a = Some g /\ exists v, g v <> f v.
Proof. exact leaky_inplace_wrong. Qed.
Print Assumptions C116_leaky_relu_default_refuted.
(** a dropout that is switched off by its argument drops in a model in training *)
Theorem C116_dropout_refuted : exists keep a x p y, dropout_call a = Some (p, false) /\
  rewrite_dropout true keep a x = Some y /\ ~ teq y (dropped keep p false x).
Proof. exact dropout_wrong. Qed.
Print Assumptions C116_dropout_refuted.

(** ** C117: pools with windows of one element *)

Theorem C117_max_pool : forall k stride ceil x, length (tshape x) = (k + 2)%nat -> Forall (lt 0%nat) (skipn 2 (tshape x)) ->
  stride_ok k stride ->
  exists y z, torch_max_pool k stride ceil x = Some y /\ rewrite_pool stride x = Some z /\ teq (tmap Some z) y.
Proof. exact max_pool_ok. Qed.
Print Assumptions C117_max_pool.
Theorem C117_avg_pool : forall k stride ceil include x, length (tshape x) = (k + 2)%nat ->
  Forall (lt 0%nat) (skipn 2 (tshape x)) -> stride_ok k stride ->
  exists y z, torch_avg_pool k stride ceil include None x = Some y /\ rewrite_pool stride x = Some z /\ teq z y.
Proof. exact avg_pool_ok. Qed.
Print Assumptions C117_avg_pool.
Example C117_example :
  let x := mkT [1; 1; 5; 4]%nat (fun i => INR (nth 2 i 0%nat) + 10 * INR (nth 3 i 0%nat)) in
  exists z, rewrite_pool (Some (SList [2; 3]%nat)) x = Some z /\ tshape z = [1; 1; 3; 2]%nat /\ tget z [0; 0; 2; 1]%nat = 34 /\
  stride_ok 2 (Some (SList [2; 3]%nat)).
Proof.
  eexists. split; [reflexivity|]. split; [reflexivity|]. split; [cbn; lra|]. split; [reflexivity|].
  repeat constructor.
Qed.
Theorem C117_divisor_refuted : exists x y z, length (tshape x) = 4%nat /\
  torch_avg_pool 2 (Some (SOne 1)) false true (Some 2%nat) x = Some y /\ rewrite_pool (Some (SOne 1)) x = Some z /\ ~ teq z y.
Proof. exact pool_override_wrong. Qed.
Print Assumptions C117_divisor_refuted.
Theorem C117_unbatched_refuted : exists x y z, length (tshape x) = 3%nat /\ torch_max_pool 2 (Some (SOne 2)) false x = Some y /\
  rewrite_pool (Some (SOne 2)) x = Some z /\ tshape z <> tshape y.
Proof. exact pool_unbatched_wrong. Qed.
Print Assumptions C117_unbatched_refuted.
Theorem C117_one_stride_refuted : exists x y z, length (tshape x) = 4%nat /\
  torch_max_pool 2 (Some (SList [2%nat])) false x = Some y /\ rewrite_pool (Some (SList [2%nat])) x = Some z /\
  tshape z <> tshape y.
Proof. exact pool_one_stride_wrong. Qed.
Print Assumptions C117_one_stride_refuted.

(** ** C118: Linear and BatchNorm1d *)

Theorem C118_linear_bn : forall tr w b p x N I O, tshape x = [N; I] -> tshape w = [O; I] ->
  same_result (rewrite_linear_bn tr w b p x) (batch_norm_1d tr p (torch_linear w b x)).
Proof. exact linear_bn_ok. Qed.
Print Assumptions C118_linear_bn.
Theorem C118_batch_norm : forall tr p x, length (tshape x) = 3%nat -> same_result (rewrite_bn1d tr p x) (batch_norm_1d tr p x).
Proof. exact bn1d_ok. Qed.
Print Assumptions C118_batch_norm.
Example C118_example :
  let w := mkT [2; 3]%nat (fun _ => 1) in let x := mkT [1; 3]%nat (fun i => INR (nth 1 i 0%nat)) in
  exists y, rewrite_linear_bn false w (Some [1; 2]) (mkBn 0 [1; 2] [0; 5] [0; 1] [1; 1]) x = Some y /\ tget y [0; 1]%nat = 13.
Proof.
  intros w x. pose proof (C118_linear_bn false w (Some [1; 2]) (mkBn 0 [1; 2] [0; 5] [0; 1] [1; 1]) x 1 3 2 eq_refl eq_refl) as H.
  destruct (rewrite_linear_bn false w (Some [1; 2]) (mkBn 0 [1; 2] [0; 5] [0; 1] [1; 1]) x) as [y|]; [|cbn in H; contradiction].
  exists y. split; [reflexivity|]. destruct H as [S G]. rewrite G by (rewrite S; repeat constructor). cbn.
  unfold bn_affine, bias_fn, lsum. cbn. replace (1 + 0) with 1 by lra. rewrite sqrt_1. lra.
Qed.
(** a BatchNorm1d of an operand of rank 2 raises *)
Theorem C118_rank_two_refuted : exists tr p x y, tshape x = [2; 3]%nat /\ batch_norm_1d tr p x = Some y /\
  rewrite_bn1d tr p x = None.
Proof. exact bn1d_rank2_witness. Qed.
Print Assumptions C118_rank_two_refuted.

(** ** C119: broadcasting *)

Theorem C119_broadcast : forall (x y : tensor R) s, bshape (tshape x) (tshape y) = Some s ->
  exists x' y', rewrite_broadcast x y = Some (x', y') /\ tshape x' = s /\ tshape y' = s /\
  forall B (f : R -> R -> B), same_result (binop f x' y') (binop f x y).
Proof. exact broadcast_ok. Qed.
Print Assumptions C119_broadcast.
Example C119_example : bshape [2; 1; 3]%nat [4; 1]%nat = Some [2; 4; 3]%nat /\ ref_index [2; 1; 3]%nat [4; 1]%nat = Some None /\
  ref_index [2; 4; 3]%nat [4; 1]%nat = Some (Some 0%nat) /\ ref_index [1; 3]%nat [2; 1; 3]%nat = Some (Some 1%nat).
Proof. repeat split. Qed.
