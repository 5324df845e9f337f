(** Lowering of reductions and normalisations (C73-C75). *)
From Coq Require Import List Arith Bool Reals Lia Lra ZArith Permutation.
From Verif Require Import Tensor ConvSpec CatSpec LayoutSpec PoolSpec MoveSpec NormSpec AtenNormModel AtenNormProofs.
Import ListNotations.
Local Open Scope R_scope.

(** C73.  Reductions over any axes, negative or all of them, with and without keeping the axes; with the detour
    through NHWC the reduction must not depend on the order of the elements. *)
Theorem C73_reduce : forall (A B : Type) (red : list A -> B) opt arg (x : tensor A),
  (forall l m, Permutation l m -> red l = red m) \/ opt = false ->
  let n := length (tshape x) in
  teq (handle_reduce red opt arg x)
      (match arg with None => torch_reduce red (seq 0 n) false x
                    | Some (dims, keep) => torch_reduce red (red_axes n dims) keep x end).
Proof. exact @handle_reduce_correct. Qed.
Print Assumptions C73_reduce.
Example C73_example :
  let t := mkT [2; 2; 2; 3]%nat (fun idx => (100 * nth 0 idx 0 + 50 * nth 1 idx 0 + 10 * nth 2 idx 0 + nth 3 idx 0)%nat) in
  let f := handle_reduce list_sum true (Some ([-2; -1]%Z, true)) t in
  (forall l m, Permutation l m -> list_sum l = list_sum m) /\
  tshape f = [2; 2; 1; 1]%nat /\ map (tget f) (indices (tshape f)) = [36; 336; 636; 936]%nat /\
  let g := handle_reduce list_sum true (Some ([1; -1]%Z, false)) t in
  tshape g = [2; 2]%nat /\ map (tget g) (indices (tshape g)) = [156; 216; 756; 816]%nat.
Proof.
  cbv zeta. split.
  - intros l m P. induction P; unfold list_sum in *; cbn; lia.
  - repeat split; reflexivity.
Qed.
(** Operators along one axis such as argmax: any function of the elements in order. *)
Theorem C73_along : forall (A B : Type) (f : list A -> B) dim keep (x : tensor A),
  axis_ok (length (tshape x)) dim ->
  let ref := along f (axis_of (length (tshape x)) dim) keep x in
  teq (handle_arg f dim keep (tshape ref) x) ref.
Proof. exact @handle_arg_correct. Qed.
Print Assumptions C73_along.
Example C73_along_example :
  let t := mkT [2; 3]%nat (fun idx => (10 * nth 0 idx 0 + nth 1 idx 0)%nat) in
  axis_ok 2 (-2) /\
  map (tget (handle_arg (fun l => nth 1 l 0%nat) (-2) true [1; 3]%nat t)) (indices [1; 3]%nat) = [10; 11; 12]%nat.
Proof. cbv zeta. split; [unfold axis_ok; lia|reflexivity]. Qed.

(** C74.  Variance and standard deviation, any correction that leaves samples. *)
Theorem C74_var_std_partial : forall (arg : option (list Z)) keep (unbiased : bool) (correction : nat) (x : tensor R), arg <> Some [] ->
  let axes := torch_axes (length (tshape x)) arg in
  let c := if unbiased then correction else 0%nat in
  Forall (lt 0) (tshape x) -> NoDup axes -> Forall (fun a : nat => (a < length (tshape x))%nat) axes ->
  (c <= prod (map (fun a : nat => nth a (tshape x) 0) axes))%nat ->
  (exists y, aten_var arg keep unbiased correction x = Some y /\ teq y (torch_reduce (variance c) axes keep x)) /\
  (exists y, aten_std arg keep unbiased correction x = Some y /\ teq y (torch_reduce (fun l => sqrt (variance c l)) axes keep x)).
Proof. exact aten_var_std_correct. Qed.
Print Assumptions C74_var_std_partial.
(** An empty list of axes means all axes in torch; the lowering reduces none. *)
Theorem C74_var_empty_refuted : exists (x y : tensor R), aten_var (Some []) false true 1 x = Some y /\
  ~ teq y (torch_reduce (variance 1) (red_axes (length (tshape x)) []) false x).
Proof. exact var_empty_refuted. Qed.
Print Assumptions C74_var_empty_refuted.
(** Norms with p = 1 and p = 2. *)
Theorem C74_norm : forall arg (x : tensor R), Forall (lt 0) (tshape x) ->
  let n := length (tshape x) in
  let axes := match arg with None => seq 0 n | Some (d, _) => red_axes n d end in
  let keep := match arg with None => false | Some (_, k) => k end in
  (exists y, aten_norm 1 arg x = Some y /\ teq y (torch_reduce norm1 axes keep x)) /\
  (exists y, aten_norm 2 arg x = Some y /\ teq y (torch_reduce norm2 axes keep x)).
Proof. exact aten_norm_correct. Qed.
Print Assumptions C74_norm.
(** Over all axes the recorded shape is [1], also when the axes are kept. *)
Theorem C74_norm_recorded_refuted : exists (x y : tensor R) arg,
  aten_norm 2 arg x = Some y /\ teq y (torch_reduce norm2 (seq 0 3) true x) /\ norm_recorded 3 arg (tshape y) <> tshape y.
Proof. exact norm_recorded_refuted. Qed.
Print Assumptions C74_norm_recorded_refuted.
Example C74_example :
  let x := mkT [2; 3]%nat (fun idx => INR (3 * nth 0 idx 0 + nth 1 idx 0)%nat) in
  NoDup (torch_axes 2 (Some [-1]%Z)) /\ Forall (lt 0) (tshape x) /\
  (exists y, aten_var (Some [-1]%Z) false true 1 x = Some y /\ tshape y = [2]%nat /\ tget y [1]%nat = 1) /\
  tget (torch_reduce norm1 [1]%nat false x) [1]%nat = 12.
Proof.
  cbv zeta. split; [repeat constructor; cbn; lia|]. split; [repeat constructor|]. split.
  - eexists. split; [reflexivity|]. split; [reflexivity|]. cbv -[Rplus Rmult Rminus Rdiv Ropp Rinv sqrt IZR]. field.
  - cbn. unfold norm1, total. cbn -[Rabs]. unfold lsum. cbn -[Rabs]. rewrite !Rabs_right by lra. lra.
Qed.

(** C75.  Layer normalisation over any number of trailing axes. *)
Theorem C75_layer_norm : forall eps ns (w b x : tensor R),
  ns <> [] -> (length ns <= length (tshape x))%nat -> skipn (length (tshape x) - length ns) (tshape x) = ns -> tshape w = ns -> tshape b = ns ->
  exists y, aten_layer_norm eps ns w b x = Some y /\ teq y (layer_norm eps ns w b x).
Proof. exact aten_layer_norm_correct. Qed.
Print Assumptions C75_layer_norm.
(** Instance normalisation: with running statistics these are used, which is right unless the statistics of the
    operand are asked for. *)
Theorem C75_instance_norm_partial : forall use eps w b rm rv (x : tensor R) N C dims,
  tshape x = N :: C :: dims -> (w = None <-> b = None) -> (rm = None <-> rv = None) ->
  (forall l, w = Some l -> length l = C) -> (forall l, b = Some l -> length l = C) ->
  (rm <> None -> w <> None) -> use = match rm with None => true | _ => false end ->
  exists y, aten_instance_norm eps w b rm rv x = Some y /\
    teq y (torch_instance_norm use eps w b (match rm with Some l => l | None => [] end) (match rv with Some l => l | None => [] end) x).
Proof. exact aten_instance_norm_correct. Qed.
Print Assumptions C75_instance_norm_partial.
Theorem C75_instance_norm_refuted : forall eps, 0 < eps -> exists y,
  aten_instance_norm eps (Some [1]) (Some [0]) (Some [0]) (Some [1]) two_points = Some y /\
  ~ teq y (torch_instance_norm true eps (Some [1]) (Some [0]) [0] [1] two_points).
Proof. exact instance_norm_train_refuted. Qed.
Print Assumptions C75_instance_norm_refuted.
(** Group normalisation, by one reduction or by splitting the channels. *)
Theorem C75_group_norm_partial : forall eps groups w b (x : tensor R) N C dims,
  tshape x = N :: C :: dims -> (w = None <-> b = None) -> (0 < groups)%nat -> (0 < C)%nat -> (C mod groups = 0)%nat ->
  (forall l, w = Some l -> length l = C) -> (forall l, b = Some l -> length l = C) ->
  exists y, aten_group_norm eps groups w b x = Some y /\ teq y (group_norm eps groups w b x).
Proof. exact aten_group_norm_correct. Qed.
Print Assumptions C75_group_norm_partial.
(** A weight without a bias is dropped. *)
Theorem C75_weight_only_refuted : forall eps, 0 < eps -> exists y,
  aten_group_norm eps 1 (Some [2]) None two_points = Some y /\ ~ teq y (group_norm eps 1 (Some [2]) None two_points).
Proof. exact group_norm_weight_refuted. Qed.
Print Assumptions C75_weight_only_refuted.
Example C75_example :
  let x := mkT [1; 4; 2]%nat (fun idx => INR (2 * nth 1 idx 0 + nth 2 idx 0)%nat) in
  tshape x = 1%nat :: 4%nat :: [2]%nat /\ (4 mod 2 = 0)%nat /\ skipn (3 - 2) (tshape x) = [4; 2]%nat /\
  exists y, aten_group_norm 1 2 None None x = Some y /\ tget y [0; 3; 0]%nat = (6 - 11 / 2) / sqrt (5 / 4 + 1).
Proof.
  cbv zeta. repeat (split; [reflexivity|]).
  destruct (aten_group_norm_correct 1 2 None None (mkT [1; 4; 2]%nat (fun idx => INR (2 * nth 1 idx 0 + nth 2 idx 0)%nat)) 1 4 [2]%nat) as (y & E & S1 & G);
    try reflexivity; try lia; try (intros; discriminate).
  exists y. split; [exact E|]. rewrite G by (rewrite S1; repeat constructor; lia).
  unfold group_norm, affine, normal, variance, total, mean, sq. cbn -[INR Rmax lsum]. unfold lsum. cbn [map fold_right length].
  rewrite Rmax_right by (cbn; lra). rewrite Rmult_1_r, Rplus_0_r. f_equal.
  - cbn. field.
  - f_equal. f_equal. cbn. field.
Qed.
