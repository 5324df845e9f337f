(** Model of the lowering of reductions and normalisations: [handle_reduce] of tinynn/converter/operators/torch/base.py
    and mean, sum, prod, amax, amin, argmax, argmin, var, std, norm, layer_norm, instance_norm, group_norm of
    tinynn/converter/operators/torch/aten.py.  Float operands over the reals; an exception is [None]. *)
From Coq Require Import List Arith Bool Reals ZArith.
From Verif Require Import Tensor ConvSpec CatSpec LayoutSpec FuseModel AtenPoolModel PoolSpec MoveSpec NormSpec.
Import ListNotations.
Local Open Scope R_scope.

(** the loop that makes axes nonnegative (base.py 607-609, aten.py 2980-2982, 4352-4354) *)
Definition fix_dims (n : nat) (dims : list Z) : list nat :=
  map (fun d => Z.to_nat (if (d <? 0)%Z then d + Z.of_nat n else d)%Z) dims.
(** choice of the axes and of [keep_dim]; [arg] is [None] when the operator has no axes (base.py 595-605) *)
Definition reduce_dims (n : nat) (arg : option (list Z * bool)) : list nat * bool :=
  match arg with
  | None => (seq 0 n, false)
  | Some (dims, keep) => (if (length dims =? 0)%nat then seq 0 n else fix_dims n dims, keep)
  end.
(** [handle_reduce] for operators that take [keepDims] (base.py 592-662).  The branch for [transpose] without
    [keep_dim] is unreachable because [transpose] requires [keep_dim]. *)
Definition handle_reduce {A B} (red : list A -> B) (transpose_opt : bool) (arg : option (list Z * bool)) (x : tensor A) : tensor B :=
  let '(dims, keep) := reduce_dims (length (tshape x)) arg in
  let opt := transpose_opt && (length (tshape x) =? 4)%nat && keep in
  if opt && list_eqb dims [2; 3]%nat then wrap_nhwc (reduce_op red [1; 2]%nat keep) x
  else if opt && list_eqb dims [3; 2]%nat then wrap_nhwc (reduce_op red [2; 1]%nat keep) x
  else reduce_op red dims keep x.
(** the recorded shape of the output of a reduction (base.py 600-605) *)
Definition reduce_recorded (arg : option (list Z * bool)) (oshape : list nat) : list nat :=
  match arg with None => [1%nat] | Some (dims, _) => if (length dims =? 0)%nat then [1%nat] else oshape end.
(** [handle_reduce] for ARG_MAX and ARG_MIN, which have no [keepDims] (base.py 640-652; aten.py 3237-3262); [oshape] is
    the shape of the output of the torch operator *)
Definition handle_arg {A B} (f : list A -> B) (dim : Z) (keep : bool) (oshape : list nat) (x : tensor A) : tensor B :=
  let ax := nth 0 (fix_dims (length (tshape x)) [dim]) 0%nat in
  if keep then reshape oshape (arg_op f ax x) else arg_op f ax x.

(** the mean, the squared differences and the numerator that several operators share *)
Definition scalar (v : R) : tensor R := mkT [] (fun _ => v).
Definition vec (l : list R) : tensor R := mkT [length l] (fun idx => nth (nth 0 idx 0%nat) l 0).

(** [ATenVarOperator.parse] (aten.py 2968-3012): [samples], MEAN, SQUARED_DIFFERENCE, then SUM and DIV or MEAN *)
Definition samples (dims sh : list nat) : nat :=
  prod (map (fun i => nth i sh 0%nat) (filter (fun i => existsb (Nat.eqb i) dims) (seq 0 (length sh)))).
Definition aten_var (arg : option (list Z)) (keep unbiased : bool) (correction : nat) (x : tensor R) : option (tensor R) :=
  let n := length (tshape x) in
  let dims := fix_dims n (match arg with Some d => d | None => map Z.of_nat (seq 0 n) end) in
  let m := reduce mean dims x in
  obind (binop sqdiff x m) (fun sd =>
    if unbiased && negb (correction =? 0)%nat
    then binop Rdiv (reduce_op total dims keep sd) (scalar (INR (samples dims (tshape x)) - INR correction))
    else Some (reduce_op mean dims keep sd)).
(** [ATenStdOperator.parse] (aten.py 3015-3065) *)
Definition aten_std (arg : option (list Z)) (keep unbiased : bool) (correction : nat) (x : tensor R) : option (tensor R) :=
  obind (aten_var arg keep unbiased correction x) (fun v => Some (tmap sqrt v)).

(** [ATenNormOperator.parse_common] (aten.py 4331-4380); another [p] is an assertion error *)
Definition aten_norm (p : nat) (arg : option (list Z * bool)) (x : tensor R) : option (tensor R) :=
  let '(dims, keep) := reduce_dims (length (tshape x)) arg in
  match p with
  | 1%nat => Some (reduce_op total dims keep (tmap Rabs x))
  | 2%nat => Some (tmap pow_half (reduce_op total dims keep (tmap pow_two x)))
  | _ => None
  end.
(** the recorded shape of its output (aten.py 4337-4350) *)
Definition norm_recorded (n : nat) (arg : option (list Z * bool)) (oshape : list nat) : list nat :=
  match arg with
  | None => [1%nat]
  | Some (dims, _) => if (length dims =? 0)%nat || (length dims =? n)%nat then [1%nat] else oshape
  end.

(** MEAN, SQUARED_DIFFERENCE, MEAN, SUB, ADD, SQRT, DIV as emitted by layer_norm (aten.py 2446-2468), instance_norm
    (aten.py 2512-2543) and group_norm (aten.py 2588-2611) *)
Definition normalize (axes : list nat) (eps : R) (x : tensor R) : option (tensor R) :=
  let m := reduce mean axes x in
  obind (binop sqdiff x m) (fun sd =>
    let v := reduce mean axes sd in
    obind (binop Rminus x m) (fun num =>
    obind (binop Rplus v (vec [eps])) (fun we => binop Rdiv num (tmap sqrt we)))).

(** [ATenLayerNormOperator.parse] with weight and bias (aten.py 2432-2477) *)
Definition aten_layer_norm (eps : R) (ns : list nat) (w b x : tensor R) : option (tensor R) :=
  let axes := map (fun i => (length (tshape x) - i)%nat) (rev (seq 1 (length ns))) in
  obind (normalize axes eps x) (fun nm => obind (binop Rmult nm w) (fun y => binop Rplus y b)).

(** weight and bias, reshaped to [-1, 1, ...] (aten.py 2540-2553, 2619-2632); with only one of them nothing is done
    (aten.py 2493, 2571) *)
Definition apply_affine (w b : option (list R)) (rank : nat) (y : tensor R) : option (tensor R) :=
  match w, b with
  | Some w, Some b =>
      let r l := reshape (length l :: repeat 1%nat (rank - 2)) (vec l) in
      obind (binop Rmult y (r w)) (fun y => binop Rplus y (r b))
  | _, _ => Some y
  end.
(** [ATenInstanceNormOperator.parse] (aten.py 2480-2556); BATCH_NORM is the internal operator that later passes
    replace (C10); statistics without weights are an assertion error *)
Definition aten_instance_norm (eps : R) (w b rm rv : option (list R)) (x : tensor R) : option (tensor R) :=
  match rm, rv with
  | Some rm, Some rv =>
      match w, b with
      | Some w, Some b => Some (batch_norm eps (fun c => nth c w 0) (fun c => nth c b 0) (fun c => nth c rm 0) (fun c => nth c rv 0) x)
      | _, _ => None
      end
  | _, _ => obind (normalize (seq 2 (length (tshape x) - 2)) eps x) (apply_affine w b (length (tshape x)))
  end.

(** [ATenGroupNormOperator.parse] (aten.py 2559-2642); SPLIT needs the number of groups to divide the channels *)
Fixpoint omap {A B} (f : A -> option B) (l : list A) : option (list B) :=
  match l with [] => Some [] | a :: r => obind (f a) (fun b => obind (omap f r) (fun q => Some (b :: q))) end.
Definition aten_group_norm (eps : R) (groups : nat) (w b : option (list R)) (x : tensor R) : option (tensor R) :=
  let dims := length (tshape x) in
  let c := nth 1 (tshape x) 0%nat in
  obind (if (c =? groups)%nat && (1 <? groups)%nat then normalize (seq 2 (dims - 2)) eps x
         else if (groups =? 1)%nat then normalize (seq 1 (dims - 1)) eps x
         else if (groups =? 0)%nat || negb (c mod groups =? 0)%nat then None
         else obind (omap (normalize (seq 1 (dims - 1)) eps)
                          (map (fun g => chunk 1 (g * (c / groups)) (c / groups) x) (seq 0 groups)))
                    (fun ns => Some (concatenation 0 1 ns)))
        (apply_affine w b dims).
