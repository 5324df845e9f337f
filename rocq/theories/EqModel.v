(** Model of cross-layer equalization and high-bias absorption
    ([tinynn/graph/quantization/algorithm/cross_layer_equalization.py]) and of the batch-norm
    folding used for quantization preparation ([tinynn/graph/quantization/utils.py]).

    Values are reals; [None] stands for an exception or for a result that contains nan. *)
From Coq Require Import List Arith ZArith Bool Reals.
From Verif Require Import Tensor ConvSpec FuseModel QuantModel.
Import ListNotations.
Local Open Scope R_scope.

(* ------------------------------------------------------------------ *)
(** * Equalization *)

(** [t.abs().max(1).values] of a matrix (equalize, lines 97-98); raises on empty rows. *)
Definition rows_absmax (t : tensor R) : option (list R) :=
  oall (map (fun r => lmax (map (fun j => Rabs (tget t [r; j])) (seq 0 (nth 1 (tshape t) 0%nat))))
            (seq 0 (nth 0 (tshape t) 0%nat))).

(** [s_min], [s_max] (line 79). *)
Definition s_min : R := 1 / 1000000.
Definition s_max : R := 1000000.

(** Scale of one channel (lines 99-104): [r1 / sqrt(r1 * r2)] is nan for [r1 = 0] and infinite
    for [r1 > 0 = r2]; [clamp] keeps nan and limits infinity; [where] overrides both. *)
Definition eq_scale (thr r1 r2 : R) : option R :=
  if Rlt_dec (r1 + r2) thr then Some 1
  else if Req_EM_T (r1 * r2) 0 then (if Req_EM_T r1 0 then None else Some s_max)
  else Some (Rmin s_max (Rmax s_min (r1 / sqrt (r1 * r2)))).

(** [equalize] (lines 79-106).  The two range vectors have the same length in a network that
    torch can run; other lengths are treated as raising. *)
Definition equalize (w1 w2 : tensor R) (group : nat) (thr : R) : option (list R) :=
  let o1 := nth 0 (tshape w1) 0%nat in
  let o2 := nth 0 (tshape w2) 0%nat in
  let rest := tl (tshape w2) in
  let w1r := reshape [o1; prod (tl (tshape w1))] w1 in
  let w2r := reshape (group :: (o2 / group)%nat :: rest) w2 in
  let num_dims := length (tshape w2r) in
  if (num_dims <? 3)%nat then None
  else
    let w2p := transpose ([2; 0; 1]%nat ++ seq 3 (num_dims - 3)) w2r in
    let w2m := reshape [(nth 0 (tshape w2p) 0 * nth 1 (tshape w2p) 0)%nat; prod (skipn 2 (tshape w2p))] w2p in
    obind (rows_absmax w1r) (fun r1 =>
    obind (rows_absmax w2m) (fun r2 =>
    if (length r1 =? length r2)%nat
    then oall (map (fun c => eq_scale thr (nth c r1 0) (nth c r2 0)) (seq 0 (length r1)))
    else None)).

(** [_weight_equal_helper] (lines 109-127): new weight and bias of the first layer, new weight
    of the second.  [groups] is [conv_1.groups], 1 for a linear layer. *)
Definition weight_equal (w1 : tensor R) (b1 : option (list R)) (w2 : tensor R) (groups : nat) (thr : R)
  : option (tensor R * option (list R) * tensor R) :=
  obind (equalize w1 w2 groups thr) (fun s =>
  let o2 := nth 0 (tshape w2) 0%nat in
  let rest := tl (tshape w2) in
  let weight_1 := mkT (tshape w1) (fun idx => tget w1 idx / nth (nth 0 idx 0%nat) s 0) in
  let w2r := reshape (groups :: (o2 / groups)%nat :: rest) w2 in
  let per := nth 0 rest 0%nat in
  let w2s := mkT (tshape w2r) (fun idx => tget w2r idx * nth (nth 0 idx 0 * per + nth 2 idx 0)%nat s 0) in
  Some (weight_1,
        option_map (fun b => map (fun c => nth c b 0 / nth c s 0) (seq 0 (length b))) b1,
        reshape ((nth 1 (tshape w2s) 0 * groups)%nat :: rest) w2s)).

(** Layers of a chain with the activation behind them; kinds of [cls_support_type] (line 23),
    activation per channel. *)
Inductive lkind := KConv (a : conv_attr) | KLinear.
Record clayer := mkCL { cl_kind : lkind; cl_w : tensor R; cl_b : option (list R); cl_act : nat -> R -> R }.
Definition cl_groups (l : clayer) : nat := match cl_kind l with KConv a => ca_groups a | KLinear => 1%nat end.

(** The helper on the layers [j] and [j + 1] of a chain, and a list of such steps
    ([equalize_model], lines 151-153: every group, [iters] times). *)
Fixpoint eq_at (thr : R) (j : nat) (net : list clayer) : option (list clayer) :=
  match j, net with
  | O, l1 :: l2 :: net' =>
      obind (weight_equal (cl_w l1) (cl_b l1) (cl_w l2) (cl_groups l2) thr) (fun r =>
      let '(w1, b1, w2) := r in
      Some (mkCL (cl_kind l1) w1 b1 (cl_act l1) :: mkCL (cl_kind l2) w2 (cl_b l2) (cl_act l2) :: net'))
  | S j', l :: net' => option_map (cons l) (eq_at thr j' net')
  | _, _ => None
  end.
Fixpoint eq_steps (thr : R) (js : list nat) (net : list clayer) : option (list clayer) :=
  match js with
  | [] => Some net
  | j :: js' => obind (eq_at thr j net) (eq_steps thr js')
  end.

(* ------------------------------------------------------------------ *)
(** * High-bias absorption *)

(** [c] (bias_absorb_helper_, lines 222-225). *)
Definition absorb_c (gamma beta : list R) : option (list R) :=
  obind (arr2 (fun b g => b - 3 * Rabs g) beta gamma) (fun c =>
  Some (map (fun v => if Rlt_dec v 0 then 0 else v) c)).

(** [bias_absorb_helper_] (lines 222-241) on two 2-D convolutions that both carry their batch
    norm: new biases of the two layers. *)
Definition bias_absorb (gamma beta : list R) (b1 : list R) (w2 : tensor R) (b2 : list R)
  : option (list R * list R) :=
  let cout := nth 0 (tshape w2) 0%nat in
  let ipg := nth 1 (tshape w2) 0%nat in
  obind (absorb_c gamma beta) (fun c =>
  obind (if (ipg =? 1)%nat
         then arr2 Rmult (map (fun o => wsum w2 o 0) (seq 0 cout)) c
         else if (ipg =? length c)%nat
              then Some (map (fun o => lsum (seq 0 ipg) (fun i => wsum w2 o i * nth i c 0)) (seq 0 cout))
              else None) (fun bias_correct =>
  obind (arr2 Rplus b2 bias_correct) (fun cur_bias =>
  obind (arr2 Rminus b1 c) (fun pre_bias => Some (pre_bias, cur_bias))))).

(** [cross_layer_equalize] with [cle_iters = 1] and [hba_flag] on one pair (lines 190-198): the
    absorption uses the batch norm stored before the equalization ([fused_bn_], lines 217-219). *)
Definition cle_hba (thr : R) (gamma beta : list R) (w1 : tensor R) (b1 : list R) (w2 : tensor R) (b2 : list R)
  (groups : nat) : option (tensor R * list R * tensor R * list R) :=
  obind (weight_equal w1 (Some b1) w2 groups thr) (fun r =>
  match r with
  | (w1', Some b1', w2') =>
      obind (bias_absorb gamma beta b1' w2' b2) (fun q => Some (w1', fst q, w2', snd q))
  | _ => None
  end).

(* ------------------------------------------------------------------ *)
(** * Batch-norm folding *)

(** [conv_b], [bn_w], [bn_b] replaced when absent (utils.py 5-10). *)
Definition or_else (o : option (list R)) (n : nat) (v : R) : list R :=
  match o with Some l => l | None => repeat v n end.

(** [fuse_conv_bn_weights] (utils.py 4-23). *)
Definition fuse_conv_bn_weights (w : tensor R) (b : option (list R)) (rm rv : list R) (eps : R)
  (bn_w bn_b : option (list R)) (transpose : bool) : option (tensor R * list R) :=
  let n := length rm in
  let b := or_else b n 0 in
  let g := or_else bn_w n 1 in
  let be := or_else bn_b n 0 in
  let inv := bn_inv eps rv in
  obind (arr2 Rmult g inv) (fun s =>
  obind (mul_axis (if transpose then 1 else 0) s w) (fun w' =>
  obind (arr2 Rminus b rm) (fun d => obind (arr2 Rmult d inv) (fun d =>
  obind (arr2 Rmult d g) (fun d => obind (arr2 Rplus d be) (fun b' => Some (w', b'))))))).

(** [fuse_bn_conv_weights] (utils.py 26-52), for weights with at least one spatial axis
    (the callers pass 2-D convolutions). *)
Definition fuse_bn_conv_weights (w : tensor R) (b : option (list R)) (rm rv : list R) (eps : R)
  (bn_w bn_b : option (list R)) : option (tensor R * list R) :=
  let n := length rm in
  let cout := nth 0 (tshape w) 0%nat in
  let ipg := nth 1 (tshape w) 0%nat in
  let b := or_else b cout 0 in
  let g := or_else bn_w n 1 in
  let be := or_else bn_b n 0 in
  let inv := bn_inv eps rv in
  obind (arr2 Rmult rm inv) (fun m =>
  obind (arr2 Rmult m g) (fun m =>
  obind (arr2 Rminus be m) (fun fused_b =>
  obind (if (ipg =? 1)%nat && (1 <? n)%nat
         then arr2 Rmult (map (fun o => wsum w o 0) (seq 0 cout)) fused_b
         else if (ipg =? length fused_b)%nat
              then Some (map (fun o => lsum (seq 0 ipg) (fun i => wsum w o i * nth i fused_b 0)) (seq 0 cout))
              else None) (fun offset =>
  obind (arr2 Rmult g inv) (fun s =>
  obind (mul_axis 1 s w) (fun w' =>
  obind (arr2 Rplus b offset) (fun b' => Some (w', b')))))))).
