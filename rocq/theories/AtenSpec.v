(** Meaning of further TFLite kernels that the operator conversion emits, and of the torch
    operators they replace (specification side: documented semantics, no converter code). *)
From Coq Require Import List Arith Bool Reals Lia.
From Verif Require Import Tensor ConvSpec.
Import ListNotations.
Local Open Scope R_scope.

(** CONV_3D, weight [kernel...; Cin; Cout]; no groups *)
Definition conv3d_kernel (w : tensor R) (b : nat -> R) (o : nat) (win : list (list (option R))) : R :=
  let ks := firstn 3 (tshape w) in
  b o + lsum (combine (indices ks) win) (fun kv =>
          lsum (seq 0 (nth 3 (tshape w) 0%nat)) (fun i => tget w (fst kv ++ [i; o]) * val0 (nth i (snd kv) None))).

(** TRANSPOSE_CONV and CONV_3D_TRANSPOSE with padding VALID: operand [N; spatial...; Cin], the
    shape of the output is an operand; [wt o i k] is the weight. *)
Definition lite_deconv (wt : nat -> nat -> list nat -> R) (ks : list nat) (b : nat -> R)
  (stride dil oshape : list nat) (x : tensor R) : tensor R :=
  let dims := removelast (tl (tshape x)) in
  let cin := last (tshape x) 0%nat in
  mkT oshape
      (fun idx =>
         let n := nth 0 idx 0%nat in
         let pos := removelast (tl idx) in
         let o := last idx 0%nat in
         b o + lsum (indices dims) (fun q => lsum (indices ks) (fun k =>
           if hits stride dil (map (fun _ => 0%nat) pos) q k pos
           then lsum (seq 0 cin) (fun i => wt o i k * tget x (n :: q ++ [i]))
           else 0))).
(** weight [Cout; kernel...; Cin] *)
Definition deconv2d_weight (w : tensor R) (o i : nat) (k : list nat) : R := tget w (o :: k ++ [i]).
(** weight [kernel...; Cout; Cin] *)
Definition deconv3d_weight (w : tensor R) (o i : nat) (k : list nat) : R := tget w (k ++ [o; i]).

(** every axis of a convolution: a kernel of at least one tap that fits into the padded axis *)
Fixpoint conv_axes (dims ks stride dil pad : list nat) : Prop :=
  match dims, ks, stride, dil, pad with
  | d :: dims', k :: ks', s :: stride', l :: dil', p :: pad' =>
      (0 < k /\ 0 < s /\ l * (k - 1) + 1 <= d + p + p)%nat /\ conv_axes dims' ks' stride' dil' pad'
  | [], [], [], [], [] => True
  | _, _, _, _, _ => False
  end.

(** bias vector of a torch convolution *)
Definition bias_of (b : option (list R)) : nat -> R := match b with None => fun _ => 0 | Some l => fun o => nth o l 0 end.

(** operands that torch accepts for a convolution: [groups] groups of [ipg] input and [opg] output channels *)
Record conv_wf (groups ipg opg N : nat) (dims ks stride dil pad : list nat) (bias : option (list R))
  (x w : tensor R) : Prop := {
  cw_x : tshape x = N :: (groups * ipg)%nat :: dims;
  cw_w : tshape w = (groups * opg)%nat :: ipg :: ks;
  cw_axes : conv_axes dims ks stride dil pad;
  cw_groups : (0 < groups)%nat;
  cw_ipg : (0 < ipg)%nat;
  cw_bias : forall l, bias = Some l -> length l = (groups * opg)%nat }.

(** operands that torch accepts for a transposed convolution without groups *)
Record deconv_wf (cin cout N : nat) (dims ks stride dil pad odims : list nat) (bias : option (list R))
  (x w : tensor R) : Prop := {
  dw_x : tshape x = N :: cin :: dims;
  dw_w : tshape w = cin :: cout :: ks;
  dw_len : length ks = length dims /\ length stride = length dims /\ length dil = length dims /\
           length pad = length dims /\ length odims = length dims;
  dw_bias : forall l, bias = Some l -> length l = cout }.

