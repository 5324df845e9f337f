(** Batch normalisation in training: the statistics are those of the batch (mean and biased variance per channel). *)
From Coq Require Import List Arith Reals.
From Verif Require Import Tensor ConvSpec FuseModel.
Import ListNotations.
Local Open Scope R_scope.

(** the places of channel [c] in a tensor [N; C; spatial...] *)
Definition channel (y : tensor R) (c : nat) : list R :=
  map (tget y) (filter (fun idx => Nat.eqb (nth 1 idx 0%nat) c) (indices (tshape y))).
Definition mean_of (l : list R) : R := fold_right Rplus 0 l / INR (length l).
Definition var_of (l : list R) : R := mean_of (map (fun v => (v - mean_of l) * (v - mean_of l)) l).
Definition torch_batch_norm (training : bool) (p : bn_params) (y : tensor R) : tensor R :=
  batch_norm (bn_eps p) (fun c => nth c (bn_w p) 0) (fun c => nth c (bn_b p) 0)
    (fun c => if training then mean_of (channel y c) else nth c (bn_mean p) 0)
    (fun c => if training then var_of (channel y c) else nth c (bn_var p) 0) y.
(** [torch.nn.ConvTranspose2d] *)
Definition torch_deconv (a : conv_attr) (oshape : list nat) (x w : tensor R) (b : option (list R)) : tensor R :=
  deconv a oshape x w (fun o => match b with Some v => nth o v 0 | None => 0 end).
