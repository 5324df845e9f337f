(** Model of the QAT module for a transposed convolution with batch normalisation
    ([ConvTransposeBn2d], tinynn/graph/quantization/qat_modules.py).  [None]: Python raises, or values that are not
    finite appear (division by a zero scale). *)
From Coq Require Import List Arith Bool Reals.
From Verif Require Import Tensor ConvSpec FuseModel EqModel QatSpec.
Import ListNotations.
Local Open Scope R_scope.

(** [F.conv_transpose2d] checks its bias (qat_modules.py 722-724) *)
Definition checked_deconv (a : conv_attr) (os : list nat) (x w : tensor R) (b : list R) : option (tensor R) :=
  if (length b =? nth 1 (tshape w) 0 * ca_groups a)%nat then Some (torch_deconv a os x w (Some b)) else None.
(** [y / v.reshape(bias_shape)] and [y + v.reshape(bias_shape)] on axis 1 (qat_modules.py 480-482) *)
Definition div_channels (v : list R) (y : tensor R) : option (tensor R) :=
  if forallb (fun s => if Req_EM_T s 0 then false else true) v then mul_axis 1 (map Rinv v) y else None.
Definition add_channels (v : list R) (y : tensor R) : option (tensor R) :=
  match bdim (nth 1 (tshape y) 0%nat) (length v) with
  | Some n => Some (mkT (upd (tshape y) 1 n) (fun idx =>
      tget y (upd idx 1 (if (nth 1 (tshape y) 0 =? 1)%nat then 0%nat else nth 1 idx 0%nat)) +
      nth (if (length v =? 1)%nat then 0%nat else nth 1 idx 0%nat) v 0))
  | None => None
  end.
(** [running_std] and [scale_factor] (qat_modules.py 465-466); [bn.weight] is present ([affine=True], line 417) *)
Definition scale_factor (p : bn_params) : option (list R) := arr2 Rdiv (bn_w p) (map (fun v => sqrt (v + bn_eps p)) (bn_var p)).
(** [_ConvTransposeBnNd._forward] (qat_modules.py 463-484); [fq]: [weight_fake_quant]; [cout]: [out_channels];
    [training]: [bn.training] *)
Definition qat_forward (fq : tensor R -> tensor R) (training : bool) (a : conv_attr) (os : list nat) (cout : nat)
  (p : bn_params) (w : tensor R) (b : option (list R)) (x : tensor R) : option (tensor R) :=
  obind (scale_factor p) (fun s =>
  obind (mul_axis 1 s w) (fun sw =>
  obind (checked_deconv a os x (fq sw) (repeat 0 (match b with Some v => length v | None => cout end))) (fun conv =>
  obind (div_channels s conv) (fun conv_orig =>
  obind (match b with Some v => add_channels v conv_orig | None => Some conv_orig end) (fun conv_orig =>
  if (nth 1 (tshape conv_orig) 0 =? length (bn_mean p))%nat then Some (torch_batch_norm training p conv_orig) else None))))).
(** [ConvTransposeBn2d.transform] (qat_modules.py 726-756) followed by [ConvTranspose2d.forward] (310-329) *)
Definition qat_transformed (fq : tensor R -> tensor R) (a : conv_attr) (os : list nat) (p : bn_params) (w : tensor R)
  (b : option (list R)) (x : tensor R) : option (tensor R) :=
  obind (fuse_conv_bn_weights w b (bn_mean p) (bn_var p) (bn_eps p) (Some (bn_w p)) (Some (bn_b p)) true) (fun wb =>
  checked_deconv a os x (fq (fst wb)) (snd wb)).

(** * The mode of the batch normalisation *)

(** [training], [freeze_bn] and [bn.training] *)
Record bn_mode := mkMode { m_training : bool; m_frozen : bool; m_bn : bool }.
Inductive mode_call := CTrain (mode : bool) | CFreeze | CUpdate.
(** [train] (qat_modules.py 493-503), [freeze_bn_stats] (458-461), [update_bn_stats] (453-456) *)
Definition mode_step (m : bn_mode) (c : mode_call) : bn_mode :=
  match c with
  | CTrain b => mkMode b (m_frozen m) (if m_frozen m then m_bn m else b)
  | CFreeze => mkMode (m_training m) true false
  | CUpdate => mkMode (m_training m) false true
  end.
(** [__init__] (qat_modules.py 416, 425-433), [training] is [True] *)
Definition mode_init (freeze_bn : bool) : bn_mode := mkMode true freeze_bn (negb freeze_bn).
