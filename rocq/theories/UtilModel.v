(** Model of helper code: [tinynn/util/train_util.py], [tinynn/util/bn_restore.py],
    [tinynn/util/util.py].  [None] stands for a python exception. *)
From Coq Require Import List Arith ZArith Bool Reals.
From Verif Require Import Tensor ConvSpec FuseModel.
Import ListNotations.
Local Open Scope R_scope.

(* ------------------------------------------------------------------ *)
(** * [AverageMeter] (train_util.py 59-81) *)

Record meter := mkMeter { m_val : R; m_avg : R; m_sum : R; m_count : Z }.
(** [__init__] and [reset] (lines 65-75). *)
Definition meter_reset : meter := mkMeter 0 0 0 0.
(** [update] (lines 77-81); python raises on a zero count. *)
Definition meter_update (v : R) (n : Z) (m : meter) : option meter :=
  let sum := m_sum m + v * IZR n in
  let count := (m_count m + n)%Z in
  if (count =? 0)%Z then None else Some (mkMeter v (sum / IZR count) sum count).

Inductive meter_op := MUpdate (v : R) (n : Z) | MReset.
Definition meter_step (o : option meter) (op : meter_op) : option meter :=
  match op with
  | MReset => option_map (fun _ => meter_reset) o
  | MUpdate v n => obind o (meter_update v n)
  end.
Definition meter_run (h : list meter_op) : option meter := fold_left meter_step h (Some meter_reset).

(* ------------------------------------------------------------------ *)
(** * [train] (train_util.py 84-158), main process, not QAT *)

(** Weights [W] are abstract; [step i] is [train_func] in epoch [i], [validate] is
    [validate_func], which does not change the model.  [t_file] is [best_model.pth], whatever an
    earlier run left there included.  Distributed training and logging are not modelled. *)
Record tstate (W : Type) := mkTS { t_model : W; t_best : R; t_file : option W }.
Arguments mkTS {W}. Arguments t_model {W}. Arguments t_best {W}. Arguments t_file {W}.
(** one epoch (lines 118-151) *)
Definition train_epoch {W} (step : nat -> W -> W) (validate : W -> R) (st : tstate W) (i : nat) : tstate W :=
  let m := step i (t_model st) in
  let acc := validate m in
  if Rlt_dec (t_best st) acc then mkTS m acc (Some m) else mkTS m (t_best st) (t_file st).
(** the loop and the final load (lines 117-158) *)
Definition train {W} (step : nat -> W -> W) (validate : W -> R) (max_epoch : nat) (m : W) (file : option W) : option W :=
  t_file (fold_left (train_epoch step validate) (seq 0 max_epoch) (mkTS m 0 file)).

(* ------------------------------------------------------------------ *)
(** * [ConvBnTrain] (bn_restore.py 29-44) *)

(** Parameters of the restored batch norm: [weight = running_var ** 0.5], [bias = running_mean]. *)
Definition restored_bn (eps : R) (rm rv : list R) : bn_params := mkBn eps (map sqrt rv) rm rm rv.

(* ------------------------------------------------------------------ *)
(** * [LazyObject.get_next] (util.py 98-120) *)

(** An option: a lazy object with its current object, a lazy expression with its value, or
    any other value. *)
Inductive lopt (V : Type) := LObj (current : V) | LExpr (v : V) | LPlain (v : V).
Arguments LObj {V}. Arguments LExpr {V}. Arguments LPlain {V}.
(** the loop over the positional options (lines 103-109) *)
Definition pos_value {V} (o : lopt V) : V := match o with LObj v => v | LExpr v => v | LPlain v => v end.
(** the loop over the keyword options (lines 111-117): [opt] is the variable of the previous loop,
    unbound without positional options; [get_current] exists on lazy objects only *)
Definition kw_value {V} (opt : option (lopt V)) (o : lopt V) : option V :=
  match o with
  | LObj _ => match opt with Some (LObj v) => Some v | _ => None end
  | LExpr v => Some v
  | LPlain v => Some v
  end.
Fixpoint kw_values {K V} (opt : option (lopt V)) (kw : list (K * lopt V)) : option (list (K * V)) :=
  match kw with
  | [] => Some []
  | (k, o) :: kw' => obind (kw_value opt o) (fun v => obind (kw_values opt kw') (fun r => Some ((k, v) :: r)))
  end.
Fixpoint last_opt {V} (l : list (lopt V)) : option (lopt V) :=
  match l with [] => None | [o] => Some o | _ :: l' => last_opt l' end.
(** the arguments handed to the class (lines 101-119) *)
Definition get_next {K V} (pos : list (lopt V)) (kw : list (K * lopt V)) : option (list V * list (K * V)) :=
  obind (kw_values (last_opt pos) kw) (fun kw' => Some (map pos_value pos, kw')).
