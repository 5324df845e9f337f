(** Meaning of quantized and float operators around QUANTIZE and DEQUANTIZE.

    Specification side: follows the documented semantics of the TFLite kernels and does not cite code of the project.
    The kernels are taken as exact: the integer result is the real result on the denoted operands, rounded once. *)
From Coq Require Import List Arith ZArith Bool Reals.
From Verif Require Import Tensor ConvSpec QuantSpec.
Import ListNotations.
Local Open Scope R_scope.

(** type, scale and zero point of a tensor quantized as a whole *)
Record qinfo := mkQI { qi_ty : ity; qi_s : R; qi_z : Z }.
Definition deq_t (q : qinfo) (t : tensor Z) : tensor R :=
  mkT (tshape t) (fun idx => qi_s q * IZR (tget t idx - qi_z q)).
Definition quant_t (q : qinfo) (t : tensor R) : tensor Z :=
  mkT (tshape t) (fun idx => tflite_quant (ity_lo (qi_ty q)) (ity_hi (qi_ty q)) (qi_s q) (qi_z q) (tget t idx)).
(** a positive scale and, in a tensor, only integers of the type *)
Definition scaled (q : qinfo) : Prop := 0 < qi_s q.
Definition stored (q : qinfo) (t : tensor Z) : Prop := forall idx, valid (tshape t) idx -> in_ity (qi_ty q) (tget t idx).

(** operators that have kernels for floats and for integers *)
Inductive kind := KBatchMatmul | KSoftmax | KLogSoftmax | KAbs | KSum | KDiv | KRsqrt | KMaximum | KMinimum.
(** float meaning; [f] is that of the operators other than the two comparisons *)
Definition fmeaning (k : kind) (f : list (tensor R) -> option (tensor R)) (ins : list (tensor R)) : option (tensor R) :=
  match k, ins with
  | KMaximum, [x; y] => binop Rmax x y
  | KMinimum, [x; y] => binop Rmin x y
  | KMaximum, _ | KMinimum, _ => None
  | _, _ => f ins
  end.

(** output parameters for which TFLite has a quantized kernel *)
Definition near (s c : R) : Prop := Rabs (s - c) <= 1 / 1000 * c.
Definition supported (k : kind) (q : qinfo) : Prop :=
  match k with
  | KBatchMatmul | KAbs | KRsqrt => qi_ty q = S8 \/ qi_ty q = S16
  | KDiv => qi_ty q = U8
  | KSoftmax => match qi_ty q with
                | S8 => near (qi_s q) (1 / 256) /\ qi_z q = (-128)%Z
                | S16 => near (qi_s q) (1 / 32768) /\ qi_z q = 0%Z
                | U8 => True
                end
  | KLogSoftmax => match qi_ty q with
                   | S8 => qi_s q = 16 / 256 /\ qi_z q = 127%Z
                   | U8 => qi_s q = 16 / 256 /\ qi_z q = 255%Z
                   | S16 => False
                   end
  | KSum | KMaximum | KMinimum => True
  end.

(** an operand is a float tensor or a quantized one *)
Inductive value := VF (t : tensor R) | VQ (q : qinfo) (t : tensor Z).
Fixpoint all_q (ty : ity) (l : list value) : option (list (qinfo * tensor Z)) :=
  match l with
  | [] => Some []
  | VQ q t :: l' => if ity_eqb (qi_ty q) ty then option_map (cons (q, t)) (all_q ty l') else None
  | VF _ :: _ => None
  end.
(** The quantized kernel: every operand has the type of the output, otherwise the model is rejected.  The two
    comparisons compare the stored integers. *)
Definition tfl_kernel (k : kind) (f : list (tensor R) -> option (tensor R)) (out : qinfo) (ins : list value)
  : option (tensor Z) :=
  match all_q (qi_ty out) ins with
  | None => None
  | Some l =>
      match k, l with
      | KMaximum, [x; y] => binop Z.max (snd x) (snd y)
      | KMinimum, [x; y] => binop Z.min (snd x) (snd y)
      | KMaximum, _ | KMinimum, _ => None
      | _, _ => option_map (quant_t out) (f (map (fun x => deq_t (fst x) (snd x)) l))
      end
  end.
(** functions of tensors that do not look outside of their operands *)
Definition respects (f : list (tensor R) -> option (tensor R)) : Prop :=
  forall l m, Forall2 teq l m ->
    match f l, f m with Some a, Some b => teq a b | None, None => True | _, _ => False end.

(** A node of the graph: where its operands come from and what reads its result *)
Inductive source :=
  | SDeq (q : qinfo)                    (* DEQUANTIZE of a tensor with these parameters *)
  | SConst (c : tensor R)               (* float constant *)
  | SMapped (q : qinfo) (c : tensor Z)  (* float constant that is known to denote a quantized one *)
  | SOther.                             (* anything else *)
Record opnd := mkO { o_name : nat; o_shape : list nat; o_src : source }.
Inductive reader := RQuant (q : qinfo) | ROther | ROutput.
Record qnode := mkN { n_kind : kind; n_ins : list opnd; n_outs : list reader }.

(** float value of an operand; [xs]: the integers below a DEQUANTIZE, [fs]: other tensors, by name *)
Definition fvalue (xs : nat -> tensor Z) (fs : nat -> tensor R) (o : opnd) : tensor R :=
  match o_src o with
  | SDeq q => deq_t q (xs (o_name o))
  | SConst c => c
  | SMapped q c => deq_t q c
  | SOther => fs (o_name o)
  end.
(** result of the float node *)
Definition float_result (f : list (tensor R) -> option (tensor R)) (n : qnode) (xs : nat -> tensor Z) (fs : nat -> tensor R)
  : option (tensor R) := fmeaning (n_kind n) f (map (fvalue xs fs) (n_ins n)).
(** the integers below DEQUANTIZE nodes fit their types, their scales are positive *)
Definition stored_ins (n : qnode) (xs : nat -> tensor Z) : Prop :=
  forall o, In o (n_ins n) ->
    match o_src o with
    | SDeq q => scaled q /\ stored q (xs (o_name o))
    | SMapped q c => scaled q /\ stored q c
    | _ => True
    end.

(** Chains of QUANTIZE and DEQUANTIZE.  A QUANTIZE reads a float tensor or, with [Some p], one with parameters [p]. *)
Inductive qstep := Deq (q : qinfo) | Quant (src : option qinfo) (q : qinfo).
Definition step_value (st : qstep) (v : value) : option value :=
  match st, v with
  | Deq q, VQ _ t => Some (VF (deq_t q t))
  | Quant None q, VF t => Some (VQ q (quant_t q t))
  | Quant (Some p) q, VQ _ t =>
      Some (VQ q (mkT (tshape t) (fun idx => requantize (qi_ty q) (qi_s p) (qi_z p) (qi_s q) (qi_z q) (tget t idx))))
  | _, _ => None
  end.
Fixpoint chain_value (c : list qstep) (v : value) : option value :=
  match c with
  | [] => Some v
  | st :: c' => match step_value st v with Some w => chain_value c' w | None => None end
  end.
(** the same tensor: floats, or integers (whose type is that of the parameters) *)
Definition same_value (v w : value) : Prop :=
  match v, w with
  | VF a, VF b => teq a b
  | VQ p a, VQ q b => p = q /\ teq a b
  | _, _ => False
  end.
(** the second operand of a comparison is a constant, the first is not dequantized *)
Definition stuck (n : qnode) : Prop :=
  (n_kind n = KMaximum \/ n_kind n = KMinimum) /\
  exists a b c, n_ins n = [a; b] /\ o_src b = SConst c /\ forall q, o_src a <> SDeq q.
(** comparisons have two operands *)
Definition two_operands (n : qnode) : Prop := n_kind n = KMaximum \/ n_kind n = KMinimum -> length (n_ins n) = 2%nat.
(** every data operand is looked at *)
Definition covered (n : qnode) : Prop :=
  match n_kind n, n_ins n with
  | (KBatchMatmul | KMaximum | KMinimum), [_; _] => True
  | KDiv, [a; b] => o_shape a <> [1%nat] /\ o_shape b <> [1%nat]
  | (KSoftmax | KLogSoftmax | KAbs | KSum | KRsqrt), [_] => True
  | _, _ => False
  end.
(** all quantized operands have the type of the result *)
Definition one_type (n : qnode) (ty : ity) : Prop :=
  forall o, In o (n_ins n) -> match o_src o with SDeq p | SMapped p _ => qi_ty p = ty | _ => True end.
Definition comparison (k : kind) : Prop := k = KMaximum \/ k = KMinimum.
(** a constant that is not halfway between two steps *)
Definition no_tie (q : qinfo) (c : tensor R) : Prop :=
  forall idx, valid (tshape c) idx -> forall k, tget c idx / qi_s q <> IZR k + 1 / 2.
(** integer tensors of one shape that differ by at most [d] *)
Definition within (d : Z) (t u : tensor Z) : Prop :=
  tshape t = tshape u /\ forall idx, valid (tshape t) idx -> (Z.abs (tget t idx - tget u idx) <= d)%Z.
(** the parameters of an operand are those of the result *)
Definition same_params (q : qinfo) (o : opnd) : Prop :=
  match o_src o with SDeq p | SMapped p _ => p = q | SConst _ => True | SOther => False end.
(** what may stand before and after the pairs in a maximal chain *)
Definition before_ok (p : qinfo) (pre : list qstep) : Prop := pre = [] \/ exists s, pre = [Quant s p].
Definition after_ok (q : qinfo) (post : list qstep) : Prop := post = [] \/ post = [Deq q].
Definition start_ok (p : qinfo) (pre : list qstep) (v : value) : Prop :=
  pre = [] -> exists t, v = VQ p t /\ stored p t.
(** [n] pairs with the same parameters *)
Fixpoint pairs (n : nat) (q : qinfo) : list qstep :=
  match n with O => [] | S n' => Deq q :: Quant None q :: pairs n' q end.
