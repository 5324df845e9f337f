(** Model of the passes that move QUANTIZE and DEQUANTIZE through operators and remove pairs of them
    (tinynn/converter/operators/optimize.py).

    Simplified: one node at a time (the pass visits the nodes in the arbitrary order of a set and collects the edits);
    tensors are quantized as a whole; scales are reals; the 16 bit LSTM ([with_lstm]) is off; every operator has one
    output, as all the listed ones do; data operands only (the axes of a SUM are constants of the operator).  An
    exception is [None]. *)
From Coq Require Import List Arith ZArith Bool Reals.
From Verif Require Import Tensor ConvSpec QuantSpec FuseModel EltSpec PassQuantSpec.
Import ListNotations.
Local Open Scope R_scope.

(** [op_input_indices] (optimize.py 4361-4380) for the operators of [is_quantizable_rewrite_op] (3971-3982) *)
Definition is_one (sh : list nat) : bool := match sh with [1%nat] => true | _ => false end.
Definition input_indices (k : kind) (ins : list opnd) : list nat :=
  match k with
  | KBatchMatmul | KMaximum | KMinimum => [0; 1]%nat
  | KDiv => match ins with
            | [a; b] => if is_one (o_shape b) then [0]%nat else if is_one (o_shape a) then [1]%nat else [0; 1]%nat
            | _ => [0; 1]%nat
            end
  | _ => [0]%nat
  end.

(** Quantization of the constant of a MINIMUM or MAXIMUM (optimize.py 1634-1646) *)
Definition quantize_const (q : qinfo) (c : tensor R) : tensor Z :=
  mkT (tshape c) (fun idx =>
    let v := rne (tget c idx / qi_s q + IZR (qi_z q)) in
    let v := if (ity_hi (qi_ty q) <? v)%Z then ity_hi (qi_ty q) else v in
    if (v <? ity_lo (qi_ty q))%Z then ity_lo (qi_ty q) else v).

(** The loop over the operands (optimize.py 1617-1652).  A constant operand other than the first of a comparison is
    quantized with the parameters of the first operand, which is looked up among the dequantized ones. *)
Definition quantize_consts (k : kind) (ins : list opnd) : option (list opnd) :=
  match k with
  | KMaximum | KMinimum =>
      match ins with
      | [a; b] => match o_src b with
                  | SConst c => match o_src a with
                                | SDeq q => Some [a; mkO (o_name b) (o_shape b) (SMapped q (quantize_const q c))]
                                | _ => None                                             (* 1635: KeyError *)
                                end
                  | _ => Some ins
                  end
      | _ => None
      end
  | _ => Some ins
  end.

Definition far (s c : R) : bool := dec2b (Rlt_dec (1 / 1000 * c) (Rabs (s - c))).
(** the conditions on the parameters of the QUANTIZE behind the node (optimize.py 1674-1715); [true]: not usable *)
Definition skip_quant (k : kind) (q : qinfo) : bool :=
  match k with
  | KBatchMatmul | KAbs | KRsqrt => negb (ity_eqb (qi_ty q) S8 || ity_eqb (qi_ty q) S16)
  | KDiv => negb (ity_eqb (qi_ty q) U8)
  | KSoftmax => match qi_ty q with
                | S8 => far (qi_s q) (1 / 256) || negb (qi_z q =? -128)%Z
                | S16 => far (qi_s q) (1 / 32768) || negb (qi_z q =? 0)%Z
                | U8 => false
                end
  | KLogSoftmax => match qi_ty q with
                   | S8 => negb (Reqb (qi_s q) (16 / 256)) || negb (qi_z q =? 127)%Z
                   | U8 => negb (Reqb (qi_s q) (16 / 256)) || negb (qi_z q =? 255)%Z
                   | S16 => true
                   end
  | _ => false
  end.

(** what an operand becomes: behind a new QUANTIZE, a quantized constant, or unchanged *)
Inductive newop := NQuant (q : qinfo) | NConst (q : qinfo) (c : tensor Z) | NKeep.

(** the names of the dequantized operands, without repetition (the keys of [q_tensors]) *)
Definition deq_names (ins : list opnd) : list nat :=
  nodup Nat.eq_dec (concat (map (fun o => match o_src o with SDeq _ => [o_name o] | _ => [] end) ins)).
Definition mapped (o : opnd) : bool := match o_src o with SMapped _ _ => true | _ => false end.
(** the entry that the QUANTIZE nodes leave in [q_tensors] under the name of the output: the last one that is usable *)
Definition out_entry (k : kind) (outs : list reader) : option qinfo :=
  fold_left (fun e r => match r with
                        | RQuant q => if skip_quant k q then e else Some q
                        | _ => e
                        end) outs None.
Definition is_output (r : reader) : bool := match r with ROutput => true | _ => false end.

(** the new operand of an indexed one (optimize.py 1733-1757); [None]: no entry in [q_tensors] *)
Definition new_operand (o : opnd) : option newop :=
  match o_src o with
  | SMapped q c => Some (NConst q c)
  | SDeq q => Some (NQuant q)
  | _ => None
  end.
Fixpoint new_operands (ix : list nat) (i : nat) (ins : list opnd) : option (list newop) :=
  match ins with
  | [] => Some []
  | o :: r =>
      obind (if existsb (Nat.eqb i) ix then new_operand o else Some NKeep) (fun a =>
      obind (new_operands ix (S i) r) (fun l => Some (a :: l)))
  end.

(** [elementwise_op_quantize_passthrough_pass] (optimize.py 1596-1791) for one selected node.  [Some None]: the node is
    left alone; otherwise its new operands and the parameters of its output, which is dequantized for all readers. *)
Definition passthrough (n : qnode) : option (option (list newop * qinfo)) :=
  let k := n_kind n in
  obind (quantize_consts k (n_ins n)) (fun ins =>
  let ix := input_indices k ins in
  let data := concat (map (fun i => match nth_error ins i with Some o => [o] | None => [] end) ix) in
  let next := filter (fun r => negb (is_output r)) (n_outs n) in                          (* 1660-1664 *)
  let entry := out_entry k (n_outs n) in
  let cur := (length (deq_names data) + match entry with Some _ => 1 | None => 0 end)%nat in  (* 1720 *)
  let new := (length data + length next)%nat in
  let skipped := length (filter mapped data) in
  if ((length next =? 0) || (cur <? new - skipped))%nat then Some None                      (* 1724 *)
  else
    obind (new_operands ix 0 ins) (fun l =>
    obind entry (fun q => Some (Some (l, q))))).

(** The node after the edit: the operands of the quantized kernel *)
Definition new_value (xs : nat -> tensor Z) (fs : nat -> tensor R) (o : opnd) (a : newop) : value :=
  match a with
  | NQuant q => VQ q (quant_t q (fvalue xs fs o))
  | NConst q c => VQ q c
  | NKeep => VF (fvalue xs fs o)
  end.
Definition new_values (xs : nat -> tensor Z) (fs : nat -> tensor R) (ins : list opnd) (l : list newop) : list value :=
  map (fun oa => new_value xs fs (fst oa) (snd oa)) (combine ins l).
(** what the readers of the node get after the edit: the dequantized result of the kernel *)
Definition new_result (f : list (tensor R) -> option (tensor R)) (n : qnode) (l : list newop) (q : qinfo)
  (xs : nat -> tensor Z) (fs : nat -> tensor R) : option (tensor R) :=
  option_map (deq_t q) (tfl_kernel (n_kind n) f q (new_values xs fs (n_ins n) l)).

(** [fuse_dequant_quant_pass] (optimize.py 836-904): the chain is cut to start and end with the right operators *)
Definition is_quant (s : qstep) : bool := match s with Quant _ _ => true | Deq _ => false end.
Definition trim (q_first : bool) (c : list qstep) : list qstep * list qstep * list qstep :=
  let '(pre, c) := match c with
                   | s :: c' => if Bool.eqb (is_quant s) q_first then ([], c) else ([s], c')
                   | [] => ([], [])
                   end in
  match rev c with
  | s :: r => if Bool.eqb (is_quant s) q_first then (pre, rev r, [s]) else (pre, c, [])
  | [] => (pre, c, [])
  end.
(** parameters of the input of a step and of its output *)
Definition step_in (s : qstep) : option qinfo := match s with Deq q => Some q | Quant p _ => p end.
Definition step_out (s : qstep) : option qinfo := match s with Deq _ => None | Quant _ q => Some q end.
(** what is left of the cut chain (optimize.py 871-904 with [elinimate_sequences], which removes all nodes but the first;
    that the removal is skipped between inputs and outputs of the graph is not modelled); [None]: AssertionError *)
Definition fuse_cut (c : list qstep) : option (list qstep) :=
  match c, rev c with
  | Deq p :: _, Quant _ q :: _ =>
      Some (if Reqb (qi_s q) (qi_s p) && (qi_z q =? qi_z p)%Z then [] else [Quant (Some p) q])
  | s :: _, t :: _ => match step_out t, step_in s with None, None => Some [] | _, _ => None end
  | _, _ => Some []
  end.
Definition fuse_dequant_quant (q_first : bool) (c : list qstep) : option (list qstep) :=
  let '(pre, c', post) := trim q_first c in
  if (length c' <? 2)%nat then Some c
  else obind (fuse_cut c') (fun r => Some (pre ++ r ++ post)).
