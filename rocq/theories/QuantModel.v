(** Model of the quantization arithmetic of the converter and of the quantizer:
    storing quantized tensors, changing the type of the model boundary, hybrid weight
    quantization, TFLite-like fake quantization, KL calibration.

    Stored integers are [Z] with explicit wrap-around, scales and weights are reals
    (float rounding of scales and products is not modelled). *)
From Coq Require Import List Arith ZArith Bool Reals.
From Verif Require Import Tensor ConvSpec QuantSpec FuseModel.
Import ListNotations.
Local Open Scope R_scope.

(* ------------------------------------------------------------------ *)
(** * Storing a quantized tensor *)

(** [tensor.dtype] (tflite/base.py 202, 226): the two quantized torch types. *)
Inductive src8 := QUInt8 | QInt8.

(** [Tensor.__init__] on a quantized torch tensor (tflite/base.py 202-256): stored type,
    parameters and integers.  [qt] is [q_type].  [None]: torch raises ([q_scale] of a
    per-channel tensor) or an assertion fails. *)
Definition store (src : src8) (asym : bool) (qt : ity) (p : tqpar) (t : tensor Z) : option (ity * qpar * tensor Z) :=
  match src with
  | QUInt8 =>
      match p with
      | TPerChannel _ _ _ => None
      | TPerTensor s z =>
          if ity_eqb qt U8 then Some (U8, PerTensor s z, t)
          else
            let off := if asym then z else 128%Z in
            let t1 := tmap (fun v => wrap S8 (v - 128)) t in
            if ity_eqb qt S16
            then Some (S16, PerTensor (s * 256 / 65536) (off - 128),
                       tmap (fun v => wrap S16 (rne (IZR v / 256 * 65536))) t1)
            else Some (S8, PerTensor s (off - 128), t1)
      end
  | QInt8 =>
      if ity_eqb qt U8
      then
        match p with
        | TPerChannel _ _ _ => None
        | TPerTensor s z =>
            if asym && negb (z =? 0)%Z then None
            else
              let off := if asym then 0%Z else z in
              Some (U8, PerTensor s (off + 128), tmap (fun v => wrap U8 (wrap U8 v + 128)) t)
        end
      else
        match p with
        | TPerTensor s z => Some (S8, PerTensor s z, t)
        | TPerChannel s z ax =>
            let dim := (if ax <? 0 then ax + Z.of_nat (length (tshape t)) else ax)%Z in
            if forallb (fun v => (v =? 0)%Z) z then Some (S8, PerChannel s z (Z.to_nat dim), t) else None
        end
  end.

(* ------------------------------------------------------------------ *)
(** * Changing the quantized type of model inputs and outputs *)

(** A boundary tensor of the converted graph: [dtype], [quantization], [tensor]
    (read in optimize.py 3083-3090, 3122-3140).  [bt_ty = None]: a type that is not an
    8/16-bit integer. *)
Record btensor := mkBT { bt_ty : option ity; bt_par : option qpar; bt_val : tensor Z }.

(** The re-encoding of one boundary tensor (optimize.py 3090-3103, 3140-3151): [None] when
    the code raises (unsupported pair of types, no quantization, per-channel zero points). *)
Definition retype (target : ity) (b : btensor) : option btensor :=
  match bt_ty b, target, bt_par b with
  | Some S8, U8, Some (PerTensor s z) =>
      Some (mkBT (Some U8) (Some (PerTensor s (z + 128))) (tmap (fun v => wrap U8 (v + 128)) (bt_val b)))
  | Some U8, S8, Some (PerTensor s z) =>
      Some (mkBT (Some S8) (Some (PerTensor s (z - 128))) (tmap (fun v => wrap S8 (v - 128)) (bt_val b)))
  | _, _, _ => None
  end.

Definition selected (idx : option (list nat)) (i : nat) : bool :=
  match idx with None => true | Some l => existsb (Nat.eqb i) l end.
Definition ty_is (target : ity) (b : btensor) : bool :=
  match bt_ty b with Some t => ity_eqb t target | None => false end.

(** Input loop (optimize.py 3074-3124): per model input the boundary tensor and, when it
    was changed, the tensor with the old encoding that a QUANTIZE operator computes from
    it for all consumers. *)
Fixpoint override_inputs (target : ity) (fuse : option (list nat)) (i : nat) (ins : list btensor)
  : option (list (btensor * option btensor)) :=
  match ins with
  | [] => Some []
  | b :: ins' =>
      obind (if negb (selected fuse i) then Some (b, None)
             else if ty_is target b then Some (b, None)
             else obind (retype target b) (fun b' => Some (b', Some b))) (fun r =>
      obind (override_inputs target fuse (S i) ins') (fun rs => Some (r :: rs)))
  end.

(** Output loop (optimize.py 3126-3160): [output_mapping] from output names to the new
    tensors, computed by a QUANTIZE operator from the old output tensor. *)
Fixpoint output_mapping (target : ity) (fuse : option (list nat)) (tmap_ : nat -> btensor) (i : nat)
  (outs : list nat) : option (list (nat * btensor)) :=
  match outs with
  | [] => Some []
  | n :: outs' =>
      obind (if negb (selected fuse i) then Some []
             else if ty_is target (tmap_ n) then Some []
             else obind (retype target (tmap_ n)) (fun b' => Some [(n, b')])) (fun r =>
      obind (output_mapping target fuse tmap_ (S i) outs') (fun rs => Some (r ++ rs)))
  end.
Fixpoint lookup_last {A} (n : nat) (m : list (nat * A)) : option A :=
  match m with
  | [] => None
  | (k, v) :: m' => match lookup_last n m' with Some r => Some r | None => if (k =? n)%nat then Some v else None end
  end.
(** [new_outputs] (optimize.py 3162-3175): every occurrence of a mapped name is replaced. *)
Definition override_outputs (target : ity) (fuse : option (list nat)) (tmap_ : nat -> btensor) (outs : list nat)
  : option (list (btensor * option btensor)) :=
  obind (output_mapping target fuse tmap_ 0 outs) (fun m =>
  Some (map (fun n => match lookup_last n m with
                      | Some b' => (b', Some (tmap_ n))
                      | None => (tmap_ n, None)
                      end) outs)).

(* ------------------------------------------------------------------ *)
(** * Hybrid quantization *)

(** [torch.amin], [torch.amax] over a list of elements; they raise on no elements
    (hybrid_quantizer.py 228-230). *)
Definition lmax (l : list R) : option R :=
  match l with [] => None | a :: l' => Some (fold_left Rmax l' a) end.
Definition lmin (l : list R) : option R :=
  match l with [] => None | a :: l' => Some (fold_left Rmin l' a) end.

(** [torch.finfo(torch.float32).eps] (hybrid_quantizer.py 251). *)
Definition f32_eps : R := / 8388608.

(** Scale of the elements [l] (hybrid_quantizer.py 245-255 with quant_min, quant_max = -127, 127,
    the [qint8] case, the only one the callers use). *)
Definition sym_scale (l : list R) : option R :=
  obind (lmin l) (fun mn => obind (lmax l) (fun mx =>
  let min_val_neg := Rmin mn 0 in
  let max_val_pos := Rmax mx 0 in
  let max_val_pos := Rmax (- min_val_neg) max_val_pos in
  Some (Rmax (max_val_pos / ((127 - -127) / 2)) f32_eps))).

(** all elements, and the elements of one channel *)
Definition elements (w : tensor R) : list R := map (tget w) (indices (tshape w)).
Definition channel_elements (w : tensor R) (ax c : nat) : list R :=
  map (tget w) (filter (fun idx => (nth ax idx 0 =? c)%nat) (indices (tshape w))).

Fixpoint oall {A} (l : list (option A)) : option (list A) :=
  match l with
  | [] => Some []
  | a :: l' => obind a (fun a => obind (oall l') (fun r => Some (a :: r)))
  end.

(** [quantize] (hybrid_quantizer.py 210-264) up to the quantized torch tensor; [axis = None]
    is [per_tensor_symmetric].  [torch.quantize_per_*] clamp to the range of int8. *)
Definition hquantize (w : tensor R) (axis : option Z) : option (tqpar * tensor Z) :=
  match axis with
  | None =>
      obind (sym_scale (elements w)) (fun s =>
      Some (TPerTensor s 0, tmap (torch_quant (-128) 127 s 0) w))
  | Some ax0 =>
      let ax := (if ax0 <? 0 then ax0 + Z.of_nat (length (tshape w)) else ax0)%Z in
      if ((ax <? 0) || (Z.of_nat (length (tshape w)) <=? ax))%Z then None
      else
        let a := Z.to_nat ax in
        obind (oall (map (fun c => sym_scale (channel_elements w a c)) (seq 0 (nth a (tshape w) 0%nat)))) (fun ss =>
        Some (TPerChannel ss (map (fun _ => 0%Z) ss) ax,
              mkT (tshape w) (fun idx => torch_quant (-128) 127 (nth (nth a idx 0%nat) ss 0) 0 (tget w idx))))
  end.

(** [quantize(...)] with its last line: the tensor is stored with [asymmetric = True], the
    default (hybrid_quantizer.py 264). *)
Definition hybrid_weight (qt : ity) (w : tensor R) (axis : option Z) : option (ity * qpar * tensor Z) :=
  obind (hquantize w axis) (fun pq => store QInt8 true qt (fst pq) (snd pq)).

(** The uint8 case (hybrid_quantizer.py 168-170, tflite/base.py 279-281): stored as int8, then
    the bytes are reinterpreted as unsigned. *)
Definition hybrid_weight_u8 (w : tensor R) : option (ity * qpar * tensor Z) :=
  obind (hybrid_weight S8 w None) (fun r => let '(_, p, t) := r in Some (U8, p, tmap (wrap U8) t)).

(** [torch.round(bias / bias_scale)] with [bias_scale = weight.scale * input.scale] for the
    LSTM bias (hybrid_quantizer.py 79-81); the int32 conversion is taken without overflow. *)
Definition lstm_bias (ws xs : R) (b : list R) : R * list Z :=
  let s := ws * xs in (s, map (fun v => rne (v / s)) b).

(** [np.ceil(np.log2(x))] (hybrid_quantizer.py 100). *)
Definition ceil_log2 (x : R) : Z := (- Int_part (- (ln x / ln 2)))%Z.
(** Scale of the 16-bit cell state (hybrid_quantizer.py 96-101); the zero point is 0. *)
Definition cell_abs_max (s : R) (z : Z) : R := Rmax (Rabs (s * IZR (127 - z))) (Rabs (s * IZR (-128 - z))).
Definition cell_scale (s : R) (z : Z) : R :=
  powerRZ 2 (Z.max (ceil_log2 (cell_abs_max s z)) 0) / 32768.

(* ------------------------------------------------------------------ *)
(** * Fake quantization with the rounding of TFLite *)

(** State of a fake-quantize module: the two switches, scale (one element, or one per
    channel) and zero points, and the tensors its observer has seen. *)
Record fqmod := mkFQ { fq_obs : bool; fq_on : bool; fq_scale : tensor R; fq_zero : list Z;
                       fq_seen : list (tensor R) }.
Definition set_obs (v : bool) (m : fqmod) := mkFQ v (fq_on m) (fq_scale m) (fq_zero m) (fq_seen m).
Definition set_fq (v : bool) (m : fqmod) := mkFQ (fq_obs m) v (fq_scale m) (fq_zero m) (fq_seen m).

Definition rsign (x : R) : R := if Rlt_dec 0 x then 1 else if Rlt_dec x 0 then -1 else 0.

Section FakeQuant.
  (** [calculate_qparams] of the observer after the tensors seen, and the configuration of
      the module: per-channel axis or none, integer range. *)
  Variable qparams : list (tensor R) -> tensor R * list Z.
  Variable ch_axis : option nat.
  Variables qlo qhi : Z.

  (** [torch.quantization.FakeQuantize.forward] (torch library, called in fake_quantize.py 40, 50). *)
  Definition super_forward (m : fqmod) (X : tensor R) : option (fqmod * tensor R) :=
    let m := if fq_obs m
             then let seen := fq_seen m ++ [X] in
                  let (s, z) := qparams seen in mkFQ (fq_obs m) (fq_on m) s z seen
             else m in
    if fq_on m then
      match ch_axis with
      | None => Some (m, tmap (torch_fake_quant qlo qhi (tget (fq_scale m) [0%nat]) (nth 0 (fq_zero m) 0%Z)) X)
      | Some ax =>
          if (length (fq_zero m) =? nth ax (tshape X) 0)%nat && (ax <? length (tshape X))%nat
          then Some (m, mkT (tshape X) (fun idx =>
                 let c := nth ax idx 0%nat in
                 torch_fake_quant qlo qhi (tget (fq_scale m) [c]) (nth c (fq_zero m) 0%Z) (tget X idx)))
          else None
      end
    else Some (m, X).

  (** [X + self.scale * 1e-6 * torch.sign(X)] with broadcasting (fake_quantize.py 49). *)
  Definition nudge (s X : tensor R) : option (tensor R) :=
    obind (binop (fun a b => a * (1 / 1000000) * b) s (tmap rsign X)) (fun d => binop Rplus X d).

  (** [FakeQuantizeTFLite.forward] (fake_quantize.py 32-55). *)
  Definition tflite_forward (m : fqmod) (X : tensor R) : option (fqmod * tensor R) :=
    let observer_enabled := fq_obs m in
    let fake_quant_enabled := fq_on m in
    obind (if observer_enabled
           then obind (super_forward (if fake_quant_enabled then set_fq false m else m) X) (fun r =>
                Some (if fake_quant_enabled then set_fq true (fst r) else fst r, snd r))
           else Some (m, X)) (fun r =>
    if fake_quant_enabled
    then let m := if observer_enabled then set_obs false (fst r) else fst r in
         obind (nudge (fq_scale m) (snd r)) (fun X' =>
         obind (super_forward m X') (fun r =>
         Some (if observer_enabled then set_obs true (fst r) else fst r, snd r)))
    else Some r).
End FakeQuant.

(* ------------------------------------------------------------------ *)
(** * KL calibration: the search *)

(** A float result of the divergence computation. *)
Inductive fl := FNan | FInf (neg : bool) | FNum (r : R).
(** [a < b] on floats. *)
Definition flt (a b : fl) : bool :=
  match a, b with
  | FNan, _ | _, FNan => false
  | FInf true, FInf true => false
  | FInf true, _ => true
  | FInf false, _ => false
  | FNum _, FInf neg => negb neg
  | FNum x, FNum y => if Rlt_dec x y then true else false
  end.
(** [a != 1.0]. *)
Definition fne1 (a : fl) : bool := match a with FNum x => if Req_EM_T x 1 then false else true | _ => true end.

(** [target_bin_numbers] and the bin count handed over by the first search (observer.py 52, 142). *)
Definition target_bins : nat := Z.to_nat 128.
Definition first_bins : nat := Z.to_nat 2048.

(** [_compute_threshold] (observer.py 40-128): [kl i] is the divergence computed for the
    candidate threshold [i] (lines 65-122), [size] the number of bins handed over.  [None]:
    [candidate_dis[i - 1]] or [distribution[i]] (lines 68-70) is out of range. *)
Definition kl_step (kl : nat -> fl) (acc : nat * fl) (i : nat) : nat * fl :=
  if flt (kl i) (snd acc) && fne1 (kl i) then (i, kl i) else acc.
Definition compute_threshold (size : nat) (kl : nat -> fl) (m_bin_number : nat) : option nat :=
  let range := seq target_bins (m_bin_number + 1 - target_bins) in
  if forallb (fun i => (i - 1 <? size)%nat && ((i =? m_bin_number)%nat || (i <? size)%nat)) range
  then Some (fst (fold_left (kl_step kl) range (target_bins, FInf false)))
  else None.

(** [_non_linear_param_search] (observer.py 130-151): [kl1], [kl2 right] are the divergences of
    the two searches. *)
Definition kl_range (min_val max_val : R) (bins : nat) (kl1 : nat -> fl) (kl2 : nat -> nat -> fl) : option (R * R) :=
  let bin_width := (max_val - min_val) / INR bins in
  obind (compute_threshold bins kl1 first_bins) (fun right =>
  let size := Nat.min right bins in
  obind (compute_threshold size (kl2 right) size) (fun left_ =>
  let left := (Z.of_nat right - Z.of_nat left_)%Z in
  Some (min_val + bin_width * IZR left, min_val + bin_width * INR right))).
