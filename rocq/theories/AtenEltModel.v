(** Model of the lowering of elementwise operators: [elementwise_binary], [torch_tensor_from_scalar],
    [quantize_numpy] and [quantize_scalar_tensor] of tinynn/converter/operators/torch/base.py and the classes of
    tinynn/converter/operators/torch/aten.py cited below.  [None]: Python raises or TFLite refuses the operator.
    Not modelled: both operands constant (nothing is emitted then), widths of integers, pow, atan2. *)
From Coq Require Import List Arith Bool Reals ZArith.
From Flocq Require Import Core BinarySingleNaN.
From Verif Require Import Tensor ConvSpec QuantSpec FuseModel EltSpec.
Import ListNotations.
Local Open Scope R_scope.

(** [torch.promote_types] on the three kinds (base.py 338) *)
Definition promote (a b : dty) : dty :=
  match a, b with DF, _ | _, DF => DF | DI, _ | _, DI => DI | _, _ => DB end.
(** [tensor.to(dtype)], CAST and [torch.tensor([c], dtype)] on numbers *)
Definition cast (d : dty) (v : R) : R :=
  match d with DF => v | DI => IZR (Rtrunc v) | DB => if Req_EM_T v 0 then 0 else 1 end.
Definition dty_eqb (a b : dty) : bool := match a, b with DB, DB | DI, DI | DF, DF => true | _, _ => false end.
(** base.py 339-353: cast an operand that does not have the promoted type *)
Definition to_dty (d r : dty) (x : tensor R) : tensor R := if dty_eqb d r then x else tmap (cast r) x.
(** [elementwise_binary] with [autocast] (base.py 336-361) *)
Definition elementwise_binary (k : kop) (dx : dty) (x : tensor R) (dy : dty) (y : tensor R) : option (tensor R) :=
  let r := promote dx dy in
  if accepts k r then binop (kern k r) (to_dty dx r x) (to_dty dy r y) else None.

(** the operand [other] of the binary operators *)
Inductive operand := OScalar (c : R) | OTensor (d : dty) (y : tensor R).
(** a scalar becomes a tensor of one element of the type of the first operand: ATenAddOperator 2145-2146,
    ATenSubOperator 1294-1295, ATenRsubOperator 1312-1313, ATenMulOperator 1351-1352, ATenDivOperator 1421-1422,
    ATenRemainderOperator 4105-4106, ATenFloorDivideOperator 1858-1859 (aten.py);
    [torch_tensor_from_scalar] (base.py 698-710) for comparisons, maximum and minimum *)
Definition as_tensor (dx : dty) (o : operand) : dty * tensor R :=
  match o with
  | OScalar c => (dx, mkT [1%nat] (fun _ => cast dx c))
  | OTensor d y => (d, y)
  end.
(** the operator and whether the operands are swapped (ATenRsubOperator 1317-1319) *)
Definition kernel_of (op : bop) : kop * bool :=
  match op with
  | BAdd => (KAdd, false) | BSub => (KSub, false) | BRsub => (KSub, true) | BMul => (KMul, false) | BDiv => (KDiv, false)
  | BRem => (KFloorMod, false) | BFloorDiv => (KFloorDiv, false)
  | BMax => (KMax, false) | BMin => (KMin, false)
  | BGt => (KGt, false) | BLt => (KLt, false) | BGe => (KGe, false) | BLe => (KLe, false) | BEq => (KEq, false) | BNe => (KNe, false)
  end.
(** [assert alpha == 1] of add, sub and rsub (aten.py 2143, 1292, 1310) *)
Definition alpha_ok (op : bop) (alpha : R) : bool :=
  match op with BAdd | BSub | BRsub => Reqb alpha 1 | _ => true end.
(** ATenAddOperator 2136-2150, ATenSubOperator 1285-1300, ATenRsubOperator 1303-1321, ATenMulOperator 1343-1356,
    ATenDivOperator 1413-1426, ATenRemainderOperator 4100-4108, ATenMaximumOperator .. ATenLeOperator 4034-4097,
    ATenEqOperator 3760-3768, ATenNeOperator 2393-2401 (aten.py) *)
Definition aten_binary (op : bop) (alpha : R) (dx : dty) (x : tensor R) (o : operand) : option (tensor R) :=
  if alpha_ok op alpha then
    let (dy, y) := as_tensor dx o in
    let (k, swap) := kernel_of op in
    if swap then elementwise_binary k dy y dx x else elementwise_binary k dx x dy y
  else None.
(** ATenFloorDivideOperator (aten.py 1853-1885): the second operand is cast to the type of the first, floats are
    refused afterwards; the test for negative numbers sees only the example values [ex], [ey] *)
Definition aten_floor_divide (dx : dty) (ex ey : bool) (x : tensor R) (o : operand) : option (tensor R) :=
  let (dy, y) := as_tensor dx o in
  let y := to_dty dy dx y in
  match dx with
  | DF => None
  | _ => if ex && ey && accepts KFloorDiv dx then binop (kern KFloorDiv dx) x y else None
  end.

(** ** Clamping.  ATenClampOperator.parse_common (aten.py 2293-2358) on numbers; RELU and RELU6 take no integers *)
Definition aten_clamp (dx : dty) (lo hi : option R) (v : R) : option R :=
  match lo, hi with
  | None, None => None
  | Some l, Some h =>
      if Reqb l 0 && Reqb h 6 then (match dx with DF => Some (relu6 v) | _ => None end)
      else if accepts KMax dx then Some (Rmin (Rmax v (cast dx l)) (cast dx h)) else None
  | Some l, None =>
      if Reqb l 0 then (match dx with DF => Some (Rmax v 0) | _ => None end)
      else if accepts KMax dx then Some (Rmax v (cast dx l)) else None
  | None, Some h => if accepts KMin dx then Some (Rmin v (cast dx h)) else None
  end.
(** ATenHardtanhOperator on numbers (aten.py 1259-1282) *)
Definition aten_hardtanh (dx : dty) (lo hi : R) (v : R) : option R :=
  if Reqb lo 0 && Reqb hi 6 then (match dx with DF => Some (relu6 v) | _ => None end)
  else if accepts KMax dx then Some (Rmin (Rmax v (cast dx lo)) (cast dx hi)) else None.
(** [quantize_numpy] (base.py 287-297) *)
Definition quantize_numpy (tmin tmax : Z) (s : R) (z : Z) (v : R) : Z :=
  let q := rne (v / s + IZR z) in
  let q := if (tmax <? q)%Z then Z.min q tmax else q in
  if (q <? tmin)%Z then Z.max q tmin else q.
(** the same branch on quantized operands: MAXIMUM and MINIMUM compare the stored integers.  The kernels RELU and
    RELU6 on quantized operands: bounds [z] and [z + round (6 / s)] within the type *)
Definition relu_q (z q : Z) : Z := Z.max q z.
Definition relu6_q (tmax : Z) (s : R) (z q : Z) : Z := Z.min (Z.max q z) (Z.min tmax (z + rha (6 / s))).
Definition aten_clamp_q (tmin tmax : Z) (s : R) (z : Z) (lo hi : option R) (q : Z) : option Z :=
  match lo, hi with
  | None, None => None
  | Some l, Some h =>
      if Reqb l 0 && Reqb h 6 then Some (relu6_q tmax s z q)
      else Some (Z.min (Z.max q (quantize_numpy tmin tmax s z l)) (quantize_numpy tmin tmax s z h))
  | Some l, None =>
      if Reqb l 0 then Some (relu_q z q) else Some (Z.max q (quantize_numpy tmin tmax s z l))
  | None, Some h => Some (Z.min q (quantize_numpy tmin tmax s z h))
  end.
(** ATenHardtanhOperator on quantized operands (aten.py 1270-1279): the bounds are not quantized but stored as
    integers of the type; only bounds that fit the type are covered *)
Definition aten_hardtanh_q (tmax : Z) (s : R) (z : Z) (lo hi : R) (q : Z) : Z :=
  if Reqb lo 0 && Reqb hi 6 then relu6_q tmax s z q
  else Z.min (Z.max q (Rtrunc lo)) (Rtrunc hi).

(** ** A scalar as a quantized tensor: [quantize_scalar_tensor] (base.py 675-696); scale, zero point, type bounds.
    [torch.quantize_per_tensor] is [torch_quantize] *)
Inductive qkind := QU8 | QI8 | QI16.
Definition scalar_qparams (k : qkind) (v : R) : R * Z * (Z * Z) :=
  let u8 := (0, 255)%Z in let i8 := (-128, 127)%Z in
  if Reqb v 0 then match k with QI8 => (1 / 2, 0%Z, i8) | _ => (1 / 2, 128%Z, u8) end
  else if Rgtb 0 v then
    match k with QU8 => (- v / 127, 255%Z, u8) | QI8 => (- v / 127, 0%Z, i8) | QI16 => (- v / 127, 128%Z, u8) end
  else
    match k with QU8 => (v / 127, 0%Z, u8) | QI8 => (v / 127, 0%Z, i8) | QI16 => (v / 127, 128%Z, u8) end.
Definition quantize_scalar (k : qkind) (v : R) : R * Z * Z :=
  let '(s, z, (a, b)) := scalar_qparams k v in (s, z, torch_quantize a b s z v).

(** ** Activations put together from several operators *)
(** ATenSoftplusOperator (aten.py 2404-2429): EXP, ADD 1, LOG; [threshold] is not used *)
Definition aten_softplus (beta threshold x : R) : option R :=
  if Reqb beta 1 then Some (ln (exp x + 1)) else None.
(** ATenMishOperator (aten.py 4540-4566) *)
Definition aten_mish (x : R) : R := x * tanh (ln (exp x + 1)).
(** ATenSiluOperator (aten.py 2950-2965) *)
Definition aten_silu (x : R) : R := x * sigmoid x.
(** ATenHardsigmoidOperator (aten.py 2926-2947) *)
Definition aten_hardsigmoid (x : R) : R := relu6 (x + 3) / 6.
(** ATenGeluOperator (aten.py 3608-3651); GELU takes a flag [approximate] (tflite/generated_ops.py) that selects the
    tanh form; [exact] and [approx] are the two forms *)
Definition aten_gelu (exact approx : R -> R) (legacy : bool) (k : gelu_kind) (x : R) : R :=
  if legacy then sigmoid (x * (1702 / 1000)) * x
  else let flag := match k with GNone => true | GTanh => false end in
       if flag then approx x else exact x.

(** ** ATenPreluOperator (aten.py 1752-1790).  [stored]: shape recorded by an earlier PReLU with the same slope and
    channel count (get_transform_store); [const]: the slope is a constant *)
Definition prelu_shape (x : tensor R) : option (list nat) :=
  match tshape x with _ :: c :: r => Some (c :: map (fun _ => 1%nat) r) | _ => None end.
Definition aten_prelu (const : bool) (stored : option (list nat)) (alpha x : tensor R) : option (tensor R) :=
  obind (prelu_shape x) (fun sh =>
  let c := nth 0 sh 0%nat in
  if (prod (tshape alpha) =? c)%nat then binop prelu_kernel x (reshape sh alpha)
  else if const then
    let sh' := match stored with Some s => s | None => sh end in
    (* np.tile of an array with one axis: leading axes of size one are put in front *)
    binop prelu_kernel x (tile sh' (reshape (map (fun _ => 1%nat) (tl sh') ++ tshape alpha) alpha))
  else if (length sh =? length (tshape alpha))%nat then binop prelu_kernel x (tile sh alpha) else None).

(** ** ATenMaskedFillOperator.parse_common (aten.py 3925-4031), also used by ATenWhereOperator (4111-4121), float32:
    [x * (1 - mask) + v * mask].  A scalar, or a constant tensor of another type, is clipped to the finite range;
    a tensor of the same type is taken as it is. *)
Inductive fill_value := FScalar (c : f32) | FCastConst (t : tensor f32) | FSame (t : tensor f32).
Definition clip_inf (c : f32) : f32 :=
  match c with B754_infinity false => fmax | B754_infinity true => Bopp fmax | _ => c end.
Definition fill_tensor (v : fill_value) : tensor f32 :=
  match v with
  | FScalar c => mkT [1%nat] (fun _ => clip_inf c)
  | FCastConst t => tmap clip_inf t
  | FSame t => t
  end.
Definition mask_f (b : bool) : f32 := if b then fone else fzero.
Definition aten_masked_fill (x : tensor f32) (m : tensor bool) (v : fill_value) : option (tensor f32) :=
  let im := tmap mask_f m in
  obind (binop fmul (fill_tensor v) im) (fun masked =>
  obind (binop fsub (mkT [1%nat] (fun _ => fone)) im) (fun rev_mask =>
  obind (binop fmul x rev_mask) (fun non_masked =>
  binop fadd non_masked masked))).
