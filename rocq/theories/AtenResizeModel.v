(** Model of the lowering of padding and resampling: the classes ATenConstantPadNdOperator, ATenPadOperator,
    ATenReflectionPad1dOperator, ATenReflectionPad2dOperator, ATenUpsampleNearest2dOperator and
    ATenUpsampleBilinear2dOperator of tinynn/converter/operators/torch/aten.py.  Operands are not quantized.
    [None]: Python raises, or TFLite refuses the operator (negative amounts, a number of rows other than the
    rank of the operand, a fill value of another type than the operand, a reflection longer than the axis). *)
From Coq Require Import List Arith Bool Reals ZArith.
From Verif Require Import Tensor ConvSpec LayoutSpec FuseModel AtenPoolModel ResizeSpec.
Import ListNotations.
Local Open Scope R_scope.

(** [np.array(pads).reshape(-1, 2)] (aten.py 937, 4298) *)
Fixpoint rows2 (l : list Z) : option (list (Z * Z)) :=
  match l with
  | [] => Some []
  | a :: b :: r => option_map (cons (a, b)) (rows2 r)
  | _ => None
  end.
(** rows of zeros appended up to the rank, order of the rows reversed (aten.py 938-940, 4299-4301);
    [np.zeros] of a negative extent raises *)
Definition pad_arr (n : nat) (pads : list Z) : option (list (Z * Z)) :=
  obind (rows2 pads) (fun p =>
  if (n <? length p)%nat then None else Some (rev (p ++ repeat (0, 0)%Z (n - length p)))).
(** what the TFLite kernels accept as paddings *)
Definition rows_ok (n : nat) (arr : list (Z * Z)) : bool :=
  (length arr =? n)%nat && forallb (fun ab => (0 <=? fst ab)%Z && (0 <=? snd ab)%Z) arr.
Definition nrows (arr : list (Z * Z)) : list (nat * nat) := map (fun ab => (Z.to_nat (fst ab), Z.to_nat (snd ab))) arr.
Definition run_pad {A} (v : A) (arr : list (Z * Z)) (x : tensor A) : option (tensor A) :=
  if rows_ok (length (tshape x)) arr then Some (pad_op v (nrows arr) x) else None.
Definition run_mirror {A} (arr : list (Z * Z)) (x : tensor A) : option (tensor A) :=
  if rows_ok (length (tshape x)) arr &&
     forallb (fun p => (Z.max (fst (snd p)) (snd (snd p)) <? Z.of_nat (fst p))%Z) (combine (tshape x) arr)
  then Some (mirror_pad (nrows arr) x) else None.

Inductive pad_mode := MConstant | MReflect | MOther.

(** ATenConstantPadNdOperator (aten.py 928-958); [flt]: the operand is float32, the type given to the fill value *)
Definition aten_constant_pad (flt : bool) (v : R) (pads : list Z) (x : tensor R) : option (tensor R) :=
  obind (pad_arr (length (tshape x)) pads) (fun arr =>
  if Req_EM_T v 0 then run_pad 0 arr x
  else if flt then run_pad v arr x else None).
(** ATenPadOperator (aten.py 4285-4320); calling [None] as a class raises *)
Definition aten_pad (m : pad_mode) (flt : bool) (v : option R) (pads : list Z) (x : tensor R) : option (tensor R) :=
  match m with
  | MConstant =>
      obind (pad_arr (length (tshape x)) pads) (fun arr =>
      match v with
      | None => run_pad 0 arr x
      | Some c => if Req_EM_T c 0 then run_pad 0 arr x else if flt then run_pad c arr x else None
      end)
  | MReflect =>
      obind (pad_arr (length (tshape x)) pads) (fun arr =>
      match v with
      | None => run_mirror arr x
      | Some c => if Req_EM_T c 0 then run_mirror arr x else None
      end)
  | MOther => None
  end.
(** ATenReflectionPad2dOperator (aten.py 3071-3084) *)
Definition aten_reflection_pad2d {A} (pads : list Z) (x : tensor A) : option (tensor A) :=
  match pads with
  | p0 :: p1 :: p2 :: p3 :: _ => run_mirror [(0, 0); (0, 0); (p2, p3); (p0, p1)]%Z x
  | _ => None
  end.
(** ATenReflectionPad1dOperator (aten.py 3087-3100) *)
Definition aten_reflection_pad1d {A} (pads : list Z) (x : tensor A) : option (tensor A) :=
  match pads with
  | p0 :: p1 :: _ => run_mirror [(0, 0); (0, 0); (p0, p1)]%Z x
  | _ => None
  end.

(** [output_size], or [(input_sizes * scale_factors).astype('int32')] (aten.py 968-973, 991-996); the product of
    doubles is taken exactly *)
Inductive resize_arg := BySize (oh ow : nat) | ByScale (sh sw : R).
Definition resize_out (a : resize_arg) (x : tensor R) : nat * nat :=
  match a with
  | BySize oh ow => (oh, ow)
  | ByScale sh sw => (scaled_size (nth 2 (tshape x) 0%nat) sh, scaled_size (nth 3 (tshape x) 0%nat) sw)
  end.
(** ATenUpsampleNearest2dOperator (aten.py 961-981) *)
Definition aten_upsample_nearest (a : resize_arg) (x : tensor R) : tensor R :=
  let (oh, ow) := resize_out a x in wrap_nhwc (resize_nearest oh ow) x.
(** ATenUpsampleBilinear2dOperator (aten.py 984-1006) *)
Definition aten_upsample_bilinear (align : bool) (a : resize_arg) (x : tensor R) : tensor R :=
  let (oh, ow) := resize_out a x in wrap_nhwc (resize_bilinear align (negb align) oh ow) x.
