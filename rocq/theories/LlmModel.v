(** Model of the LLM weight/activation quantization ([tinynn/llm_quant/modules.py]), the
    paths without the accelerated kernels ([SPEEDUP = False]).

    Floats are reals; the conversion to half precision at the end is not modelled.  A nan
    converted to int8 is an unspecified integer ([nan_int]). *)
From Coq Require Import List Arith ZArith Bool Reals.
From Verif Require Import Tensor ConvSpec QuantSpec FuseModel QuantModel.
Import ListNotations.
Local Open Scope R_scope.

(* ------------------------------------------------------------------ *)
(** * [compress_int] *)

(** [data.abs().max(dim=-1)] at the leading index [pre]; the caller excludes an empty axis
    (modules.py 42, 46). *)
Definition row_absmax (t : tensor R) (pre : list nat) : R :=
  match lmax (map (fun i => Rabs (tget t (pre ++ [i]))) (seq 0 (last (tshape t) 0%nat))) with
  | Some m => m
  | None => 0
  end.
Definition tensor_absmax (t : tensor R) : R :=
  match lmax (map Rabs (elements t)) with Some m => m | None => 0 end.

(** [q_max] (modules.py 36). *)
Definition q_max (bits : nat) : Z := (2 ^ (Z.of_nat bits - 1) - 1)%Z.

Inductive cmode := CPerChannel | CPerToken | CPerTensor.

Section Compress.
  Variable nan_int : Z.

  (** [torch.clamp(torch.round(x / scale), q_min, q_max).to(torch.int8)] (modules.py 43, 53, 58);
      scale 0 only occurs for zero data, where [x / scale] is nan. *)
  Definition compress_elem (bits : nat) (scale x : R) : Z :=
    if Req_EM_T scale 0 then nan_int
    else wrap S8 (clampZ (- q_max bits) (q_max bits) (rne (x / scale))).

  (** [compress_int] (modules.py 34-60).  [None]: torch raises (empty axis), the assertion of
      line 52 fails, or division by [q_max = 0]; the per-channel form is modelled for the
      matrices it is called with.  Shapes of the scales: [rows], leading shape and 1, scalar. *)
  Definition compress_int (bits : nat) (mode : cmode) (t : tensor R) : option (tensor R * tensor Z) :=
    if existsb (Nat.eqb 0) (tshape t) then None
    else
      match mode with
      | CPerChannel =>
          match tshape t with
          | [r; _] =>
              let sc := mkT [r] (fun idx => 2 * (row_absmax t idx / IZR (2 ^ Z.of_nat bits - 1))) in
              Some (sc, mkT (tshape t) (fun idx => compress_elem bits (tget sc (removelast idx)) (tget t idx)))
          | _ => None
          end
      | CPerToken =>
          if (q_max bits =? 0)%Z then None
          else if (length (tshape t) =? 2)%nat || (length (tshape t) =? 3)%nat
          then
            let sc := mkT (removelast (tshape t) ++ [1%nat])
                          (fun idx => row_absmax t (removelast idx) / IZR (q_max bits)) in
            Some (sc, mkT (tshape t) (fun idx => compress_elem bits (tget sc (removelast idx ++ [0%nat])) (tget t idx)))
          else None
      | CPerTensor =>
          if (q_max bits =? 0)%Z then None
          else
            let s := tensor_absmax t / IZR (q_max bits) in
            Some (mkT [] (fun _ => s), tmap (compress_elem bits s) t)
      end.
End Compress.

(* ------------------------------------------------------------------ *)
(** * 4-bit packing *)

(** [((a & 0b1111) << 4) | (b & 0b1111)] on int8 (modules.py 88). *)
Definition pack_pair (a b : Z) : Z := Z.lor (wrap S8 (Z.shiftl (Z.land a 15) 4)) (Z.land b 15).
(** [w >> 4] and [w << 4 >> 4] on int8 (modules.py 112). *)
Definition unpack_hi (w : Z) : Z := Z.shiftr w 4.
Definition unpack_lo (w : Z) : Z := Z.shiftr (wrap S8 (Z.shiftl w 4)) 4.

(** Packing in [QLinear.__init__] (modules.py 83-88); [None]: the assertions of lines 85-86. *)
Definition pack_weight (w : tensor Z) : option (tensor Z) :=
  match tshape w with
  | [o; i] =>
      if (i mod 2 =? 0)%nat
      then let pre := reshape [o; (i / 2)%nat; 2%nat] w in
           Some (mkT [o; (i / 2)%nat] (fun idx => pack_pair (tget pre (idx ++ [0%nat])) (tget pre (idx ++ [1%nat]))))
      else None
  | _ => None
  end.

(** Unpacking in [QLinear.forward] (modules.py 111-114): [torch.stack((hi, lo), -1).view(out, in)]. *)
Definition unpack_weight (out_features in_features : nat) (w : tensor Z) : tensor Z :=
  reshape [out_features; in_features]
    (mkT (tshape w ++ [2%nat]) (fun idx =>
       let v := tget w (removelast idx) in if (last idx 0 =? 0)%nat then unpack_hi v else unpack_lo v)).

(** The float weight used by the 4-bit layer (modules.py 79-88, 111-116): quantize, pack, unpack, scale. *)
Definition weight4_fp (nan_int : Z) (w : tensor R) : option (tensor R) :=
  obind (compress_int nan_int 4 CPerChannel w) (fun sq =>
  obind (pack_weight (snd sq)) (fun packed =>
  let o := nth 0 (tshape w) 0%nat in
  let i := nth 1 (tshape w) 0%nat in
  Some (mkT [o; i] (fun idx => IZR (tget (unpack_weight o i packed) idx) * tget (fst sq) [nth 0 idx 0%nat])))).

(* ------------------------------------------------------------------ *)
(** * Dynamic quantization *)

Record dyn_linear := mkDL { dl_in : nat; dl_out : nat; dl_weight : tensor Z; dl_scale : tensor R; dl_bias : option (list R) }.

(** [F.pad(weight_q, (0, 4 - in % 4))] (modules.py 80-81). *)
Definition pad_cols (k : nat) (w : tensor Z) : tensor Z := pad_op 0%Z [(0, 0); (0, k)]%nat w.
(** [QLinear.__init__] with [quant_mode = 'dynamic'] (modules.py 63-95). *)
Definition dyn_init (nan_int : Z) (w : tensor R) (b : option (list R)) : option dyn_linear :=
  obind (compress_int nan_int 8 CPerChannel w) (fun sq =>
  let i := nth 1 (tshape w) 0%nat in
  Some (mkDL i (nth 0 (tshape w) 0%nat)
             (if negb (i mod 4 =? 0)%nat then pad_cols (4 - i mod 4) (snd sq) else snd sq) (fst sq) b)).

(** [weight[:, : n]] for a negative [n = -k] (modules.py 162). *)
Definition drop_cols (k : nat) (w : tensor Z) : tensor Z :=
  mkT [nth 0 (tshape w) 0%nat; (nth 1 (tshape w) 0 - k)%nat] (tget w).

(** [F.linear] (modules.py 161-165): raises when the inner sizes differ. *)
Definition linear (x w : tensor R) (b : option (list R)) : option (tensor R) :=
  if (last (tshape x) 0 =? nth 1 (tshape w) 0)%nat
  then Some (fc x w (fun o => match b with Some b => nth o b 0 | None => 0 end))
  else None.

(** [QLinear.forward], dynamic mode (modules.py 158-165). *)
Definition dyn_forward (nan_int : Z) (l : dyn_linear) (x : tensor R) : option (tensor R) :=
  obind (compress_int nan_int 8 CPerToken x) (fun sx =>
  let r := (dl_in l mod 4)%nat in
  let w := if negb (r =? 0)%nat then drop_cols (4 - r) (dl_weight l) else dl_weight l in
  obind (linear (tmap IZR (snd sx)) (tmap IZR w) (dl_bias l)) (fun output =>
  let rows := prod (tshape (fst sx)) in
  obind (binop Rmult (dl_scale l) (reshape [rows; 1%nat] (fst sx))) (fun s =>
  binop Rmult output s))).
