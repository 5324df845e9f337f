(** Model of the quantizable replacement modules
    ([tinynn/graph/quantization/modules.py]), forward pass over the reals: quantize and
    dequantize stubs are the identity, [FloatFunctional] operations are the plain ones.
    [None] stands for a python exception. *)
From Coq Require Import List Arith Bool Reals.
From Verif Require Import Tensor ConvSpec FuseModel.
Import ListNotations.
Local Open Scope R_scope.

Definition relu (x : R) : R := Rmax 0 x.                     (* nn.ReLU *)
Definition relu6 (x : R) : R := Rmin 6 (Rmax 0 x).           (* nn.ReLU6 *)
Definition sigmoid (x : R) : R := / (1 + exp (- x)).         (* nn.Sigmoid *)
Definition rsqrt (x : R) : R := / sqrt x.                    (* torch.rsqrt *)
(** [Tensor.expand_as] *)
Definition expand_as (t : tensor R) (s : list nat) : option (tensor R) :=
  match bshape (tshape t) s with
  | Some s' => if list_eq_dec Nat.eq_dec s' s then Some (mkT s (fun idx => tget t (bidx (tshape t) idx))) else None
  | None => None
  end.
(** [Tensor.mean(dims, keepdim=True)] over the last [k] axes *)
Definition mean_last (k : nat) (t : tensor R) : option (tensor R) :=
  let n := length (tshape t) in
  let ns := skipn (n - k) (tshape t) in
  if (n <? k)%nat then None
  else Some (mkT (firstn (n - k) (tshape t) ++ repeat 1%nat k)
                 (fun idx => lsum (indices ns) (fun j => tget t (firstn (n - k) idx ++ j)) / INR (prod ns))).

(** [QPReLU.forward] (modules.py 24-49) *)
Definition qprelu (w x : tensor R) : option (tensor R) :=
  let x1 := tmap relu x in
  let weight := if (prod (tshape w) =? 1)%nat then reshape [] w
                else reshape (tshape w ++ repeat 1%nat (length (tshape x) - 2)) w in
  obind (binop Rmult weight (tmap (fun v => v * (-1)) (tmap relu (tmap (fun v => v * (-1)) x))))
        (fun x2 => binop Rplus x1 x2).

(** [QSiLU.forward] (modules.py 59-60) *)
Definition qsilu (x : tensor R) : option (tensor R) := binop Rmult x (tmap sigmoid x).

(** [torch.chunk(input, 2, dim)]: parts of size ceil(d/2); the second part, if any, is shorter
    for an odd size.  An index past the last part raises. *)
Definition chunk2 (ax : nat) (x : tensor R) : option (tensor R * tensor R) :=
  let d := nth ax (tshape x) 0%nat in
  let c := ((d + 1) / 2)%nat in
  if (length (tshape x) <=? ax)%nat then None
  else if (d =? 1)%nat then None
  else Some (mkT (upd (tshape x) ax c) (fun idx => tget x idx),
             mkT (upd (tshape x) ax (d - c)) (fun idx => tget x (upd idx ax (c + nth ax idx 0%nat)))).
(** [QGLU.forward] (modules.py 71-73) *)
Definition qglu (ax : nat) (x : tensor R) : option (tensor R) :=
  obind (chunk2 ax x) (fun '(a, b) => binop Rmult a (tmap sigmoid b)).

(** [QHardsigmoid.forward] (modules.py 87-91) *)
Definition qhardsigmoid (x : tensor R) : tensor R :=
  tmap (fun v => v * (1 / 6)) (tmap relu6 (tmap (fun v => v + 3) x)).

(** [QLayerNorm.__init__] and [forward] (modules.py 95-136); [k] is the length of
    [normalized_shape].  A missing weight or bias has no [data]. *)
Definition qlayernorm (k : nat) (weight bias : option (tensor R)) (eps : R) (x : tensor R) : option (tensor R) :=
  obind weight (fun w => obind bias (fun b =>
  obind (mean_last k x) (fun mean =>
  obind (expand_as (tmap (fun v => v * (-1)) mean) (tshape x)) (fun neg =>
  obind (binop Rplus x neg) (fun diff =>
  obind (binop Rmult diff diff) (fun sq =>
  obind (mean_last k sq) (fun var =>
  let std_inverse := tmap rsqrt (tmap (fun v => v + eps) var) in
  obind (binop Rmult diff std_inverse) (fun norm =>
  obind (expand_as w (tshape norm)) (fun we =>
  obind (binop Rmult norm we) (fun alpha =>
  obind (expand_as b (tshape alpha)) (fun be =>
  binop Rplus alpha be))))))))))).

(** [QRMSNorm.__init__] and [forward] (modules.py 139-174) *)
Definition qrmsnorm (k : nat) (weight : option (tensor R)) (eps : option R) (x : tensor R) : option (tensor R) :=
  obind weight (fun w =>
  obind (binop Rmult x x) (fun sq =>
  obind (mean_last k sq) (fun ms =>
  let rms_pre := match eps with None => ms | Some e => tmap (fun v => v + e) ms end in
  obind (binop Rmult x (tmap rsqrt rms_pre)) (fun norm =>
  obind (expand_as w (tshape norm)) (fun we =>
  binop Rmult norm we))))).
