(** What the padding and resampling operators mean: PyTorch on one side (position by position, as documented),
    the TFLite resize kernels on the other.  Positions are exact rationals inside the reals; [Int_part] is floor. *)
From Coq Require Import List Arith Bool Reals ZArith.
From Verif Require Import Tensor.
Import ListNotations.
Local Open Scope R_scope.

(** torch.nn.functional.pad: the amounts come as a flat list, the last axis first, (before, after) per axis.
    A negative amount crops. *)
Definition pad_front (pads : list Z) (n k : nat) : Z := nth (2 * (n - 1 - k)) pads 0%Z.
Definition pad_back (pads : list Z) (n k : nat) : Z := nth (2 * (n - 1 - k) + 1) pads 0%Z.
Definition torch_pad_shape (pads : list Z) (sh : list nat) : list nat :=
  let n := length sh in
  map (fun k => Z.to_nat (pad_front pads n k + Z.of_nat (nth k sh 0%nat) + pad_back pads n k)) (seq 0 n).
Definition torch_pad {A} (v : A) (pads : list Z) (x : tensor A) : tensor A :=
  let n := length (tshape x) in
  mkT (torch_pad_shape pads (tshape x))
      (fun idx =>
         let at_ k := (Z.of_nat (nth k idx 0%nat) - pad_front pads n k)%Z in
         if forallb (fun k => (0 <=? at_ k)%Z && (at_ k <? Z.of_nat (nth k (tshape x) 0%nat))%Z) (seq 0 n)
         then tget x (map (fun k => Z.to_nat (at_ k)) (seq 0 n)) else v).
(** no fill value means zero *)
Definition fill (v : option R) : R := match v with Some c => c | None => 0%R end.
(** mode='reflect': positions outside are folded back at the first and at the last element *)
Definition fold_back (d : nat) (p : Z) : nat :=
  let q := Z.abs p in
  Z.to_nat (if (q <? Z.of_nat d)%Z then q else (2 * (Z.of_nat d - 1) - q)%Z).
Definition torch_reflect {A} (pads : list Z) (x : tensor A) : tensor A :=
  let n := length (tshape x) in
  mkT (torch_pad_shape pads (tshape x))
      (fun idx => tget x (map (fun k => fold_back (nth k (tshape x) 0%nat)
                                          (Z.of_nat (nth k idx 0%nat) - pad_front pads n k)) (seq 0 n))).

(** PyTorch accepts a reflection only when it is shorter than the axis *)
Definition refl_ok (sh : list nat) (pads : list Z) : Prop :=
  forall k, (k < length sh)%nat ->
  (pad_front pads (length sh) k < Z.of_nat (nth k sh 0%nat))%Z /\ (pad_back pads (length sh) k < Z.of_nat (nth k sh 0%nat))%Z.

(** torch.nn.functional.interpolate on [N; C; H; W].  The size is given, or a scale factor per axis; then the
    size is the floor of the product and the source position uses the factor itself. *)
Definition nearest_src (sf : option R) (inp out d : nat) : nat :=
  Nat.min (Z.to_nat (Int_part (match sf with Some s => INR d / s | None => INR d * INR inp / INR out end)))
          (inp - 1).
Definition torch_nearest {A} (sh sw : option R) (oh ow : nat) (x : tensor A) : tensor A :=
  mkT [nth 0 (tshape x) 0%nat; nth 1 (tshape x) 0%nat; oh; ow]
      (fun idx => tget x [nth 0 idx 0%nat; nth 1 idx 0%nat;
                          nearest_src sh (nth 2 (tshape x) 0%nat) oh (nth 2 idx 0%nat);
                          nearest_src sw (nth 3 (tshape x) 0%nat) ow (nth 3 idx 0%nat)]).

Definition linear_src (align : bool) (sf : option R) (inp out d : nat) : R :=
  if align then (if (out <=? 1)%nat then 0 else INR d * (INR (inp - 1) / INR (out - 1)))
  else Rmax 0 ((INR d + 1 / 2) * (match sf with Some s => 1 / s | None => INR inp / INR out end) - 1 / 2).
(** interpolation of [f] at the source position: floor, its right neighbour unless it is the last *)
Definition lerp (inp : nat) (src : R) (f : nat -> R) : R :=
  let i := Z.to_nat (Int_part src) in
  let j := if (i <? inp - 1)%nat then S i else i in
  (1 - (src - INR i)) * f i + (src - INR i) * f j.
Definition torch_bilinear (align : bool) (sh sw : option R) (oh ow : nat) (x : tensor R) : tensor R :=
  mkT [nth 0 (tshape x) 0%nat; nth 1 (tshape x) 0%nat; oh; ow]
      (fun idx =>
         let H := nth 2 (tshape x) 0%nat in let W := nth 3 (tshape x) 0%nat in
         lerp H (linear_src align sh H oh (nth 2 idx 0%nat)) (fun i =>
         lerp W (linear_src align sw W ow (nth 3 idx 0%nat)) (fun j =>
           tget x [nth 0 idx 0%nat; nth 1 idx 0%nat; i; j]))).
(** size from a scale factor *)
Definition scaled_size (inp : nat) (s : R) : nat := Z.to_nat (Int_part (INR inp * s)).

(** TFLite RESIZE_NEAREST_NEIGHBOR, align_corners = half_pixel_centers = false, on [N; H; W; C] *)
Definition near_in (inp out d : nat) : nat := Nat.min (d * inp / out) (inp - 1).
Definition resize_nearest {A} (oh ow : nat) (t : tensor A) : tensor A :=
  mkT [nth 0 (tshape t) 0%nat; oh; ow; nth 3 (tshape t) 0%nat]
      (fun idx => tget t [nth 0 idx 0%nat; near_in (nth 1 (tshape t) 0%nat) oh (nth 1 idx 0%nat);
                          near_in (nth 2 (tshape t) 0%nat) ow (nth 2 idx 0%nat); nth 3 idx 0%nat]).
(** TFLite RESIZE_BILINEAR (reference_ops/resize_bilinear.h) on [N; H; W; C] *)
Definition rb_scale (align : bool) (inp out : nat) : R :=
  if align && (1 <? out)%nat then INR (inp - 1) / INR (out - 1) else INR inp / INR out.
Definition rb_pos (align half : bool) (inp out d : nat) : R :=
  if half then (INR d + 1 / 2) * rb_scale align inp out - 1 / 2 else INR d * rb_scale align inp out.
Definition rb_lo (p : R) : nat := Z.to_nat (Z.max 0 (Int_part p)).
Definition rb_hi (p : R) (inp : nat) : nat := Z.to_nat (Z.min (- Int_part (- p)) (Z.of_nat inp - 1)).
Definition resize_bilinear (align half : bool) (oh ow : nat) (t : tensor R) : tensor R :=
  mkT [nth 0 (tshape t) 0%nat; oh; ow; nth 3 (tshape t) 0%nat]
      (fun idx =>
         let H := nth 1 (tshape t) 0%nat in let W := nth 2 (tshape t) 0%nat in
         let y := rb_pos align half H oh (nth 1 idx 0%nat) in
         let x := rb_pos align half W ow (nth 2 idx 0%nat) in
         let y0 := rb_lo y in let y1 := rb_hi y H in
         let x0 := rb_lo x in let x1 := rb_hi x W in
         let g i j := tget t [nth 0 idx 0%nat; i; j; nth 3 idx 0%nat] in
         g y0 x0 * (1 - (y - INR y0)) * (1 - (x - INR x0)) +
         g y1 x0 * (y - INR y0) * (1 - (x - INR x0)) +
         g y0 x1 * (1 - (y - INR y0)) * (x - INR x0) +
         g y1 x1 * (y - INR y0) * (x - INR x0)).
