(** Padding and resampling are lowered faithfully (C79-C81), and where they are not. *)
From Coq Require Import List Arith Bool Reals ZArith Lia Lra.
From Verif Require Import Tensor QuantSpec ResizeSpec AtenResizeModel AtenResizeProofs.
Import ListNotations.

(** C79: constant padding (aten::constant_pad_nd and aten::pad) *)
Theorem C79_constant_pad_partial : forall flt v pads m x,
  length pads = (2 * m)%nat -> (m <= length (tshape x))%nat -> Forall (fun p => 0 <= p)%Z pads ->
  flt = true \/ v = 0%R ->
  exists y, aten_constant_pad flt v pads x = Some y /\ teq y (torch_pad v pads x).
Proof. exact aten_constant_pad_ok. Qed.
Print Assumptions C79_constant_pad_partial.

Example C79_constant_pad_ex :
  let x := mkT [2; 3]%nat (fun idx => INR (1 + nth 1 idx 0%nat)) in
  length [1; 2]%Z = (2 * 1)%nat /\ (1 <= length (tshape x))%nat /\ Forall (fun p => 0 <= p)%Z [1; 2]%Z /\
  tshape (torch_pad 7%R [1; 2]%Z x) = [2; 6]%nat /\
  tget (torch_pad 7%R [1; 2]%Z x) [0; 0]%nat = 7%R /\ tget (torch_pad 7%R [1; 2]%Z x) [0; 2]%nat = 2%R.
Proof. cbn -[INR]. repeat split; try lia; repeat constructor; try lia. all: cbn; lra. Qed.

Theorem C79_pad_partial : forall flt v pads m x,
  length pads = (2 * m)%nat -> (m <= length (tshape x))%nat -> Forall (fun p => 0 <= p)%Z pads ->
  flt = true \/ fill v = 0%R ->
  exists y, aten_pad MConstant flt v pads x = Some y /\ teq y (torch_pad (fill v) pads x).
Proof. exact aten_pad_ok. Qed.
Print Assumptions C79_pad_partial.

Example C79_pad_ex : fill None = 0%R /\ fill (Some 2%R) = 2%R /\
  tshape (torch_pad 0%R [0; 1; 2; 3]%Z (mkT [1; 2; 3]%nat (fun _ => 0%R))) = [1; 7; 4]%nat.
Proof. repeat split. Qed.

(** Reflection: aten::pad with mode 'reflect', aten::reflection_pad1d and aten::reflection_pad2d on batches *)
Theorem C79_reflect : forall flt v pads m x,
  length pads = (2 * m)%nat -> (m <= length (tshape x))%nat -> Forall (fun p => 0 <= p)%Z pads ->
  refl_ok (tshape x) pads -> fill v = 0%R ->
  exists y, aten_pad MReflect flt v pads x = Some y /\ teq y (torch_reflect pads x).
Proof. exact aten_pad_reflect_ok. Qed.
Print Assumptions C79_reflect.

Example C79_reflect_ex :
  let x := mkT [1; 3]%nat (fun idx => INR (1 + nth 1 idx 0%nat)) in
  refl_ok (tshape x) [2; 1]%Z /\ tshape (torch_reflect [2; 1]%Z x) = [1; 6]%nat /\
  map (fun i => tget (torch_reflect [2; 1]%Z x) [0; i]%nat) [0; 1; 2; 3; 4; 5]%nat = map INR [3; 2; 1; 2; 3; 2]%nat.
Proof.
  split; [|split; reflexivity]. intros k Hk. cbn [tshape length] in *. do 2 (destruct k as [|k]; [vm_compute; split; reflexivity|]). lia.
Qed.

Theorem C79_reflection_pad2d_partial : forall A p0 p1 p2 p3 (x : tensor A),
  length (tshape x) = 4%nat -> Forall (fun p => 0 <= p)%Z [p0; p1; p2; p3] -> refl_ok (tshape x) [p0; p1; p2; p3] ->
  exists y, aten_reflection_pad2d [p0; p1; p2; p3] x = Some y /\ teq y (torch_reflect [p0; p1; p2; p3] x).
Proof. exact @aten_reflection_pad2d_ok. Qed.
Print Assumptions C79_reflection_pad2d_partial.

Theorem C79_reflection_pad1d_partial : forall A p0 p1 (x : tensor A),
  length (tshape x) = 3%nat -> Forall (fun p => 0 <= p)%Z [p0; p1] -> refl_ok (tshape x) [p0; p1] ->
  exists y, aten_reflection_pad1d [p0; p1] x = Some y /\ teq y (torch_reflect [p0; p1] x).
Proof. exact @aten_reflection_pad1d_ok. Qed.
Print Assumptions C79_reflection_pad1d_partial.

Example C79_reflection_pad_ex :
  refl_ok [1; 1; 3; 2]%nat [1; 0; 2; 1]%Z /\ refl_ok [1; 2; 4]%nat [3; 3]%Z.
Proof.
  split; intros k Hk; cbn [length] in *; do 3 (destruct k as [|k]; [vm_compute; split; reflexivity|]);
    [destruct k as [|k]; [vm_compute; split; reflexivity|]|]; lia.
Qed.

(** Missing cases: cropping by negative amounts, a fill value other than zero on an integer operand, and
    reflection of an operand without batch axis give no valid model. *)
Theorem C79_crop_refuted : exists pads x, length pads = 2%nat /\ length (tshape x) = 1%nat /\
  tshape (torch_pad 0%R pads x) = [2%nat] /\ aten_constant_pad true 0%R pads x = None.
Proof. exact constant_pad_crop_refuted. Qed.
Print Assumptions C79_crop_refuted.

Theorem C79_integer_refuted : exists v pads x, length pads = 2%nat /\ Forall (fun p => 0 <= p)%Z pads /\
  tshape (torch_pad v pads x) = [4%nat] /\ aten_constant_pad false v pads x = None.
Proof. exact constant_pad_integer_refuted. Qed.
Print Assumptions C79_integer_refuted.

Theorem C79_unbatched_refuted : exists pads (x : tensor R), length (tshape x) = 3%nat /\
  Forall (fun p => 0 <= p)%Z pads /\ refl_ok (tshape x) pads /\
  tshape (torch_reflect pads x) = [1%nat; 4%nat; 4%nat] /\ aten_reflection_pad2d pads x = None.
Proof. exact reflection_unbatched_refuted. Qed.
Print Assumptions C79_unbatched_refuted.

(** C80: nearest-neighbour resampling; the size given, or factors that multiply the extents to integers *)
Theorem C80_nearest_size : forall oh ow x N C H W,
  tshape x = [N; C; H; W] -> (0 < H)%nat -> (0 < W)%nat -> (0 < oh)%nat -> (0 < ow)%nat ->
  teq (aten_upsample_nearest (BySize oh ow) x) (torch_nearest None None oh ow x).
Proof. exact upsample_nearest_size. Qed.
Print Assumptions C80_nearest_size.

Example C80_nearest_size_ex :
  let x := mkT [1; 1; 5; 1]%nat (fun idx => INR (nth 2 idx 0%nat)) in
  tget (aten_upsample_nearest (BySize 7 1) x) [0; 0; 5; 0]%nat = INR 3 /\
  tget (aten_upsample_nearest (BySize 7 1) x) [0; 0; 6; 0]%nat = INR 4.
Proof. split; reflexivity. Qed.

Theorem C80_nearest_scale_partial : forall sh sw oh ow x N C H W,
  tshape x = [N; C; H; W] -> (0 < H)%nat -> (0 < W)%nat -> (0 < oh)%nat -> (0 < ow)%nat ->
  (INR oh = INR H * sh)%R -> (INR ow = INR W * sw)%R ->
  teq (aten_upsample_nearest (ByScale sh sw) x) (torch_nearest (Some sh) (Some sw) oh ow x).
Proof. exact upsample_nearest_scale. Qed.
Print Assumptions C80_nearest_scale_partial.

Example C80_nearest_scale_ex : (INR 6 = INR 4 * (3 / 2))%R /\ (INR 2 = INR 4 * (1 / 2))%R.
Proof. cbn [INR]. split; lra. Qed.

(** A factor whose product with the extent is not an integer: PyTorch divides by the factor, the TFLite kernel
    by the quotient of the sizes. *)
Theorem C80_nearest_scale_refuted : exists s x, tshape x = [1; 1; 5; 1]%nat /\ (0 < s)%R /\
  resize_out (ByScale s 1) x = (6, 1)%nat /\
  tget (aten_upsample_nearest (ByScale s 1) x) [0; 0; 5; 0]%nat <> tget (torch_nearest (Some s) (Some 1%R) 6 1 x) [0; 0; 5; 0]%nat.
Proof. exact upsample_nearest_scale_refuted. Qed.
Print Assumptions C80_nearest_scale_refuted.

(** C81: bilinear resampling.  With aligned corners, any argument; otherwise as for nearest. *)
Theorem C81_bilinear_size : forall align oh ow x N C H W,
  tshape x = [N; C; H; W] -> (0 < H)%nat -> (0 < W)%nat ->
  teq (aten_upsample_bilinear align (BySize oh ow) x) (torch_bilinear align None None oh ow x).
Proof. exact upsample_bilinear_size. Qed.
Print Assumptions C81_bilinear_size.

Theorem C81_bilinear_scale_aligned : forall sh sw x N C H W,
  tshape x = [N; C; H; W] -> (0 < H)%nat -> (0 < W)%nat ->
  teq (aten_upsample_bilinear true (ByScale sh sw) x)
      (torch_bilinear true (Some sh) (Some sw) (scaled_size H sh) (scaled_size W sw) x).
Proof. exact upsample_bilinear_aligned. Qed.
Print Assumptions C81_bilinear_scale_aligned.

Theorem C81_bilinear_scale_partial : forall sh sw oh ow x N C H W,
  tshape x = [N; C; H; W] -> (0 < H)%nat -> (0 < W)%nat ->
  (INR oh = INR H * sh)%R -> (INR ow = INR W * sw)%R ->
  teq (aten_upsample_bilinear false (ByScale sh sw) x) (torch_bilinear false (Some sh) (Some sw) oh ow x).
Proof. exact upsample_bilinear_scale. Qed.
Print Assumptions C81_bilinear_scale_partial.

(** two rows 0 and 1 resampled to four: position 1 lies at 1/4 with half-pixel centres, at 1/3 with aligned corners *)
Example C81_bilinear_ex :
  linear_src false None 2 4 1 = (1 / 4)%R /\ linear_src true None 2 4 1 = (1 / 3)%R /\
  lerp 2 (1 / 4) (fun i => INR i) = (1 / 4)%R /\ (INR 4 = INR 2 * 2)%R.
Proof.
  unfold linear_src, lerp. cbn [Nat.leb Nat.sub]. rewrite Rmax_right by (cbn [INR]; lra).
  rewrite (Int_part_unique (1 / 4) 0) by lra. cbn. repeat split; lra.
Qed.

Theorem C81_bilinear_scale_refuted : exists s x, tshape x = [1; 1; 5; 1]%nat /\ (0 < s)%R /\
  resize_out (ByScale s 1) x = (6, 1)%nat /\
  tget (aten_upsample_bilinear false (ByScale s 1) x) [0; 0; 1; 0]%nat <> tget (torch_bilinear false (Some s) (Some 1%R) 6 1 x) [0; 0; 1; 0]%nat.
Proof. exact upsample_bilinear_scale_refuted. Qed.
Print Assumptions C81_bilinear_scale_refuted.
