(** Lowering of pooling to TFLite operators (C65-C67). *)
From Coq Require Import List Arith Bool Reals Lia Lra.
From Verif Require Import Tensor ConvSpec LayoutSpec PoolSpec AtenPoolModel AtenPoolProofs.
Import ListNotations.

(** C65.  Two-dimensional max pooling computes what torch computes for all kernels, strides and paddings that torch
    accepts, when the elements are not below the value [low] used as padding.  Left out: kernels of even size with
    stride 1 and padding of half the kernel, and ceil mode with padding and stride at most padding plus one or
    stride above the kernel, unless the windows fit exactly. *)
Theorem C65_max_pool2d_partial : forall low kh kw stride ph pw ceil x N C h w,
  let '(sh, sw) := dflt stride kh kw in
  tshape x = [N; C; h; w] -> pool_axis h kh sh ph -> pool_axis w kw sw pw ->
  (forall idx, valid (tshape x) idx -> (low <= tget x idx)%R) ->
  (sh = 1 -> sw = 1 -> ph = kh / 2 -> pw = kw / 2 -> ceil = false -> Nat.odd kh = true /\ Nat.odd kw = true) ->
  (ceil = true -> ((h + 2 * ph - kh) mod sh = 0 /\ (w + 2 * pw - kw) mod sw = 0) \/ (ceil_ok h kh sh ph /\ ceil_ok w kw sw pw)) ->
  exists y, max_pool2d low kh kw stride ph pw 1 1 ceil x = Some y /\ teq y (max_pool ceil [kh; kw] [sh; sw] [ph; pw] x).
Proof. exact max_pool2d_correct. Qed.
Print Assumptions C65_max_pool2d_partial.
(** ceil mode, unequal axes; the last window leaves the operand *)
Example C65_example : pool_axis 6 3 2 0 /\ pool_axis 7 4 3 1 /\ ceil_ok 6 3 2 0 /\ ceil_ok 7 4 3 1 /\ (6 + 2 * 0 - 3) mod 2 <> 0 /\
  let x := mkT [1; 1; 6; 7] (fun idx => INR (nth 2 idx 0 + nth 3 idx 0)) in
  tshape (max_pool true [3; 4] [2; 3] [0; 1] x) = [1; 1; 3; 3] /\
  exists y, max_pool2d 0%R 3 4 (Some (2, 3)) 0 1 1 1 true x = Some y /\ tshape y = [1; 1; 3; 3].
Proof.
  unfold pool_axis, ceil_ok. split; [lia|]. split; [lia|]. split; [lia|]. split; [lia|]. split; [discriminate|].
  cbv zeta. split; [reflexivity|]. eexists. split; reflexivity.
Qed.

(** Even kernels: the SAME operator drops a row and a column. *)
Theorem C65_even_kernel_refuted : exists low x kh kw ph pw y, pool_axis 4 kh 1 ph /\ pool_axis 4 kw 1 pw /\ tshape x = [1; 1; 4; 4] /\
  (forall idx, valid (tshape x) idx -> (low <= tget x idx)%R) /\
  max_pool2d low kh kw (Some (1, 1)) ph pw 1 1 false x = Some y /\
  tshape y = [1; 1; 4; 4] /\ tshape (max_pool false [kh; kw] [1; 1] [ph; pw] x) = [1; 1; 5; 5].
Proof. exact max_pool2d_even. Qed.
Print Assumptions C65_even_kernel_refuted.
(** Ceil mode with padding: the padding is counted again and a window is added. *)
Theorem C65_ceil_padding_refuted : exists low x y, pool_axis 6 3 2 1 /\ tshape x = [1; 1; 6; 6] /\
  (forall idx, valid (tshape x) idx -> (low <= tget x idx)%R) /\
  max_pool2d low 3 3 (Some (2, 2)) 1 1 1 1 true x = Some y /\
  tshape y = [1; 1; 5; 5] /\ tshape (max_pool true [3; 3] [2; 2] [1; 1] x) = [1; 1; 4; 4].
Proof. exact max_pool2d_ceil. Qed.
Print Assumptions C65_ceil_padding_refuted.

(** One-dimensional max pooling without padding, or with stride 1, an odd kernel and half of it as padding. *)
Theorem C65_max_pool1d_partial : forall k stride p ceil x N C l,
  let s := match stride with Some s => s | None => k end in
  tshape x = [N; C; l] -> pool_axis l k s p -> ceil = false ->
  p = 0 \/ (s = 1 /\ p = k / 2 /\ Nat.odd k = true) ->
  let ref := max_pool ceil [k] [s] [p] x in
  exists y, max_pool1d k stride p 1 ceil (tshape ref) x = Some y /\ teq y ref.
Proof. exact max_pool1d_correct. Qed.
Print Assumptions C65_max_pool1d_partial.
Example C65_max_pool1d_example : pool_axis 7 3 2 0 /\ pool_axis 7 5 1 2 /\ Nat.odd 5 = true.
Proof. unfold pool_axis. repeat split; try lia. Qed.
(** With other paddings zeros are added to the channels instead, and the result is wrong without any error. *)
Theorem C65_max_pool1d_refuted : exists x y, pool_axis 5 3 2 1 /\ tshape x = [1; 4; 5] /\
  let ref := max_pool false [3] [2] [1] x in
  max_pool1d 3 (Some 2) 1 1 false (tshape ref) x = Some y /\ tshape y = tshape ref /\ tshape y = [1; 4; 3] /\
  tget y [0; 0; 0] = Some 0%R /\ tget ref [0; 0; 0] = Some 1%R.
Proof. exact max_pool1d_pad. Qed.
Print Assumptions C65_max_pool1d_refuted.

(** C66.  Two-dimensional average pooling without an own divisor, with or without the padding in the divisor. *)
Theorem C66_avg_pool2d_partial : forall kh kw stride ph pw ceil include x N C h w,
  let '(sh, sw) := dflt stride kh kw in
  tshape x = [N; C; h; w] -> pool_axis h kh sh ph -> pool_axis w kw sw pw ->
  (ceil = true -> (h + 2 * ph - kh) mod sh = 0 /\ (w + 2 * pw - kw) mod sw = 0) ->
  exists y, avg_pool2d kh kw stride ph pw ceil include None x = Some y /\
            teq y (avg_pool include None ceil [kh; kw] [sh; sw] [ph; pw] x).
Proof. exact avg_pool2d_correct. Qed.
Print Assumptions C66_avg_pool2d_partial.
(** a corner window: nine taps, four of them in the operand *)
Example C66_example : pool_axis 4 3 2 1 /\
  let x := mkT [1; 1; 4; 4] (fun idx => 1%R) in
  tget (avg_pool false None false [3; 3] [2; 2] [1; 1] x) [0; 0; 0; 0] = 1%R /\
  tget (avg_pool true None false [3; 3] [2; 2] [1; 1] x) [0; 0; 0; 0] = (4 / 9)%R.
Proof. unfold pool_axis. split; [lia|]. split; cbv -[Rplus Rmult Rdiv Rinv IZR]; field. Qed.
(** Ceil mode is rejected when the windows do not fit exactly. *)
Theorem C66_ceil : forall kh kw stride ph pw include override x N C h w,
  let '(sh, sw) := dflt stride kh kw in
  tshape x = [N; C; h; w] -> pool_axis h kh sh ph -> pool_axis w kw sw pw ->
  (h + 2 * ph - kh) mod sh <> 0 \/ (w + 2 * pw - kw) mod sw <> 0 ->
  avg_pool2d kh kw stride ph pw true include override x = None.
Proof. exact avg_pool2d_ceil. Qed.
Print Assumptions C66_ceil.
Example C66_ceil_example : pool_axis 6 3 2 1 /\ (6 + 2 * 1 - 3) mod 2 <> 0.
Proof. unfold pool_axis. split; [lia|discriminate]. Qed.
(** A divisor is accepted only if it equals both sides of the kernel, and then the operators are those of a pooling
    without one. *)
Theorem C66_divisor_rejected : forall kh kw stride ph pw ceil include d x,
  (exists y, avg_pool2d kh kw stride ph pw ceil include (Some d) x = Some y) ->
  d = kh /\ kh = kw /\
  avg_pool2d kh kw stride ph pw ceil include (Some d) x = avg_pool2d kh kw stride ph pw ceil include None x.
Proof. exact avg_pool2d_divisor_rejected. Qed.
Print Assumptions C66_divisor_rejected.
Example C66_divisor_example : exists y,
  avg_pool2d 2 2 None 0 0 false true (Some 2) (mkT [1; 1; 4; 4] (fun _ => 1%R)) = Some y.
Proof. eexists. reflexivity. Qed.
(** An accepted divisor is ignored: the operator divides by the size of the kernel. *)
Theorem C66_divisor_refuted : exists x y, tshape x = [1; 1; 2; 2] /\ pool_axis 2 2 2 0 /\
  avg_pool2d 2 2 None 0 0 false true (Some 2) x = Some y /\
  tget y [0; 0; 0; 0] = 1%R /\ tget (avg_pool true (Some 2) false [2; 2] [2; 2] [0; 0] x) [0; 0; 0; 0] = 2%R.
Proof. exact avg_pool2d_divisor. Qed.
Print Assumptions C66_divisor_refuted.
Theorem C66_avg_pool1d_partial : forall k stride x N C l,
  let s := match stride with Some s => s | None => k end in
  tshape x = [N; C; l] -> pool_axis l k s 0 ->
  let ref := avg_pool true None false [k] [s] [0] x in
  exists y, avg_pool1d k stride 0 false true (tshape ref) x = Some y /\ teq y ref.
Proof. exact avg_pool1d_correct. Qed.
Print Assumptions C66_avg_pool1d_partial.
Example C66_avg_pool1d_example : pool_axis 7 3 2 0.
Proof. unfold pool_axis. lia. Qed.
(** With padding the zeros are added to the channels. *)
Theorem C66_avg_pool1d_refuted : exists x y, pool_axis 5 3 2 1 /\ tshape x = [1; 4; 5] /\
  let ref := avg_pool true None false [3] [2] [1] x in
  avg_pool1d 3 (Some 2) 1 false true (tshape ref) x = Some y /\ tshape y = tshape ref /\ tshape y = [1; 4; 3] /\
  tget y [0; 0; 0] = 0%R /\ tget ref [0; 0; 0] = (2 / 3)%R.
Proof. exact avg_pool1d_pad. Qed.
Print Assumptions C66_avg_pool1d_refuted.

(** C67.  Adaptive pooling is converted when the sizes divide, and then computes the pooling of torch; otherwise it
    is rejected. *)
Theorem C67_adaptive_avg2d : forall oh ow x N C h w,
  tshape x = [N; C; h; w] -> 0 < oh -> 0 < ow -> 0 < h -> 0 < w -> h mod oh = 0 -> w mod ow = 0 ->
  exists y, adaptive2d mean avgpool_kernel oh ow x = Some y /\ teq y (adaptive mean [oh; ow] x).
Proof. exact adaptive_avg2d_correct. Qed.
Print Assumptions C67_adaptive_avg2d.
Theorem C67_adaptive_max2d : forall oh ow x N C h w,
  tshape x = [N; C; h; w] -> 0 < oh -> 0 < ow -> 0 < h -> 0 < w -> h mod oh = 0 -> w mod ow = 0 ->
  exists y, adaptive2d lmax maxpool_kernel oh ow x = Some y /\ teq y (adaptive lmax [oh; ow] x).
Proof. exact adaptive_max2d_correct. Qed.
Print Assumptions C67_adaptive_max2d.
Theorem C67_adaptive_avg1d : forall o x N C l,
  tshape x = [N; C; l] -> 0 < o -> 0 < l -> l mod o = 0 ->
  let ref := adaptive mean [o] x in
  exists y, adaptive1d mean avgpool_kernel o (tshape ref) x = Some y /\ teq y ref.
Proof. exact adaptive_avg1d_correct. Qed.
Print Assumptions C67_adaptive_avg1d.
Theorem C67_adaptive_max1d : forall o x N C l,
  tshape x = [N; C; l] -> 0 < o -> 0 < l -> l mod o = 0 ->
  let ref := adaptive lmax [o] x in
  exists y, adaptive1d lmax maxpool_kernel o (tshape ref) x = Some y /\ teq y ref.
Proof. exact adaptive_max1d_correct. Qed.
Print Assumptions C67_adaptive_max1d.
Theorem C67_rejects : forall (B : Type) (red : list R -> B) kernel oh ow x N C h w,
  tshape x = [N; C; h; w] -> h mod oh <> 0 \/ w mod ow <> 0 -> adaptive2d red kernel oh ow x = None.
Proof. exact @adaptive2d_rejects. Qed.
Print Assumptions C67_rejects.
(** two by three windows of three by two elements *)
Example C67_example :
  let x := mkT [1; 1; 6; 6] (fun idx => INR (nth 2 idx 0)) in
  6 mod 2 = 0 /\ 6 mod 3 = 0 /\ ad_cells [6; 6] [2; 3] [1; 2] = [[3; 4]; [3; 5]; [4; 4]; [4; 5]; [5; 4]; [5; 5]] /\
  tget (adaptive mean [2; 3] x) [0; 0; 1; 2] = 4%R /\ 7 mod 3 <> 0.
Proof.
  cbv zeta. split; [reflexivity|]. split; [reflexivity|]. split; [reflexivity|]. split; [|discriminate].
  cbv -[Rplus Rmult Rdiv Rinv IZR]. field.
Qed.
