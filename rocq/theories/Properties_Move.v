(** Lowering of operators that move elements (C68-C72). *)
From Coq Require Import List Arith Bool Reals Lia ZArith.
From Verif Require Import Tensor ConvSpec CatSpec LayoutSpec MoveSpec AtenMoveModel AtenMoveProofs.
Import ListNotations.

(** C68.  Rolls: any number of axes, also repeated or negative ones, any shifts, or the flattened tensor. *)
Theorem C68_roll : forall (A : Type) (d : A) shifts dims t,
  (forall k, k < length (tshape t) -> 0 < nth k (tshape t) 0) ->
  Forall (axis_ok (length (tshape t))) dims ->
  (dims = [] /\ length shifts = 1) \/ (dims <> [] /\ length shifts = length dims) ->
  exists y, aten_roll d shifts dims t = Some y /\ teq y (roll shifts dims t).
Proof. exact @aten_roll_correct. Qed.
Print Assumptions C68_roll.
Example C68_example :
  let t := mkT [2; 3] (fun idx => 10 * nth 0 idx 0 + nth 1 idx 0) in
  Forall (axis_ok 2) [-1; 0]%Z /\
  map (tget (roll [4; -1]%Z [-1; 0]%Z t)) (indices [2; 3]) = [12; 10; 11; 2; 0; 1] /\
  option_map (fun y => map (tget y) (indices [2; 3])) (aten_roll 0 [4; -1]%Z [-1; 0]%Z t) = Some [12; 10; 11; 2; 0; 1] /\
  map (tget (roll [2]%Z [] t)) (indices [2; 3]) = [11; 12; 0; 1; 2; 10] /\
  option_map (fun y => map (tget y) (indices [2; 3])) (aten_roll 0 [2]%Z [] t) = Some [11; 12; 0; 1; 2; 10].
Proof. cbv zeta. split; [repeat constructor; unfold axis_ok; lia|]. repeat split. Qed.
(** The arrays recorded for the two parts have each other's sizes. *)
Theorem C68_recorded_sizes_refuted : exists s n a sizes recorded,
  0 < n /\ roll_parts s n = (a, sizes, recorded) /\ a <> 0 /\ sizes <> recorded.
Proof. exact roll_recorded_refuted. Qed.
Print Assumptions C68_recorded_sizes_refuted.
(** Flips: one REVERSE_V2, or one for each axis. *)
Theorem C68_flip : forall (A : Type) dims (t : tensor A), NoDup (map (axis_of (length (tshape t))) dims) ->
  teq (aten_flip dims t) (flip dims t).
Proof. exact @aten_flip_correct. Qed.
Print Assumptions C68_flip.
Example C68_flip_example :
  let t := mkT [2; 1; 3] (fun idx => 10 * nth 0 idx 0 + nth 2 idx 0) in
  NoDup (map (axis_of 3) [-1; 0]%Z) /\ map (tget (flip [-1; 0]%Z t)) (indices [2; 1; 3]) = [12; 11; 10; 2; 1; 0].
Proof. cbv zeta. split; [repeat constructor; cbn; lia|]. reflexivity. Qed.

(** C69.  Pixel shuffle and unshuffle. *)
Theorem C69_pixel_shuffle : forall (A : Type) r (t : tensor A) N C' H W, 0 < r -> tshape t = [N; C' * (r * r); H; W] ->
  teq (aten_pixel_shuffle r t) (pixel_shuffle r t).
Proof. exact @aten_pixel_shuffle_correct. Qed.
Print Assumptions C69_pixel_shuffle.
Theorem C69_pixel_unshuffle : forall (A : Type) r (t : tensor A) N C H W, 0 < r -> tshape t = [N; C; H; W] ->
  teq (aten_pixel_unshuffle r t) (pixel_unshuffle r t).
Proof. exact @aten_pixel_unshuffle_correct. Qed.
Print Assumptions C69_pixel_unshuffle.
Example C69_example :
  let t := mkT [1; 8; 1; 1] (fun idx => nth 1 idx 0) in
  map (tget (pixel_shuffle 2 t)) (indices [1; 2; 2; 2]) = [0; 1; 2; 3; 4; 5; 6; 7] /\ shuffle_perm 8 2 = [0; 4; 1; 5; 2; 6; 3; 7] /\
  let u := mkT [1; 2; 2; 2] (fun idx => 4 * nth 1 idx 0 + 2 * nth 2 idx 0 + nth 3 idx 0) in
  map (tget (aten_pixel_unshuffle 2 u)) (indices [1; 8; 1; 1]) = [0; 1; 2; 3; 4; 5; 6; 7] /\ unshuffle_perm 2 2 = [0; 2; 4; 6; 1; 3; 5; 7].
Proof. repeat split. Qed.

(** C70.  Unfold and fold ([im2col], [col2im]).  For unfold the padding must be the same on both axes. *)
Theorem C70_unfold_partial : forall kh kw lh lw p sh sw x N C h w, tshape x = [N; C; h; w] ->
  unfold_axis h kh sh lh p -> unfold_axis w kw sw lw p ->
  exists y, aten_im2col kh kw lh lw p p sh sw x = Some y /\ teq y (unfold2d 0%R kh kw lh lw p p sh sw x).
Proof. exact im2col_correct. Qed.
Print Assumptions C70_unfold_partial.
Theorem C70_unfold_refuted : exists x y, tshape x = [1; 1; 2; 2] /\ unfold_axis 2 1 1 1 0 /\ unfold_axis 2 1 1 1 1 /\
  aten_im2col 1 1 1 1 0 1 1 1 x = Some y /\
  tshape y = tshape (unfold2d 0%R 1 1 1 1 0 1 1 1 x) /\ tget y [0; 0; 4] = 1%R /\ tget (unfold2d 0%R 1 1 1 1 0 1 1 1 x) [0; 0; 4] = 0%R.
Proof. exact im2col_refuted. Qed.
Print Assumptions C70_unfold_refuted.
Theorem C70_fold : forall h w kh kw lh lw ph pw sh sw x N C, unfold_axis h kh sh lh ph -> unfold_axis w kw sw lw pw ->
  tshape x = [N; C * (kh * kw); unfold_out h kh sh lh ph * unfold_out w kw sw lw pw] ->
  exists y, aten_col2im h w kh kw lh lw ph pw sh sw x = Some y /\ teq y (fold2d h w kh kw lh lw ph pw sh sw x).
Proof. exact col2im_correct. Qed.
Print Assumptions C70_fold.
(** overlapping windows with unequal padding: an inner element is covered twice *)
Example C70_example : unfold_axis 4 3 1 1 1 /\ unfold_axis 5 2 1 2 0 /\ unfold_out 4 3 1 1 1 = 4 /\ unfold_out 5 2 1 2 0 = 3 /\
  tget (fold2d 1 3 1 2 1 1 0 0 1 1 (mkT [1; 2; 2] (fun _ => 1%R))) [0; 0; 0; 1] = 2%R /\
  tget (fold2d 1 3 1 2 1 1 0 0 1 1 (mkT [1; 2; 2] (fun _ => 1%R))) [0; 0; 0; 0] = 1%R.
Proof.
  unfold unfold_axis. split; [lia|]. split; [lia|]. split; [reflexivity|]. split; [reflexivity|].
  split; cbv -[Rplus IZR]; ring.
Qed.

(** C71.  Expansion, repetition, interleaved repetition. *)
Theorem C71_expand : forall (A : Type) oshape (t : tensor A), expand_ok (tshape t) oshape -> teq (aten_expand oshape t) (expand oshape t).
Proof. exact @aten_expand_correct. Qed.
Print Assumptions C71_expand.
Theorem C71_repeat : forall (A : Type) reps (t : tensor A), length (tshape t) <= length reps -> teq (aten_repeat reps t) (repeat_t reps t).
Proof. exact @aten_repeat_correct. Qed.
Print Assumptions C71_repeat.
Theorem C71_repeat_interleave : forall (A : Type) reps l dim (t : tensor A), axis_ok (length (tshape t)) dim ->
  reps_list (nth (axis_of (length (tshape t)) dim) (tshape t) 0) reps l ->
  exists y, aten_repeat_interleave reps (Some dim) t = Some y /\ teq y (repeat_interleave (axis_of (length (tshape t)) dim) l t).
Proof. exact @aten_repeat_interleave_dim. Qed.
Print Assumptions C71_repeat_interleave.
Theorem C71_repeat_interleave_flat : forall (A : Type) reps l (t : tensor A), tshape t <> [] ->
  reps_list (prod (tshape t)) reps l ->
  exists y, aten_repeat_interleave reps None t = Some y /\ teq y (repeat_interleave 0 l (flatten t)).
Proof. exact @aten_repeat_interleave_flat. Qed.
Print Assumptions C71_repeat_interleave_flat.
Example C71_example :
  let t := mkT [2; 1] (fun idx => nth 0 idx 0) in
  expand_ok [2; 1] [2; 2; 3] /\ tshape (aten_expand [2; 2; 3] t) = [2; 2; 3] /\ tget (aten_expand [2; 2; 3] t) [1; 1; 2] = 1 /\
  map (tget (repeat_t [2; 1; 2] t)) (indices [2; 2; 2]) = [0; 0; 1; 1; 0; 0; 1; 1] /\
  reps_list 2 (inr [3; 1]) [3; 1] /\
  map (tget (repeat_interleave 0 [3; 1] t)) (indices [4; 1]) = [0; 0; 0; 1].
Proof. cbv zeta. repeat split; cbn; auto. Qed.

(** C72.  Chunks, stacks and gated linear units. *)
Theorem C72_chunk : forall (A : Type) n dim (t : tensor A), axis_ok (length (tshape t)) dim -> 0 < n ->
  0 < axis_size (axis_of (length (tshape t)) dim) t ->
  let ax := axis_of (length (tshape t)) dim in
  exists ys, aten_chunk (map (axis_size ax) (torch_chunk ax n t)) n dim t = Some ys /\ Forall2 teq ys (torch_chunk ax n t).
Proof. exact @aten_chunk_correct. Qed.
Print Assumptions C72_chunk.
Theorem C72_stack : forall (A : Type) (d : A) as_unpack dim s ts, ts <> [] -> Forall (fun t => tshape t = s) ts ->
  axis_ok (S (length s)) dim ->
  teq (aten_stack d as_unpack dim ts) (stack d (axis_of (S (length s)) dim) ts).
Proof. exact @aten_stack_correct. Qed.
Print Assumptions C72_stack.
Theorem C72_glu : forall sg dim t, axis_ok (length (tshape t)) dim -> nth (axis_of (length (tshape t)) dim) (tshape t) 0 mod 2 = 0 ->
  exists y, aten_glu sg dim t = Some y /\ teq y (glu sg (axis_of (length (tshape t)) dim) t).
Proof. exact aten_glu_correct. Qed.
Print Assumptions C72_glu.
Theorem C72_glu_odd : forall sg dim t, nth (axis_of (length (tshape t)) dim) (tshape t) 0 mod 2 <> 0 -> aten_glu sg dim t = None.
Proof. exact aten_glu_odd. Qed.
Print Assumptions C72_glu_odd.
(** seven elements in four chunks, six in eight chunks, a stack behind the last axis *)
Example C72_example :
  let t n := mkT [n] (fun idx => nth 0 idx 0) in
  map (fun y => map (tget y) (indices (tshape y))) (torch_chunk 0 4 (t 7)) = [[0; 1]; [2; 3]; [4; 5]; [6]] /\
  map (fun y => map (tget y) (indices (tshape y))) (torch_chunk 0 8 (t 3)) = [[0]; [1]; [2]] /\
  map (tget (aten_stack 0 false (-1)%Z [t 2; mkT [2] (fun _ => 7)])) (indices [2; 2]) = [0; 7; 1; 7] /\
  axis_ok 2 (-1) /\ 6 mod 2 = 0.
Proof. cbv zeta. unfold axis_ok. repeat split; try reflexivity; lia. Qed.
