(** Model of the lowering of operators that move elements: roll, flip, pixel_shuffle, pixel_unshuffle, expand, repeat,
    repeat_interleave, split, chunk, stack, glu, im2col and col2im of tinynn/converter/operators/torch/aten.py.
    An exception is [None].  Index arithmetic that the converter carries out with numpy or torch on [arange] tensors
    is exact here; the code uses float32 for im2col and col2im, which is exact up to 2^24 elements. *)
From Coq Require Import List Arith Bool Reals ZArith.
From Verif Require Import Tensor ConvSpec CatSpec LayoutSpec FuseModel AtenPoolModel MoveSpec.
Import ListNotations.

(** [ATenRollOperator.parse], one pass of the loop (aten.py 4237-4269): SPLIT_V and CONCATENATION of the parts in
    reverse order, or a RESHAPE when nothing moves *)
Definition roll_axis {A} (d : A) (sd : Z * Z) (t : tensor A) : option (tensor A) :=
  let dim := if (snd sd <? 0)%Z then (snd sd + Z.of_nat (length (tshape t)))%Z else snd sd in
  let ax := Z.to_nat dim in
  let n := nth ax (tshape t) 0 in
  if n =? 0 then None else
  let shift := if (fst sd <? 0)%Z then (fst sd + Z.of_nat n)%Z else fst sd in
  let a := Z.to_nat (shift mod Z.of_nat n) in
  Some (if a =? 0 then reshape (tshape t) t
        else concatenation d ax [chunk ax (n - a) a t; chunk ax 0 (n - a) t]).
Fixpoint roll_loop {A} (d : A) (sds : list (Z * Z)) (t : tensor A) : option (tensor A) :=
  match sds with [] => Some t | sd :: r => obind (roll_axis d sd t) (roll_loop d r) end.
(** the sizes of the two parts: the operand [split_sizes] (aten.py 4247) and the recorded arrays, from [np.split]
    at [actual_shift] (aten.py 4251-4254) *)
Definition roll_parts (s : Z) (n : nat) : nat * list nat * list nat :=
  let shift := if (s <? 0)%Z then (s + Z.of_nat n)%Z else s in
  let a := Z.to_nat (shift mod Z.of_nat n) in (a, [n - a; a], [a; n - a]).
(** the whole of it (aten.py 4206-4282) *)
Definition aten_roll {A} (d : A) (shifts dims : list Z) (t : tensor A) : option (tensor A) :=
  let flat := length dims =? 0 in
  if flat && negb (length shifts =? 1) then None else
  let t' := if flat && negb (length (tshape t) =? 1) then reshape [prod (tshape t)] t else t in
  let dims' := if flat then [0%Z] else dims in
  if negb (length shifts =? length dims') then None else
  obind (roll_loop d (combine shifts dims') t') (fun y =>
    Some (if length (tshape y) =? length (tshape t) then y else reshape (tshape t) y)).

(** [ATenFlipOperator.parse] (aten.py 1391-1411) *)
Definition aten_flip {A} (dims : list Z) (t : tensor A) : tensor A :=
  let n := Z.of_nat (length (tshape t)) in
  let dims := map (fun x => Z.to_nat (if (x <? 0)%Z then x + n else x)%Z) dims in
  if length dims =? 1 then reverse dims t
  else reverse (skipn (length dims - 1) dims) (fold_left (fun y k => reverse [k] y) (removelast dims) t).

(** [np.arange(n)], and [flatten] of an array *)
Definition arange (n : nat) : tensor nat := mkT [n] (fun idx => nth 0 idx 0).
Definition np_flatten {A} (t : tensor A) : list A := map (tget t) (indices (tshape t)).
(** [np.array_equal(np.sort(perm), perm)] *)
Fixpoint is_sorted (l : list nat) : bool :=
  match l with a :: (b :: _) as r => (a <=? b) && is_sorted r | _ => true end.

(** [ATenPixelShuffleOperator.parse] (aten.py 3167-3199) *)
Definition shuffle_perm (c bs : nat) : list nat :=
  np_flatten (transpose [1; 2; 0] (reshape [c / (bs * bs); bs; bs] (arange c))).
Definition aten_pixel_shuffle {A} (r : nat) (t : tensor A) : tensor A :=
  let perm := shuffle_perm (nth 1 (tshape t) 0) r in
  wrap_nhwc (fun xt => depth_to_space r (if is_sorted perm then xt else gather 3 perm xt)) t.

(** [ATenPixelUnshuffleOperator.parse] (aten.py 3202-3234) *)
Definition unshuffle_perm (c bs : nat) : list nat :=
  np_flatten (transpose [2; 0; 1] (reshape [bs; bs; c] (arange (c * (bs * bs))))).
Definition aten_pixel_unshuffle {A} (r : nat) (t : tensor A) : tensor A :=
  let perm := unshuffle_perm (nth 1 (tshape t) 0) r in
  wrap_nhwc (fun xt => let y := space_to_depth r xt in if is_sorted perm then y else gather 3 perm y) t.

(** [ATenExpandOperator.parse_common] of a tensor that is not constant (aten.py 3272-3310); [oshape] is the shape of
    the output of the torch operator *)
Definition expand_repeats (s oshape : list nat) : list nat :=
  map (fun xy => if fst xy =? snd xy then 1 else snd xy) (combine s oshape).
Definition aten_expand {A} (oshape : list nat) (t : tensor A) : tensor A :=
  if list_eqb oshape (tshape t) then t else
  let t' := if length (tshape t) <? length oshape
            then reshape (repeat 1 (length oshape - length (tshape t)) ++ tshape t) t else t in
  tile (expand_repeats (tshape t') oshape) t'.

(** [ATenRepeatOperator.parse] of a tensor that is not constant (aten.py 2822-2846) *)
Definition aten_repeat {A} (reps : list nat) (t : tensor A) : tensor A :=
  let t' := if length (tshape t) <? length reps
            then reshape (repeat 1 (length reps - length (tshape t)) ++ tshape t) t else t in
  tile reps t'.

(** [ATenRepeatInterleaveOperator.parse] (aten.py 2849-2907); [reps] is an integer ([inl]) or a constant vector
    ([inr]).  [torch.repeat_interleave] of the converter accepts a vector of the length of the indices or of one
    element. *)
Definition interleave_indices (n : nat) (reps : nat + list nat) : option (list nat) :=
  let by_list l := concat (map (fun ir => repeat (fst ir) (snd ir)) (combine (seq 0 n) l)) in
  match reps with
  | inl r => Some (by_list (repeat r n))
  | inr l => if length l =? n then Some (by_list l)
             else match l with [r] => Some (by_list (repeat r n)) | _ => None end
  end.
Definition aten_repeat_interleave {A} (reps : nat + list nat) (dim : option Z) (t : tensor A) : option (tensor A) :=
  match dim with
  | None => obind (interleave_indices (prod (tshape t)) reps) (fun ix =>
      Some (gather 0 ix (if 1 <? length (tshape t) then reshape [prod (tshape t)] t else t)))
  | Some d =>
      let ax := Z.to_nat (if (d <? 0)%Z then d + Z.of_nat (length (tshape t)) else d)%Z in
      obind (interleave_indices (nth ax (tshape t) 0) reps) (fun ix => Some (gather ax ix t))
  end.

(** [ATenSplitOperator.parse_common] (aten.py 3103-3133): SPLIT_V; [sizes] are read from the outputs of the torch
    operator *)
Definition aten_split {A} (sizes : list nat) (dim : Z) (t : tensor A) : list (tensor A) :=
  let ax := Z.to_nat (if (dim <? 0)%Z then dim + Z.of_nat (length (tshape t)) else dim)%Z in
  split_sizes ax 0 sizes t.
(** [ATenChunkOperator.parse] (aten.py 3136-3164): SPLIT_V or SPLIT *)
Definition aten_chunk {A} (sizes : list nat) (chunks : nat) (dim : Z) (t : tensor A) : option (list (tensor A)) :=
  let ax := Z.to_nat (if (dim <? 0)%Z then dim + Z.of_nat (length (tshape t)) else dim)%Z in
  let n := nth ax (tshape t) 0 in
  let chunks := if n <? chunks then n else chunks in
  if chunks =? 0 then None
  else if negb (n mod chunks =? 0) then Some (split_sizes ax 0 sizes t)
  else Some (map (fun g => split_part chunks ax g t) (seq 0 chunks)).

(** [ATenStackOperator.parse] (aten.py 1673-1728): PACK when the quantization of all operands is that of the output
    ([as_unpack]), otherwise RESHAPE of each operand and CONCATENATION *)
Definition aten_stack {A} (d : A) (as_unpack : bool) (dim : Z) (ts : list (tensor A)) : tensor A :=
  let n := match ts with [] => 0 | t :: _ => length (tshape t) end in
  let ax := Z.to_nat (if (dim <? 0)%Z then dim + Z.of_nat n + 1 else dim)%Z in
  if as_unpack then pack d ax ts
  else concatenation d ax (map (fun t => reshape (insert_at ax 1 (tshape t)) t) ts).

(** [ATenGluOperator.parse] (aten.py 3896-3922); [sg] is LOGISTIC *)
Definition aten_glu (sg : R -> R) (dim : Z) (t : tensor R) : option (tensor R) :=
  let ax := Z.to_nat (if (dim <? 0)%Z then dim + Z.of_nat (length (tshape t)) else dim)%Z in
  if negb (nth ax (tshape t) 0 mod 2 =? 0) then None
  else binop Rmult (split_part 2 ax 0 t) (tmap sg (split_part 2 ax 1 t)).

(** [fake_input] and [torch.nonzero(fake_input >= 0)[...]] (aten.py 4439-4443, 4475-4487) *)
Definition fake_input (sh : list nat) : tensor nat := mkT sh (ravel sh).
(** [ATenIm2colOperator.parse] (aten.py 4416-4445); the rows of the padding are flipped (line 4433-4434) *)
Definition aten_im2col (kh kw lh lw ph pw sh sw : nat) (x : tensor R) : option (tensor R) :=
  if negb (length (tshape x) =? 4) then None else
  let padded := pad_op 0%R (rev ([(ph, ph); (pw, pw)] ++ [(0, 0); (0, 0)])) x in
  let ds := [nth 0 (tshape x) 0; nth 1 (tshape x) 0; nth 2 (tshape x) 0 + 2 * ph; nth 3 (tshape x) 0 + 2 * pw] in
  let fake := unfold2d 0 kh kw lh lw 0 0 sh sw (fake_input ds) in
  Some (gather_full (tshape fake) (fun idx => unravel ds (tget fake idx)) padded).
(** [ATenCol2imOperator.parse] of a batch (aten.py 4448-4498) *)
Definition aten_col2im (h w kh kw lh lw ph pw sh sw : nat) (x : tensor R) : option (tensor R) :=
  if negb (length (tshape x) =? 3) then None else
  let c := nth 1 (tshape x) 0 / (kh * kw) in
  let ds := [nth 0 (tshape x) 0; c; h + 2 * ph; w + 2 * pw] in
  let fake := unfold2d 0 kh kw lh lw 0 0 sh sw (fake_input ds) in
  let padded := scatter_full ds (fun idx => unravel ds (tget fake idx)) x in
  let crop := slice_op [0; 0; ph; pw] [nth 0 (tshape x) 0; c; h; w] (fake_input ds) in
  Some (gather_full (tshape crop) (fun idx => unravel ds (tget crop idx)) padded).
