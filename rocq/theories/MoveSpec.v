(** Meaning of the torch operators that move elements, and of the TFLite operators DEPTH_TO_SPACE, SPACE_TO_DEPTH,
    REVERSE_V2, GATHER_ND and SCATTER_ND (specification side: documented semantics, no converter code). *)
From Coq Require Import List Arith Bool Reals Lia ZArith.
From Verif Require Import Tensor ConvSpec CatSpec LayoutSpec.
Import ListNotations.

(** an axis argument of torch: negative axes count from the end *)
Definition axis_of (n : nat) (d : Z) : nat := Z.to_nat (if (d <? 0)%Z then d + Z.of_nat n else d).
Definition axis_ok (n : nat) (d : Z) : Prop := (- Z.of_nat n <= d < Z.of_nat n)%Z.

(** * TFLite *)

(** REVERSE_V2 with the axis vector [axes] *)
Fixpoint flip_idx (k : nat) (axes sh idx : list nat) : list nat :=
  match sh, idx with
  | d :: sh', i :: idx' => (if existsb (Nat.eqb k) axes then d - 1 - i else i) :: flip_idx (S k) axes sh' idx'
  | _, _ => []
  end.
Definition reverse {A} (axes : list nat) (t : tensor A) : tensor A :=
  mkT (tshape t) (fun idx => tget t (flip_idx 0 axes (tshape t) idx)).

(** DEPTH_TO_SPACE and SPACE_TO_DEPTH, layout [N; H; W; C], block size [b] *)
Definition depth_to_space {A} (b : nat) (t : tensor A) : tensor A :=
  let s := tshape t in
  let c' := nth 3 s 0 / (b * b) in
  mkT [nth 0 s 0; nth 1 s 0 * b; nth 2 s 0 * b; c']
      (fun idx => let n := nth 0 idx 0 in let y := nth 1 idx 0 in let x := nth 2 idx 0 in let c := nth 3 idx 0 in
                  tget t [n; y / b; x / b; ((y mod b) * b + x mod b) * c' + c]).
Definition space_to_depth {A} (b : nat) (t : tensor A) : tensor A :=
  let s := tshape t in
  let c := nth 3 s 0 in
  mkT [nth 0 s 0; nth 1 s 0 / b; nth 2 s 0 / b; c * (b * b)]
      (fun idx => let n := nth 0 idx 0 in let y := nth 1 idx 0 in let x := nth 2 idx 0 in let k := nth 3 idx 0 in
                  tget t [n; y * b + k / c / b; x * b + (k / c) mod b; k mod c]).

(** GATHER_ND with full index vectors [ix] at every position, and SCATTER_ND, which adds up the elements that go to
    the same place *)
Definition gather_full {A} (oshape : list nat) (ix : list nat -> list nat) (t : tensor A) : tensor A :=
  mkT oshape (fun idx => tget t (ix idx)).
Definition list_eqb (a b : list nat) : bool := if list_eq_dec Nat.eq_dec a b then true else false.
Definition scatter_full (oshape : list nat) (ix : list nat -> list nat) (t : tensor R) : tensor R :=
  mkT oshape (fun idx => lsum (indices (tshape t)) (fun j => if list_eqb (ix j) idx then tget t j else 0%R)).

(** * torch *)

(** roll along one axis *)
Definition roll1 {A} (shift : Z) (ax : nat) (t : tensor A) : tensor A :=
  mkT (tshape t) (fun idx => tget t (upd idx ax
    (Z.to_nat ((Z.of_nat (nth ax idx 0%nat) - shift) mod Z.of_nat (nth ax (tshape t) 0%nat))%Z))).
(** [torch.roll]; without axes the flattened tensor is rolled *)
Definition roll {A} (shifts dims : list Z) (t : tensor A) : tensor A :=
  match dims with
  | [] => mkT (tshape t) (fun idx =>
            let n := prod (tshape t) in
            tget t (unravel (tshape t)
              (Z.to_nat ((Z.of_nat (ravel (tshape t) idx) - nth 0 shifts 0%Z) mod Z.of_nat n)%Z)))
  | _ => fold_left (fun t sd => roll1 (fst sd) (axis_of (length (tshape t)) (snd sd)) t) (combine shifts dims) t
  end.

(** [torch.flip]: all axes in [dims] are reversed at once *)
Definition flip {A} (dims : list Z) (t : tensor A) : tensor A :=
  mkT (tshape t) (fun idx => tget t (map (fun k =>
    if existsb (fun d => axis_of (length (tshape t)) d =? k) dims
    then nth k (tshape t) 0 - 1 - nth k idx 0 else nth k idx 0) (seq 0 (length (tshape t))))).

(** [torch.pixel_shuffle] and [torch.pixel_unshuffle] of [N; C; H; W] *)
Definition pixel_shuffle {A} (r : nat) (t : tensor A) : tensor A :=
  let s := tshape t in
  mkT [nth 0 s 0; nth 1 s 0 / (r * r); nth 2 s 0 * r; nth 3 s 0 * r]
      (fun idx => let n := nth 0 idx 0 in let c := nth 1 idx 0 in let y := nth 2 idx 0 in let x := nth 3 idx 0 in
                  tget t [n; c * (r * r) + (y mod r) * r + x mod r; y / r; x / r]).
Definition pixel_unshuffle {A} (r : nat) (t : tensor A) : tensor A :=
  let s := tshape t in
  mkT [nth 0 s 0; nth 1 s 0 * (r * r); nth 2 s 0 / r; nth 3 s 0 / r]
      (fun idx => let n := nth 0 idx 0 in let k := nth 1 idx 0 in let y := nth 2 idx 0 in let x := nth 3 idx 0 in
                  tget t [n; k / (r * r); y * r + (k mod (r * r)) / r; x * r + k mod r]).

(** [torch.Tensor.expand] to the shape [oshape] *)
Definition expand {A} (oshape : list nat) (t : tensor A) : tensor A :=
  mkT oshape (fun idx => tget t (bidx (tshape t) idx)).
Definition expand_ok (s oshape : list nat) : Prop := bshape s oshape = Some oshape.

(** [torch.Tensor.repeat]: missing leading axes count as axes of size one *)
Definition repeat_t {A} (reps : list nat) (t : tensor A) : tensor A :=
  let m := length reps - length (tshape t) in
  mkT (zipmul (repeat 1 m ++ tshape t) reps) (fun idx => tget t (modidx (tshape t) (skipn m idx))).

(** [torch.repeat_interleave] along an axis: element [j] is repeated [reps j] times *)
Fixpoint owner (reps : list nat) (i : nat) : nat :=
  match reps with [] => 0 | r :: reps' => if i <? r then 0 else S (owner reps' (i - r)) end.
Definition repeat_interleave {A} (ax : nat) (reps : list nat) (t : tensor A) : tensor A :=
  mkT (upd (tshape t) ax (list_sum reps)) (fun idx => tget t (upd idx ax (owner reps (nth ax idx 0)))).
(** an integer or a vector of one element stands for the same number everywhere *)
Definition reps_list (n : nat) (reps : nat + list nat) (l : list nat) : Prop :=
  match reps with
  | inl r => l = repeat r n
  | inr v => (length v = n /\ l = v) \/ exists r, v = [r] /\ l = repeat r n
  end.
Definition flatten {A} (t : tensor A) : tensor A := mkT [prod (tshape t)] (fun idx => tget t (unravel (tshape t) (nth 0 idx 0))).

(** [torch.split] by sizes; [torch.chunk] gives pieces of [cdiv d n], the last may be smaller *)
Fixpoint split_sizes {A} (ax start : nat) (sizes : list nat) (t : tensor A) : list (tensor A) :=
  match sizes with [] => [] | z :: sizes' => chunk ax start z t :: split_sizes ax (start + z) sizes' t end.
(** sizes of the pieces of an axis of size [d] for a step of [z] *)
Definition piece_sizes (d z : nat) : list nat := map (fun i => Nat.min z (d - i * z)) (seq 0 (cdiv d z)).
Definition torch_split {A} (ax z : nat) (t : tensor A) : list (tensor A) :=
  split_sizes ax 0 (piece_sizes (axis_size ax t) z) t.
Definition torch_chunk {A} (ax n : nat) (t : tensor A) : list (tensor A) :=
  torch_split ax (cdiv (axis_size ax t) n) t.

(** [torch.stack] *)
Definition stack {A} (d : A) (ax : nat) (ts : list (tensor A)) : tensor A :=
  mkT (match ts with [] => [] | t :: _ => insert_at ax (length ts) (tshape t) end)
      (fun idx => tget (nth (nth ax idx 0) ts (mkT [] (fun _ => d))) (remove_at ax idx)).

(** [torch.nn.functional.glu] with the logistic function [sg] *)
Definition glu (sg : R -> R) (ax : nat) (t : tensor R) : tensor R :=
  let h := axis_size ax t / 2 in
  mkT (upd (tshape t) ax h)
      (fun idx => (tget t idx * sg (tget t (upd idx ax (h + nth ax idx 0%nat))))%R).

(** [torch.nn.functional.unfold] (zero [z] in the padding) and [fold] in two dimensions: [k] kernel, [l] dilation,
    [p] padding, [s] stride *)
Definition unfold_out (d k s l p : nat) : nat := (d + 2 * p - (l * (k - 1) + 1)) / s + 1.
Definition unfold2d {A} (z : A) (kh kw lh lw ph pw sh sw : nat) (x : tensor A) : tensor A :=
  let d := tshape x in
  let h := nth 2 d 0 in let w := nth 3 d 0 in
  let ow := unfold_out w kw sw lw pw in
  mkT [nth 0 d 0; nth 1 d 0 * (kh * kw); unfold_out h kh sh lh ph * ow]
      (fun idx =>
         let n := nth 0 idx 0 in let r := nth 1 idx 0 in let l := nth 2 idx 0 in
         match tap [h; w] [sh; sw] [lh; lw] [ph; pw] [l / ow; l mod ow] [(r mod (kh * kw)) / kw; r mod kw] with
         | Some q => tget x (n :: r / (kh * kw) :: q)
         | None => z
         end).
(** every column entry is added to the place it was taken from *)
Definition fold2d (h w kh kw lh lw ph pw sh sw : nat) (x : tensor R) : tensor R :=
  let d := tshape x in
  let oh := unfold_out h kh sh lh ph in let ow := unfold_out w kw sw lw pw in
  mkT [nth 0 d 0; nth 1 d 0 / (kh * kw); h; w]
      (fun idx =>
         let n := nth 0 idx 0 in let c := nth 1 idx 0 in
         lsum (indices [oh; ow]) (fun o => lsum (indices [kh; kw]) (fun k =>
           match tap [h; w] [sh; sw] [lh; lw] [ph; pw] o k with
           | Some q => if list_eqb q (skipn 2 idx)
                       then tget x [n; c * (kh * kw) + nth 0 k 0 * kw + nth 1 k 0; nth 0 o 0 * ow + nth 1 o 0] else 0%R
           | None => 0%R
           end))).
(** an axis that torch accepts: the dilated kernel fits *)
Definition unfold_axis (d k s l p : nat) : Prop := 0 < k /\ 0 < s /\ l * (k - 1) + 1 <= d + 2 * p.
