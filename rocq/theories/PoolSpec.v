(** Pooling of torch and of TFLite (specification side: documented semantics, no converter code). *)
From Coq Require Import List Arith Bool Reals Lia.
From Verif Require Import Tensor ConvSpec.
Import ListNotations.
Local Open Scope R_scope.

(** number of windows on an axis; with [ceil] the last window may leave the padded operand, but it starts inside
    the operand or its padding in front *)
Definition pool_out (ceil : bool) (d k s p : nat) : nat :=
  let o := ((d + 2 * p - k + (if ceil then s - 1 else 0)) / s + 1)%nat in
  if ceil && (d + p <=? (o - 1) * s)%nat then (o - 1)%nat else o.
Fixpoint pool_outs (ceil : bool) (dims ks stride pad : list nat) : list nat :=
  match dims, ks, stride, pad with
  | d :: dims', k :: ks', s :: stride', p :: pad' => pool_out ceil d k s p :: pool_outs ceil dims' ks' stride' pad'
  | _, _, _, _ => []
  end.

(** the taps of one window; [None] outside the operand *)
Definition ones (l : list nat) : list nat := map (fun _ => 1%nat) l.
Definition pool_win (x : tensor R) (ks stride pad : list nat) (n c : nat) (pos : list nat) : list (option R) :=
  let dims := skipn 2 (tshape x) in
  map (fun t => option_map (fun q => tget x (n :: c :: q)) (tap dims stride (ones dims) pad pos t)) (indices ks).
Definition torch_pool {B} (g : list nat -> list (option R) -> B) (ceil : bool) (ks stride pad : list nat)
  (x : tensor R) : tensor B :=
  mkT (nth 0 (tshape x) 0%nat :: nth 1 (tshape x) 0%nat :: pool_outs ceil (skipn 2 (tshape x)) ks stride pad)
      (fun idx => g (skipn 2 idx) (pool_win x ks stride pad (nth 0 idx 0%nat) (nth 1 idx 0%nat) (skipn 2 idx))).

Definition max_pool := torch_pool (fun _ w => fold_right omax None w).

Definition is_some {A} (o : option A) : bool := match o with Some _ => true | None => false end.
Definition count_some {A} (l : list (option A)) : nat := length (filter is_some l).
(** taps inside the padded operand *)
Fixpoint zip_padded (dims pad : list nat) : list nat :=
  match dims, pad with d :: dims', p :: pad' => (d + 2 * p)%nat :: zip_padded dims' pad' | _, _ => [] end.
Definition padded_taps (dims ks stride pad pos : list nat) : nat :=
  count_some (map (tap (zip_padded dims pad) stride (ones dims) (map (fun _ => 0%nat) dims) pos) (indices ks)).
(** the sum is divided by the override, or the number of taps in the padded operand, or in the operand *)
Definition avg_pool (include : bool) (override : option nat) (ceil : bool) (ks stride pad : list nat) (x : tensor R) : tensor R :=
  torch_pool (fun pos w =>
    lsum w val0 / INR (match override with
                       | Some d => d
                       | None => if include then padded_taps (skipn 2 (tshape x)) ks stride pad pos else count_some w
                       end)) ceil ks stride pad x.

(** TFLite kernel AVERAGE_POOL_2D: mean of the taps that are not padding *)
Definition avgpool_kernel (o : nat) (win : list (list (option R))) : R :=
  let w := map (fun r => nth o r None) win in lsum w val0 / INR (count_some w).

(** adaptive pooling: output position [i] of [o] covers [i*d/o, (i+1)*d/o), rounded outwards *)
Definition ad_start (d o i : nat) : nat := (i * d / o)%nat.
Definition ad_end (d o i : nat) : nat := cdiv (S i * d) o.
Fixpoint ad_cells (dims odims pos : list nat) : list (list nat) :=
  match dims, odims, pos with
  | d :: dims', o :: odims', i :: pos' =>
      flat_map (fun q => map (cons q) (ad_cells dims' odims' pos')) (seq (ad_start d o i) (ad_end d o i - ad_start d o i))
  | _, _, _ => [[]]
  end.
Definition adaptive {B} (g : list R -> B) (odims : list nat) (x : tensor R) : tensor B :=
  mkT (nth 0 (tshape x) 0%nat :: nth 1 (tshape x) 0%nat :: odims)
      (fun idx => g (map (fun q => tget x (nth 0 idx 0%nat :: nth 1 idx 0%nat :: q)) (ad_cells (skipn 2 (tshape x)) odims (skipn 2 idx)))).
Definition mean (l : list R) : R := lsum l (fun v => v) / INR (length l).
Definition lmax (l : list R) : option R := fold_right (fun v m => omax (Some v) m) None l.

(** operands that torch accepts: nonempty axes, padding at most half of the kernel, at least one window *)
Definition pool_axis (d k s p : nat) : Prop := (0 < d /\ 0 < k /\ 0 < s /\ 2 * p <= k /\ k <= d + 2 * p)%nat.
(** the setting in which ceil mode is converted correctly although the windows do not fit exactly *)
Definition ceil_ok (d k s p : nat) : Prop := (s <= k /\ (p = 0 \/ p + 1 < s))%nat.
