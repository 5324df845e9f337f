(** Model of the histogram observer with Kullback-Leibler search
    ([tinynn/graph/quantization/observer.py] 37-151).

    Histogram entries are exact reals.  The bin borders [j * i / 128] are exact in floating point
    because 128 is a power of two, so they are kept as the integers [j * i] with denominator
    [T] (= 128 in the code).  The divergence itself ([F.kl_div]) is an argument. *)
From Coq Require Import List Arith ZArith Bool Reals.
From Verif Require Import Tensor ConvSpec FuseModel.
Import ListNotations.
Local Open Scope R_scope.

Section Bins.
Variable T : nat.          (* target_bin_numbers, 52 *)
Variable d : nat -> R.     (* distribution *)
Variable i : nat.          (* number of candidate bins, 64 *)

(** [distribution != 0] (61-62) *)
Definition nz (k : nat) : R := if Req_EM_T (d k) 0 then 0 else 1.
(** [cumsum_dist], [cumsum_nozeros] (57-60) *)
Definition cumsum (f : nat -> R) (k : nat) : R := lsum (seq 0 k) f.

(** the borders of the [j]-th target bin (77-88) *)
Definition left_upper (j : nat) : nat := ((j * i + (T - 1)) / T)%nat.
Definition right_lower (j : nat) : nat := ((j * i + i) / T)%nat.
Definition left_flag (j : nat) : bool := (j * i <? left_upper j * T)%nat.
Definition right_flag (j : nat) : bool := (right_lower j * T <? j * i + i)%nat.
Definition left_scale (j : nat) : R := INR (left_upper j * T - j * i) / INR T.
Definition right_scale (j : nat) : R := INR (j * i + i - right_lower j * T) / INR T.

(** [quantize_dis] (90-92), and with [nz] instead of [d] [count_] (95-98) *)
Definition merge (f : nat -> R) (j : nat) : R :=
  (if left_flag j then left_scale j * f (left_upper j - 1)%nat else 0) +
  (if right_flag j then right_scale j * f (right_lower j) else 0) +
  (cumsum f (right_lower j) - cumsum f (left_upper j)).
Definition quantize_dis : nat -> R := merge d.
Definition count_ : nat -> R := merge nz.
(** [count_flag], [to_expand_value_] (100-102) *)
Definition count_flag (j : nat) : bool := if Req_EM_T (count_ j) 0 then false else true.
Definition to_expand (j : nat) : R := if count_flag j then quantize_dis j / count_ j else 0.

(** numpy [e[idx] += v]: repeated indices are not accumulated, the last one counts *)
Definition fancy_add (e : nat -> R) (js : list nat) (idx : nat -> nat) (v : nat -> R) : nat -> R :=
  fun k => match find (fun j => idx j =? k)%nat (rev js) with Some j => e k + v j | None => e k end.

(** [expanded_dis] (103-118); the third argument of [np.logical_and] is the output array, so the flags at 103 and 107
    do not depend on the distribution *)
Definition expanded : nat -> R :=
  let js := seq 0 T in
  let k := right_lower 0 in
  let e1 := fancy_add (fun _ => 0) (filter (fun j => count_flag j && left_flag j) js)
                      (fun j => left_upper j - 1)%nat (fun j => to_expand j * left_scale j) in
  let e2 := fancy_add e1 (filter (fun j => count_flag j && right_flag j) js)
                      right_lower (fun j => to_expand j * right_scale j) in
  let e3 := fold_left (fun e m => fancy_add e js (fun j => left_upper j + m)%nat
                                                (fun j => to_expand j * nz (left_upper j + m)%nat)) (seq 0 (k - 1)) e2 in
  fancy_add e3 js (fun j => left_upper j + k - 1)%nat
            (fun j => if (i / T =? right_lower j - left_upper j)%nat
                      then to_expand j * nz (left_upper j + k - 1)%nat else 0).
End Bins.

(** One iteration of the loop (64-126): the candidate with the mass behind the threshold in its last bin, the
    running rest, the comparison.  [None] as divergence stands for nan and infinity. *)
Definition kl_state := (nat * option R * R)%type.     (* threshold, min_kl_divergence, after_threshold_sum *)
Definition kl_better (cur : R) (best : option R) : bool :=
  (match best with None => true | Some b => if Rlt_dec cur b then true else false end) &&
  (if Req_EM_T cur 1 then false else true).
Definition kl_step (T : nat) (dist : list R) (m : nat) (kl : list R -> list R -> option R) (st : kl_state) (i : nat) : kl_state :=
  let '(threshold, best, after) := st in
  let d := fun k => nth k dist 0 in
  let candidate := map (fun k => d k + (if (k =? i - 1)%nat then after else 0)) (seq 0 i) in
  let after' := if (i =? m)%nat then 0 else after - d i in
  let exp := map (expanded T d i) (seq 0 i) in
  match kl exp candidate with
  | Some cur => if kl_better cur best then (i, Some cur, after') else (threshold, best, after')
  | None => (threshold, best, after')
  end.
(** [_compute_threshold] (38-128).  [distribution[i]] is read for every [i] below [m_bin_number], and the last
    candidate has [m_bin_number] bins. *)
Definition compute_threshold (T : nat) (dist : list R) (m : nat) (kl : list R -> list R -> option R) : option nat :=
  if (m <=? length dist)%nat then
    Some (fst (fst (fold_left (kl_step T dist m kl) (seq T (m + 1 - T))
                              (T, None, lsum (skipn T dist) (fun v => v)))))
  else None.

(** [_non_linear_param_search] (130-151): [hist] is the histogram, [bins] = 2048 in the call *)
Definition hist_norm (hist : list R) : list R :=
  let bins := match hist with _ :: b1 :: r => b1 :: b1 :: r | _ => hist end in
  let pos := map (Rmax 0) bins in
  let total := lsum pos (fun v => v) in
  map (fun v => v / total) pos.
Definition hist_search (T m : nat) (kl : list R -> list R -> option R) (hist : list R) (min_val max_val : R) : option (R * R) :=
  let dist := hist_norm hist in
  let width := (max_val - min_val) / INR (length hist) in
  obind (compute_threshold T dist m kl) (fun right =>
  let left_dis := rev (firstn right dist) in
  obind (compute_threshold T left_dis (length left_dis) kl) (fun left_ =>
  Some (min_val + width * INR (right - left_), min_val + width * INR right))).
