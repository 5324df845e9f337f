(** Properties of the histogram observer: C62. *)
From Coq Require Import List Arith ZArith Bool Reals Lra Lia.
From Verif Require Import Tensor ConvSpec FuseModel FuseProofs HistModel HistProofs.
Import ListNotations.
Local Open Scope R_scope.

(** ** C62: masses of the histograms compared by the search, and the returned range. [T] is 128 in the code. *)

(** Merging [i] bins into [T] keeps the mass of the [i] bins. *)
Theorem C62_merge : forall T d i, (0 < T)%nat -> (T <= i)%nat ->
  lsum (seq 0 T) (quantize_dis T d i) = lsum (seq 0 i) d.
Proof. exact (fun T d i HT Hi => merge_mass T i HT Hi d). Qed.
Print Assumptions C62_merge.
Example C62_merge_example : quantize_dis 2 (fun k => INR k) 3 0 = 1 / 2 /\ quantize_dis 2 (fun k => INR k) 3 1 = 5 / 2.
Proof.
  unfold quantize_dis, merge, cumsum, left_flag, right_flag, left_scale, right_scale.
  change (left_upper 2 3 0) with 0%nat. change (left_upper 2 3 1) with 2%nat. change (right_lower 2 3 0) with 1%nat. change (right_lower 2 3 1) with 3%nat.
  split; cbn -[lsum]; cbv [lsum fold_right map]; cbn; lra.
Qed.

(** The candidate holds the whole mass: the bins behind the threshold are in its last bin. *)
Theorem C62_candidate : forall dist i, (0 < i)%nat -> (i <= length dist)%nat ->
  lsum (clipped dist i) (fun v => v) = lsum dist (fun v => v).
Proof. exact clipped_mass. Qed.
Print Assumptions C62_candidate.
Example C62_candidate_example : clipped [1; 2; 3; 4] 2 = [1; 2 + (3 + (4 + 0))].
Proof. reflexivity. Qed.

(** The threshold is the first candidate of least divergence among those whose divergence is a number other
    than one; [divergence T kl dist i] compares the expansion for [i] bins with [clipped dist i]. *)
Theorem C62_threshold : forall T dist m kl t, (0 < T)%nat -> (T <= m)%nat -> compute_threshold T dist m kl = Some t ->
  (T <= t <= m)%nat /\
  forall i v, (T <= i <= m)%nat -> divergence T kl dist i = Some v -> v <> 1 ->
    exists b, divergence T kl dist t = Some b /\ b <= v /\ ((i < t)%nat -> b < v).
Proof. exact threshold_correct. Qed.
Print Assumptions C62_threshold.
(** here the divergence is the distance of the last entry of the candidate from five *)
Example C62_threshold_example :
  let kl := fun (_ c : list R) => Some (Rabs (last c 0 - 5)) in
  divergence 2 kl [1; 2; 3; 2] 2 = Some (Rabs (2 + (3 + (2 + 0)) - 5)) /\
  divergence 2 kl [1; 2; 3; 2] 3 = Some (Rabs (3 + (2 + 0) - 5)) /\
  exists t, compute_threshold 2 [1; 2; 3; 2] 4 kl = Some t.
Proof. split; [reflexivity|]. split; [reflexivity|]. eexists. reflexivity. Qed.

(** The calibrated range lies in the observed one and spans at least [T] bins, for every divergence. *)
Theorem C62_range : forall T kl hist lo hi, (0 < T)%nat -> (T <= length hist)%nat -> lo <= hi ->
  let m := length hist in
  exists a b, hist_search T m kl hist lo hi = Some (a, b) /\
    lo <= a /\ b <= hi /\ b - a >= INR T * ((hi - lo) / INR m).
Proof. exact search_range. Qed.
Print Assumptions C62_range.
Example C62_range_example : (0 < 128)%nat /\ (128 <= length (repeat 1 200))%nat /\ -1 <= 3.
Proof. rewrite repeat_length. split; [lia|]. split; [lia|lra]. Qed.

(** Expanding the [T] bins again keeps the mass when every bin cut by a border is nonzero. *)
Theorem C62_expand_partial : forall T d i, (0 < T)%nat -> (T <= i)%nat ->
  (forall j, (j < T)%nat -> ((j * i) mod T <> 0)%nat -> d (j * i / T)%nat <> 0) ->
  lsum (seq 0 i) (expanded T d i) = lsum (seq 0 i) d.
Proof. exact expanded_mass. Qed.
Print Assumptions C62_expand_partial.
Example C62_expand_example : let d := fun k => if (k =? 1)%nat then 2 else 0 in
  forall j, (j < 2)%nat -> ((j * 3) mod 2 <> 0)%nat -> d (j * 3 / 2)%nat <> 0.
Proof. intros d j Hj Hm. destruct j as [|[|]]; [exfalso; apply Hm; reflexivity| |lia]. cbn. lra. Qed.
(** Otherwise mass is added: the flags for cut bins do not look at the distribution. *)
Theorem C62_expand_refuted : exists d i, (128 <= i)%nat /\ lsum (seq 0 i) d = 1 /\
  lsum (seq 0 i) (expanded 128 d i) = 1 + 1 / INR 128.
Proof. exact expand_refuted. Qed.
Print Assumptions C62_expand_refuted.
