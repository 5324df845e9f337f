(** Slicing one axis: what torch selects, what the TFLite kernels select, and their
    agreement on the operators emitted by [SliceModel]. *)
From Coq Require Import List ZArith Bool Lia Sorting.Sorted.
From Verif Require Import SliceModel.
Import ListNotations.
Local Open Scope Z_scope.

(* ------------------------------------------------------------------ *)
(** * Specification *)

(** 0, 1, ..., n-1 *)
Definition zseq (n : Z) : list Z := map Z.of_nat (seq 0 (Z.to_nat n)).
Definition wrap (d v : Z) : Z := if v <? 0 then v + d else v.
(** torch [x[start:stop:step]]: negative bounds count from the end, then both are clamped. *)
Definition torch_start (d : Z) (o : option Z) : Z :=
  match o with None => 0 | Some v => Z.max 0 (Z.min d (wrap d v)) end.
Definition torch_stop (d : Z) (o : option Z) : Z :=
  match o with None => d | Some v => Z.max 0 (Z.min d (wrap d v)) end.
Definition torch_slice (d : Z) (start stop : option Z) (step : Z) : list Z :=
  let s := torch_start d start in
  let e := torch_stop d stop in
  filter (fun j => (s <=? j) && (j <? e) && ((j - s) mod step =? 0)) (zseq d).

(** TFLite SLICE: a size of -1 is the rest; [None] where the kernel reports an error or reads
    outside the input. *)
Definition tfl_slice (d begin size : Z) : option (list Z) :=
  let size := if size =? -1 then d - begin else size in
  if (begin <? 0) || (size <? 0) || (d <? begin + size) then None
  else Some (map (fun i => begin + i) (zseq size)).
(** TFLite STRIDED_SLICE with a positive stride and no masks. *)
Definition tfl_strided (d begin stop step : Z) : list Z :=
  let b := Z.max 0 (Z.min d (wrap d begin)) in
  let e := Z.max 0 (Z.min d (wrap d stop)) in
  map (fun i => b + i * step) (zseq ((e - b + step - 1) / step)).
Definition run_emitted (d : Z) (op : emitted) : option (list Z) :=
  match op with
  | ESlice b n => tfl_slice d b n
  | EStrided b e st => Some (tfl_strided d b e st)
  end.

(* ------------------------------------------------------------------ *)
(** * Lists in increasing order *)

Lemma sorted_eq : forall l l' : list Z, StronglySorted Z.lt l -> StronglySorted Z.lt l' ->
  (forall x, In x l <-> In x l') -> l = l'.
Proof.
  induction l as [|a l IH]; intros [|b l'] S S' E.
  - reflexivity.
  - exfalso. apply (proj2 (E b)). left; reflexivity.
  - exfalso. apply (proj1 (E a)). left; reflexivity.
  - inversion S as [|? ? Sl Fa]; subst. inversion S' as [|? ? Sl' Fb]; subst.
    rewrite Forall_forall in Fa, Fb.
    assert (a = b).
    { destruct (proj1 (E a) (or_introl eq_refl)) as [Q|Q]; [congruence|].
      destruct (proj2 (E b) (or_introl eq_refl)) as [P|P]; [congruence|].
      specialize (Fa _ P). specialize (Fb _ Q). lia. }
    subst b. f_equal. apply IH; trivial. intros x. split; intros H.
    + destruct (proj1 (E x) (or_intror H)) as [Q|Q]; trivial. subst. specialize (Fa _ H). lia.
    + destruct (proj2 (E x) (or_intror H)) as [Q|Q]; trivial. subst. specialize (Fb _ H). lia.
Qed.

Lemma zseq_In : forall n x, In x (zseq n) <-> 0 <= x < n.
Proof.
  intros n x. unfold zseq. rewrite in_map_iff. split.
  - intros (k & <- & H). apply in_seq in H. lia.
  - intros H. exists (Z.to_nat x). split; [lia|]. apply in_seq. lia.
Qed.

Lemma zseq_sorted : forall (f : Z -> Z) n, (forall x y, x < y -> f x < f y) -> StronglySorted Z.lt (map f (zseq n)).
Proof.
  intros f n Hf. unfold zseq. rewrite map_map. generalize 0%nat. generalize (Z.to_nat n) as m.
  induction m as [|m IH]; intros s; cbn [seq map]; constructor; [apply IH|].
  apply Forall_forall. intros x H. apply in_map_iff in H. destruct H as (k & <- & H).
  apply in_seq in H. apply Hf. lia.
Qed.

Lemma filter_sorted : forall (p : Z -> bool) l, StronglySorted Z.lt l -> StronglySorted Z.lt (filter p l).
Proof.
  induction l as [|a l IH]; intros S; cbn [filter]; [constructor|].
  inversion S as [|? ? Sl Fa]; subst. destruct (p a); [|apply IH; trivial].
  constructor; [apply IH; trivial|]. rewrite Forall_forall in *. intros x H.
  apply filter_In in H. apply Fa. tauto.
Qed.

(** stepping from [b] meets exactly the positions congruent to [b] in the window *)
Lemma filter_step : forall d b e st, 0 < st -> 0 <= b -> e <= d ->
  map (fun i => b + i * st) (zseq ((e - b + st - 1) / st)) =
  filter (fun j => (b <=? j) && (j <? e) && ((j - b) mod st =? 0)) (zseq d).
Proof.
  intros d b e st Hst Hb He. apply sorted_eq.
  - apply zseq_sorted. intros x y H. nia.
  - apply filter_sorted. rewrite <- (map_id (zseq d)). apply zseq_sorted. trivial.
  - intros x. rewrite filter_In, in_map_iff, zseq_In. split.
    + intros (i & <- & H). apply zseq_In in H.
      assert (Q : i * st < e - b).
      { assert (i + 1 <= (e - b + st - 1) / st) by lia.
        pose proof (Z.mul_div_le (e - b + st - 1) st Hst). nia. }
      split; [nia|]. replace (b + i * st - b) with (i * st) by lia.
      rewrite Z_mod_mult. rewrite !andb_true_iff, Z.leb_le, Z.ltb_lt. split; [split; [nia|lia]|reflexivity].
    + rewrite !andb_true_iff, Z.leb_le, Z.ltb_lt, Z.eqb_eq. intros (_ & (H1 & H2) & H3).
      exists ((x - b) / st). pose proof (Z.div_mod (x - b) st). split; [lia|].
      apply zseq_In. split; [apply Z.div_pos; lia|].
      assert ((x - b) / st + 1 <= (e - b + st - 1) / st); [|lia].
      apply Z.div_le_lower_bound; [lia|]. nia.
Qed.

Lemma filter_one : forall d b n, 0 <= b -> 0 <= n -> b + n <= d ->
  map (fun i => b + i) (zseq n) =
  filter (fun j => (b <=? j) && (j <? b + n) && ((j - b) mod 1 =? 0)) (zseq d).
Proof.
  intros d b n Hb Hn Hd. rewrite <- (filter_step d b (b + n) 1) by lia.
  replace ((b + n - b + 1 - 1) / 1) with n by (rewrite Z.div_1_r; lia).
  apply map_ext. intros i. lia.
Qed.

Lemma filter_empty : forall d b b' e e' st st', e <= b -> e' <= b' ->
  filter (fun j => (b <=? j) && (j <? e) && ((j - b) mod st =? 0)) (zseq d) =
  filter (fun j => (b' <=? j) && (j <? e') && ((j - b') mod st' =? 0)) (zseq d).
Proof.
  intros d b b' e e' st st' H H'. apply filter_ext. intros j.
  replace ((b <=? j) && (j <? e)) with false; [replace ((b' <=? j) && (j <? e')) with false; [reflexivity|]|].
  - symmetry. apply andb_false_iff. destruct (Z.leb_spec b' j); [right; apply Z.ltb_ge; lia|left; reflexivity].
  - symmetry. apply andb_false_iff. destruct (Z.leb_spec b j); [right; apply Z.ltb_ge; lia|left; reflexivity].
Qed.

(* ------------------------------------------------------------------ *)
(** * Correctness *)

Ltac zcase :=
  repeat match goal with
  | |- context [?a <? ?b] => destruct (Z.ltb_spec a b)
  | |- context [?a >=? ?b] => rewrite (Z.geb_leb a b)
  | |- context [?a >? ?b] => rewrite (Z.gtb_ltb a b)
  | |- context [?a <=? ?b] => destruct (Z.leb_spec a b)
  end.

Definition in_range_start (d : Z) (o : option Z) : Prop := match o with None => True | Some v => - d <= v end.
Definition below (d : Z) (o : option Z) : Prop := match o with None => True | Some v => v <= d end.

(** the normalised bounds: start as torch's except beyond the axis, stop as torch's or
    equal to a start that leaves nothing *)
Lemma slice_args_spec : forall d start stop, 0 <= d -> in_range_start d start ->
  let '(s, e) := slice_args d start stop in
  0 <= s /\ torch_start d start = Z.min d s /\ e <= d /\ Z.min s d <= e /\
  (e = torch_stop d stop \/ (torch_stop d stop <= Z.min d s /\ e = Z.min d s)).
Proof.
  intros d start stop Hd Hs. unfold slice_args, torch_start, torch_stop, wrap, in_range_start in *.
  destruct start as [s|], stop as [e|]; zcase; lia.
Qed.

(** the window from [s] to torch's stop, written with the normalised stop *)
Lemma window_eq : forall d s e e' st, (e = e' \/ (e' <= Z.min d s /\ e = Z.min d s)) ->
  filter (fun j => (Z.min d s <=? j) && (j <? e) && ((j - Z.min d s) mod st =? 0)) (zseq d) =
  filter (fun j => (Z.min d s <=? j) && (j <? e') && ((j - Z.min d s) mod st =? 0)) (zseq d).
Proof.
  intros d s e e' st [->|(H & ->)]; [reflexivity|]. apply filter_empty; lia.
Qed.

Lemma strided_correct : forall d b e e' st, 0 <= d -> 0 < st -> 0 <= b -> 0 <= e <= d ->
  (e = e' \/ (e' <= Z.min d b /\ e = Z.min d b)) ->
  tfl_strided d b e st =
  filter (fun j => (Z.min d b <=? j) && (j <? e') && ((j - Z.min d b) mod st =? 0)) (zseq d).
Proof.
  intros d b e e' st Hd Hst Hb He H. rewrite <- (window_eq d b e e' st H).
  unfold tfl_strided, wrap. destruct (Z.ltb_spec b 0); [lia|]. destruct (Z.ltb_spec e 0); [lia|].
  replace (Z.max 0 (Z.min d b)) with (Z.min d b) by lia.
  replace (Z.max 0 (Z.min d e)) with e by lia.
  apply filter_step; lia.
Qed.

Lemma emit_static_step : forall d start stop step, 0 <= d -> 1 < step -> in_range_start d start ->
  run_emitted d (emit_slice d start stop None None step) = Some (torch_slice d start stop step).
Proof.
  intros d start stop step Hd Hst Hs. pose proof (slice_args_spec d start stop Hd Hs) as H.
  unfold emit_slice. destruct (slice_args d start stop) as [s e]. destruct H as (H1 & H2 & H3 & H4 & H5).
  destruct (Z.eqb_spec step 1); [lia|]. cbn [run_emitted]. f_equal. unfold torch_slice. rewrite H2.
  apply strided_correct; trivial; lia.
Qed.

Lemma emit_static_one : forall d start stop, 0 <= d -> in_range_start d start -> below d start ->
  run_emitted d (emit_slice d start stop None None 1) = Some (torch_slice d start stop 1).
Proof.
  intros d start stop Hd Hs Hb. pose proof (slice_args_spec d start stop Hd Hs) as H.
  assert (Q : fst (slice_args d start stop) <= d).
  { unfold slice_args, below, in_range_start in *. destruct start; cbn [fst]; zcase; lia. }
  unfold emit_slice. destruct (slice_args d start stop) as [s e]. destruct H as (H1 & H2 & H3 & H4 & H5).
  cbn [fst] in Q. replace (Z.min d s) with s in * by lia. cbn [Z.eqb Pos.eqb run_emitted].
  unfold tfl_slice. destruct (Z.eqb_spec (e - s) (-1)); [lia|].
  destruct (Z.ltb_spec s 0); [lia|]. destruct (Z.ltb_spec (e - s) 0); [lia|].
  destruct (Z.ltb_spec d (s + (e - s))); [lia|]. cbn [orb]. f_equal.
  rewrite (filter_one d s (e - s)) by lia. replace (s + (e - s)) with e by lia.
  unfold torch_slice. rewrite H2. pose proof (window_eq d s e (torch_stop d stop) 1) as W.
  replace (Z.min d s) with s in W by lia. apply W. trivial.
Qed.

(** start computed at run time; the stop was normalised against the traced start *)
Lemma emit_dyn_start : forall d traced stop start step, 0 <= d -> 0 < step ->
  - d <= start -> torch_start d (Some traced) <= torch_stop d stop ->
  in_range_start d (Some traced) ->
  run_emitted d (emit_slice d (Some traced) stop (Some start) None step) =
  Some (torch_slice d (Some start) stop step).
Proof.
  intros d traced stop start step Hd Hst Hs Ht Hi.
  pose proof (slice_args_spec d (Some traced) stop Hd Hi) as H.
  unfold emit_slice. destruct (slice_args d (Some traced) stop) as [s e]. destruct H as (H1 & H2 & H3 & H4 & H5).
  cbn [run_emitted]. f_equal. unfold torch_slice.
  assert (E : e = torch_stop d stop) by lia.
  assert (E0 : 0 <= torch_stop d stop <= d) by (unfold torch_stop; destruct stop; lia).
  assert (S0 : Z.max 0 (Z.min d (wrap d start)) = torch_start d (Some start)) by reflexivity.
  unfold tfl_strided. rewrite S0. unfold wrap. destruct (Z.ltb_spec e 0); [lia|].
  replace (Z.max 0 (Z.min d e)) with (torch_stop d stop) by lia.
  apply filter_step; trivial; [|lia]. unfold torch_start. lia.
Qed.

(** stop computed at run time *)
Lemma emit_dyn_stop : forall d start traced stop step, 0 <= d -> 0 < step -> in_range_start d start ->
  run_emitted d (emit_slice d start (Some traced) None (Some stop) step) =
  Some (torch_slice d start (Some stop) step).
Proof.
  intros d start traced stop step Hd Hst Hs.
  pose proof (slice_args_spec d start (Some traced) Hd Hs) as H.
  unfold emit_slice. destruct (slice_args d start (Some traced)) as [s e]. destruct H as (H1 & H2 & _).
  cbn [run_emitted]. f_equal. unfold torch_slice. rewrite H2. unfold tfl_strided.
  replace (Z.max 0 (Z.min d (wrap d stop))) with (torch_stop d (Some stop)) by reflexivity.
  replace (Z.max 0 (Z.min d (wrap d s))) with (Z.min d s)
    by (unfold wrap; destruct (Z.ltb_spec s 0); lia).
  apply filter_step; [lia|lia|]. unfold torch_stop. lia.
Qed.

(** both computed at run time: no condition on them *)
Lemma emit_dyn_both : forall d s0 e0 start stop step, 0 <= d -> 0 < step ->
  run_emitted d (emit_slice d s0 e0 (Some start) (Some stop) step) =
  Some (torch_slice d (Some start) (Some stop) step).
Proof.
  intros d s0 e0 start stop step Hd Hst. unfold emit_slice. destruct (slice_args d s0 e0) as [s e].
  cbn [run_emitted]. f_equal. unfold torch_slice, tfl_strided.
  replace (Z.max 0 (Z.min d (wrap d stop))) with (torch_stop d (Some stop)) by reflexivity.
  replace (Z.max 0 (Z.min d (wrap d start))) with (torch_start d (Some start)) by reflexivity.
  apply filter_step; [lia|unfold torch_start; lia|unfold torch_stop; lia].
Qed.
