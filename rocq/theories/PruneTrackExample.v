(** Paths on which the theorems about the recorded channels hold, and paths on which they fail. *)
From Coq Require Import List Arith Bool ZArith Lia.
From Verif Require Import Tensor PruneModel PruneTrackSpec PruneTrackModel PruneTrackPathSpec PruneTrackDetectProofs
  PruneTrackProofs.
Import ListNotations.
Local Open Scope nat_scope.

Lemma view_moves s out : prod out = prod s -> moves s (reshape out) (viewed s out).
Proof.
  intros P t i j E V W. change (tshape (reshape out t)) with out in V. unfold viewed in W. subst j. split.
  - apply unravel_valid. rewrite <- P. apply ravel_lt. exact V.
  - simpl. rewrite E. reflexivity.
Qed.
(** A convolution with two channels of 2 x 2 outputs; an activation; an average over the last axis, [1, 2, 2, 1]; [view]
    as [1, 4]; a concatenation with one further feature behind it. *)
Definition ex_s := [1; 2; 2; 2].
Definition ex_path : list (pnode * wire) :=
  [(NSame ex_s, aligned ex_s ex_s);
   (NPool [1; 2; 2; 1], over_last ex_s);
   (NIndex (reshape [1; 4]), viewed [1; 2; 2; 1] [1; 4]);
   (NCat 1 [] [[1; 1]], placed [1; 4] 1 0)].
Definition ex_end : track :=
  match ptrack (map fst ex_path) (pstart ex_s 1) with Some (Some st) => st | _ => pstart [] 0 end.
Lemma ex_runs : ptrack (map fst ex_path) (pstart ex_s 1) = Some (Some ex_end).
Proof. unfold ex_end. destruct (ptrack (map fst ex_path) (pstart ex_s 1)) as [[st|]|] eqn:E; [reflexivity| |]; vm_compute in E; discriminate. Qed.
Lemma ex_dims : tshape (tk_t ex_end) = [1; 5] /\ tk_dims ex_end = [1].
Proof. vm_compute. split; reflexivity. Qed.
Lemma ex_row : dget 1 (update_i ex_end) = Some [[0]; [0]; [1]; [1]; [-1]]%Z.
Proof. vm_compute. reflexivity. Qed.

Lemma nth1_firstn3 (i : list nat) : nth 1 (firstn 3 i) 0 = nth 1 i 0.
Proof. destruct i as [|a [|b [|c i]]]; reflexivity. Qed.
Lemma over_last_slice s out : length out = length s -> in_slice s out 1 (over_last s).
Proof.
  intros L. split; [exact L|]. intros i j V [Vj E]. split; [exact Vj|].
  rewrite <- (nth1_firstn3 i), <- E. symmetry. apply nth1_firstn3.
Qed.
Definition ex1 := mkTrack (mkT ex_s (fun i => tget (fill ex_s [1]) (bidx ex_s i))) [1] None
                    (Some (dim_constraints (fill ex_s [1]) [1])).
Lemma ex_step1 : pstep (NSame ex_s) (pstart ex_s 1) = Some (Some ex1).
Proof. reflexivity. Qed.
Definition ex_tr : transform := [(0, [0]); (1, [1])]%Z.
Definition ex2 := mkTrack (fill [1; 2; 2; 1] [1]) [1] (Some ex_tr) None.
Lemma ex_step2 : pstep (NPool [1; 2; 2; 1]) ex1 = Some (Some ex2).
Proof. reflexivity. Qed.
Definition ex3 := mkTrack (reshape [1; 4] (fill [1; 2; 2; 1] [1])) [1] (Some ex_tr) None.
Lemma ex_step3 : pstep (NIndex (reshape [1; 4])) ex2 = Some (Some ex3).
Proof. reflexivity. Qed.
Lemma ex_carried : carried ex_path (pstart ex_s 1).
Proof.
  unfold ex_path. cbn [carried]. rewrite ex_step1. split.
  { split; [intros i j _ A; exact A|]. left. split; reflexivity. }
  rewrite ex_step2. split.
  { exists 1. split; [reflexivity|]. apply over_last_slice. reflexivity. }
  rewrite ex_step3. split.
  { apply view_moves. reflexivity. }
  destruct (pstep (NCat 1 [] [[1; 1]]) ex3) as [[st|]|]; [|exact I|exact I]. split; [|exact I].
  split; [intros i j _ A; exact A|]. right. reflexivity.
Qed.
Lemma aligned_self s i : valid s i -> aligned s s i i.
Proof. intros V. split; [exact V|]. intros a _. right. f_equal. lia. Qed.
Lemma aligned_eq s i j : valid s i -> aligned s s i j -> j = i.
Proof.
  intros V [Vj A]. apply list_eq_nth; [rewrite (valid_length _ _ V), (valid_length _ _ Vj); reflexivity|].
  intros a Ha. rewrite (valid_length _ _ Vj) in Ha. destruct (A a Ha) as [E|E].
  - pose proof (valid_nth _ _ a V Ha). pose proof (valid_nth _ _ a Vj Ha). lia.
  - rewrite E. f_equal. lia.
Qed.
Ltac pos := repeat constructor; lia.
Lemma ex_kept : kept ex_path (pstart ex_s 1) (own 1).
Proof.
  unfold ex_path. cbn [kept]. rewrite ex_step1. split.
  { split; [pos|]. split; [intros i j _ A; exact A|]. intros j V. exists j. split; [exact V|]. apply aligned_self. exact V. }
  rewrite ex_step2. split.
  { split; [pos|]. intros d Ed. cbn [left_dims ex1 tk_dims] in Ed. injection Ed as <-. split; [reflexivity|].
    intros i j c V Vj E D. exists (firstn 3 i ++ [0]). cbn [ex1 tk_t tshape] in Vj.
    assert (W : over_last ex_s i (firstn 3 i ++ [0])).
    { unfold valid in V. repeat match goal with H : Forall2 _ _ (_ :: _) |- _ => inversion H; subst; clear H end.
      match goal with H : Forall2 _ _ [] |- _ => inversion H; subst end.
      split; [|reflexivity]. unfold valid, ex_s. simpl. repeat (apply Forall2_cons; [lia|]). apply Forall2_nil. }
    split; [exact W|]. destruct D as [j' [A D]]. apply (aligned_eq _ _ _ Vj) in A. subst j'. unfold own in D.
    exists (firstn 3 i ++ [0]). split; [apply aligned_self; apply W|]. unfold own. rewrite <- D, <- E.
    destruct W as [_ W]. rewrite <- (nth1_firstn3 (firstn 3 i ++ [0])), W. apply nth1_firstn3. }
  rewrite ex_step3. split.
  { split; [pos|]. intros i _. exists (unravel [1; 2; 2; 1] (ravel [1; 4] i)). reflexivity. }
  destruct (pstep (NCat 1 [] [[1; 1]]) ex3) as [[st|]|]; [|exact I|exact I]. split; [|exact I].
  intros i j A. exact A.
Qed.

(** * Paths on which a channel is missed *)
Lemma sum_misses : misses [(NIndex sum_23, spatial [1; 3; 2; 1])] [1; 3; 2; 1] 1.
Proof.
  eexists _, 1, _, 1, 1. split; [reflexivity|]. split; [vm_compute; auto|]. split; [vm_compute; reflexivity|]. split.
  - exists [0; 1]. split; [vm_compute; repeat constructor|]. split; [reflexivity|].
    exists [0; 1; 0; 0]. split; [split; [repeat constructor|reflexivity]|reflexivity].
  - vm_compute. intuition discriminate.
Qed.
Lemma padding_misses : misses [(NPad [1; 8; 1; 1], padded [1; 4; 1; 1] 1 2)] [1; 4; 1; 1] 1.
Proof.
  eexists _, 1, _, 2, 0. split; [reflexivity|]. split; [vm_compute; auto|]. split; [vm_compute; reflexivity|]. split.
  - exists [0; 2; 0; 0]. split; [vm_compute; repeat constructor|]. split; [reflexivity|].
    exists [0; 0; 0; 0]. split; [split; [repeat constructor|reflexivity]|reflexivity].
  - vm_compute. intuition discriminate.
Qed.
(** A pooling whose output is not the first input of a concatenation. *)
Lemma cat_misses : misses [(NPool [1; 4; 1; 1], over_last [1; 4; 1; 2]);
                           (NCat 1 [[1; 2; 1; 1]] [], placed [1; 4; 1; 1] 1 2)] [1; 4; 1; 2] 1.
Proof.
  eexists _, 1, _, 4, 2. split; [reflexivity|]. split; [vm_compute; auto|]. split; [vm_compute; reflexivity|]. split.
  - exists [0; 4; 0; 0]. split; [vm_compute; repeat constructor|]. split; [reflexivity|].
    exists [0; 2; 0; 0]. split; [split; [repeat constructor|reflexivity]|].
    exists [0; 2; 0; 0]. split; [split; [repeat constructor|reflexivity]|reflexivity].
  - vm_compute. intuition discriminate.
Qed.
(** The channels on two axes before a linear layer over a third. *)
Lemma two_axes_misses : misses [(NIndex (reshape [1; 2; 2; 3]), viewed [1; 4; 3] [1; 2; 2; 3]);
                                (NLinear 3 [1; 2; 2; 5], over_last [1; 2; 2; 3])] [1; 4; 3] 1.
Proof.
  eexists _, 2, _, 1, 1. split; [reflexivity|]. split; [vm_compute; auto|]. split; [vm_compute; reflexivity|]. split.
  - exists [0; 0; 1; 0]. split; [vm_compute; repeat constructor|]. split; [reflexivity|].
    exists [0; 0; 1; 0]. split; [split; [repeat constructor|reflexivity]|].
    exists [0; 1; 0]. split; reflexivity.
  - vm_compute. intuition discriminate.
Qed.
(** A sum with a tensor that has one axis more, and more than one element on it. *)
Lemma rank_misses : misses [(NSame [2; 4; 3], aligned [4; 3] [2; 4; 3])] [4; 3] 1.
Proof.
  eexists _, 1, _, 3, 0. split; [reflexivity|]. split; [vm_compute; auto|]. split; [vm_compute; reflexivity|]. split.
  - exists [0; 3; 0]. split; [vm_compute; repeat constructor|]. split; [reflexivity|].
    exists [3; 0]. split; [|reflexivity]. split; [repeat constructor|].
    intros [|[|a]] H; simpl in *; [right; reflexivity|right; reflexivity|lia].
  - vm_compute. intuition discriminate.
Qed.

Lemma sum_lemma : exists s, misses [(NIndex sum_23, spatial s)] s 1.
Proof. exists [1; 3; 2; 1]. exact sum_misses. Qed.
Lemma padding_lemma : exists s out p, misses [(NPad out, padded s 1 p)] s 1.
Proof. exists [1; 4; 1; 1], [1; 8; 1; 1], 2. exact padding_misses. Qed.
Lemma cat_lemma : exists s u o,
  misses [(NPool u, over_last s); (NCat 1 [o] [], placed u 1 (nth 1 o 0))] s 1.
Proof. exists [1; 4; 1; 2], [1; 4; 1; 1], [1; 2; 1; 1]. exact cat_misses. Qed.
Lemma two_axes_lemma : exists s u v,
  prod u = prod s /\ misses [(NIndex (reshape u), viewed s u); (NLinear 3 v, over_last u)] s 1.
Proof. exists [1; 4; 3], [1; 2; 2; 3], [1; 2; 2; 5]. split; [reflexivity|exact two_axes_misses]. Qed.
Lemma rank_lemma : exists s out, misses [(NSame out, aligned s out)] s 1.
Proof. exists [4; 3], [2; 4; 3]. exact rank_misses. Qed.
