(** Property theorems: replacing transposes by reshapes (C108, C109). *)
From Coq Require Import List Arith Bool Lia Permutation.
From Verif Require Import Tensor ChainModel PassWrapModel PassWrapSpec PassWrapProofs.
Import ListNotations.

Ltac perm_ex := apply is_perm_intro; [reflexivity|repeat constructor; simpl; intuition lia|repeat constructor; lia].

(** ** C108: a TRANSPOSE is turned into a RESHAPE exactly when it only moves axes of size one. *)
Theorem C108_transpose_to_reshape :
  forall (s p : list nat) (deg : nat),
    is_perm (length s) p -> Forall (fun d => 0 < d) s -> 1 <= deg ->
    (transpose_to_reshape deg s (sel s p) p = Some (sel s p) <-> keeps_order s p) /\
    (transpose_to_reshape deg s (sel s p) p = Some (sel s p) <->
     forall A (t : tensor A), tshape t = s -> teq (transpose p t) (reshape (sel s p) t)).
Proof. exact transpose_to_reshape_iff. Qed.
Print Assumptions C108_transpose_to_reshape.

(** whatever the sizes, a node that is turned computes the same. *)
Theorem C108_turned :
  forall (s p sh : list nat) (deg : nat), is_perm (length s) p -> transpose_to_reshape deg s (sel s p) p = Some sh ->
    forall A (t : tensor A), tshape t = s -> teq (transpose p t) (reshape sh t).
Proof. exact transpose_to_reshape_ok. Qed.
Print Assumptions C108_turned.

Example C108_example :
  is_perm 4 [1; 0; 3; 2] /\ keeps_order [1; 3; 1; 4] [1; 0; 3; 2] /\
  transpose_to_reshape 1 [1; 3; 1; 4] [3; 1; 4; 1] [1; 0; 3; 2] = Some [3; 1; 4; 1] /\
  transpose_to_reshape 1 [2; 2] [2; 2] [1; 0] = None /\
  transpose_to_reshape 1 [1; 3; 4] [1; 4; 3] [0; 2; 1] = None.
Proof. split; [perm_ex|]. repeat split; reflexivity. Qed.

(** ** C109: three operators TRANSPOSE, RESHAPE, TRANSPOSE are replaced by a RESHAPE only when they
    compute one.  False when the RESHAPE changes the rank; see the witnesses. *)
Theorem C109_wrapped_partial :
  forall (A : Type) (t : tensor A) (p b q sh : list nat),
    is_perm (length (tshape t)) p -> is_perm (length b) q ->
    (length b = length (tshape t) \/
     (length b < length (tshape t) /\ involution q /\ distinct_sizes (tshape t)) \/
     (length (tshape t) < length b /\ involution p /\ involution q /\ distinct_sizes (tshape t))) ->
    fuse_wrapped_reshape p (sel (tshape t) p) b q (sel b q) = Some (Some sh) ->
    teq (wrapped p b q t) (reshape sh t).
Proof. exact @wrapped_cases. Qed.
Print Assumptions C109_wrapped_partial.

Example C109_example :
  is_perm 4 [0; 2; 3; 1] /\ is_perm 4 [2; 0; 1; 3] /\
  fuse_wrapped_reshape [0; 2; 3; 1] [1; 3; 4; 2] [3; 4; 2; 1] [2; 0; 1; 3] [2; 3; 4; 1] = Some None /\
  fuse_wrapped_reshape [0; 2; 3; 1] [1; 3; 4; 2] [3; 1; 4; 2] [1; 3; 0; 2] [1; 2; 3; 4] = Some (Some [1; 2; 3; 4]) /\
  is_perm 4 [0; 2; 1; 3] /\ is_perm 3 [1; 0; 2] /\ involution [1; 0; 2] /\ involution [0; 2; 1; 3] /\
  distinct_sizes [1; 3; 4; 2] /\
  fuse_wrapped_reshape [0; 2; 1; 3] [1; 4; 3; 2] [4; 3; 2] [1; 0; 2] [3; 4; 2] = Some (Some [3; 4; 2]) /\
  fuse_wrapped_reshape [1; 0; 2] [4; 3; 2] [1; 4; 3; 2] [0; 2; 1; 3] [1; 3; 4; 2] = Some (Some [1; 3; 4; 2]).
Proof.
  repeat match goal with |- _ /\ _ => split end; try perm_ex; try reflexivity.
  unfold distinct_sizes. simpl. repeat constructor; simpl; intuition lia.
Qed.

(** All sizes different: a rotation of three axes, done twice, is taken for the identity. *)
Theorem C109_rotation_refuted :
  exists (t : tensor nat) (p b q sh : list nat),
    is_perm (length (tshape t)) p /\ is_perm (length b) q /\ distinct_sizes (tshape t) /\
    length b < length (tshape t) /\
    fuse_wrapped_reshape p (sel (tshape t) p) b q (sel b q) = Some (Some sh) /\
    ~ teq (wrapped p b q t) (reshape sh t).
Proof.
  exists (arange [2; 3; 4; 1]), [1; 2; 0; 3], [3; 4; 2], [1; 2; 0], [4; 2; 3].
  repeat match goal with |- _ /\ _ => split end; try perm_ex; try reflexivity; try (simpl; lia).
  - unfold distinct_sizes. simpl. repeat constructor; simpl; intuition lia.
  - apply (not_teq_at _ _ [0; 0; 1]); [repeat constructor|vm_compute; discriminate].
Qed.
Print Assumptions C109_rotation_refuted.

(** Swaps only, but two axes of the same size: they are mixed up. *)
Theorem C109_equal_sizes_refuted :
  exists (t : tensor nat) (p b q sh : list nat),
    is_perm (length (tshape t)) p /\ is_perm (length b) q /\ involution p /\ involution q /\
    length b < length (tshape t) /\
    fuse_wrapped_reshape p (sel (tshape t) p) b q (sel b q) = Some (Some sh) /\
    ~ teq (wrapped p b q t) (reshape sh t).
Proof.
  exists (arange [1; 1; 2; 2]), [2; 1; 0; 3], [1; 2; 2], [0; 2; 1], [1; 2; 2].
  repeat match goal with |- _ /\ _ => split end; try perm_ex; try reflexivity; try (simpl; lia).
  apply (not_teq_at _ _ [0; 0; 1]); [repeat constructor|vm_compute; discriminate].
Qed.
Print Assumptions C109_equal_sizes_refuted.

(** The same with a RESHAPE that adds an axis. *)
Theorem C109_expanding_refuted :
  exists (t : tensor nat) (p b q sh : list nat),
    is_perm (length (tshape t)) p /\ is_perm (length b) q /\ distinct_sizes (tshape t) /\
    length (tshape t) < length b /\
    fuse_wrapped_reshape p (sel (tshape t) p) b q (sel b q) = Some (Some sh) /\
    ~ teq (wrapped p b q t) (reshape sh t).
Proof.
  exists (arange [2; 3; 4]), [1; 2; 0], [3; 4; 2; 1], [1; 2; 0; 3], [4; 2; 3; 1].
  repeat match goal with |- _ /\ _ => split end; try perm_ex; try reflexivity; try (simpl; lia).
  - unfold distinct_sizes. simpl. repeat constructor; simpl; intuition lia.
  - apply (not_teq_at _ _ [0; 0; 1; 0]); [repeat constructor|vm_compute; discriminate].
Qed.
Print Assumptions C109_expanding_refuted.

(** The matching of sizes always ends. *)
Theorem C109_decides :
  forall s p b q out : list nat, is_perm (length s) p -> is_perm (length b) q ->
    fuse_wrapped_reshape p (sel s p) b q out <> None.
Proof. exact wrapped_defined. Qed.
Print Assumptions C109_decides.

Example C109_decides_ex : is_perm 5 [4; 3; 2; 1; 0] /\ is_perm 3 [2; 0; 1] /\
  fuse_wrapped_reshape [4; 3; 2; 1; 0] [1; 2; 1; 3; 1] [2; 1; 3] [2; 0; 1] [3; 2; 1] = Some None.
Proof. split; [perm_ex|split; [perm_ex|reflexivity]]. Qed.

(** The nodes taken from a chain are a transpose, a reshape and a transpose next to each other. *)
Theorem C109_window :
  forall (N : Type) (is_transpose : N -> bool) (chain w : list N),
    alternates is_transpose chain -> wrapped_window is_transpose chain = Some w ->
    exists l x y z r, w = [x; y; z] /\ chain = l ++ w ++ r /\
      is_transpose x = true /\ is_transpose y = false /\ is_transpose z = true.
Proof. exact @window_ok. Qed.
Print Assumptions C109_window.

Example C109_window_ex :
  wrapped_window (fun b : bool => b) [false; true; false; true; false] = Some [true; false; true] /\
  wrapped_window (fun b : bool => b) [false; true; false] = None.
Proof. split; reflexivity. Qed.
