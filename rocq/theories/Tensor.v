(** Tensors and the meaning of the layout operators (transpose, gather, strided
    slice, reshape, concatenation, pad, tile, ...).

    This file is the *specification side*: it follows the documented semantics of
    the TFLite / numpy operators and does not cite converter code.  A tensor is a
    shape with a function from multi-indices to elements; two tensors are equal
    ([teq]) when the shapes agree and all elements at valid indices agree. *)
From Coq Require Import List Arith Lia Permutation Bool.
Import ListNotations.

Record tensor (A : Type) := mkT { tshape : list nat; tget : list nat -> A }.
Arguments mkT {A} _ _.
Arguments tshape {A} _.
Arguments tget {A} _ _.

(** A multi-index is valid for a shape when it has the same rank and every
    coordinate is below the size of its axis. *)
Definition valid (s idx : list nat) : Prop := Forall2 lt idx s.

Definition teq {A} (t u : tensor A) : Prop :=
  tshape t = tshape u /\ forall idx, valid (tshape t) idx -> tget t idx = tget u idx.

(** [sel l p]: the list of the elements of [l] at the positions in [p]
    (numpy fancy indexing [l[p]]); meaningful when the positions are in range. *)
Definition sel (l p : list nat) : list nat := map (fun k => nth k l 0) p.

Fixpoint find_pos (k : nat) (p : list nat) : nat :=
  match p with
  | [] => 0
  | x :: p' => if x =? k then 0 else S (find_pos k p')
  end.

Definition inv_perm (p : list nat) : list nat :=
  map (fun k => find_pos k p) (seq 0 (length p)).

Definition is_perm (n : nat) (p : list nat) : Prop := Permutation p (seq 0 n).

(** TRANSPOSE: axis [i] of the result is axis [p[i]] of the operand. *)
Definition transpose {A} (p : list nat) (t : tensor A) : tensor A :=
  mkT (sel (tshape t) p) (fun idx => tget t (sel idx (inv_perm p))).

Fixpoint upd (l : list nat) (i v : nat) : list nat :=
  match l, i with
  | [], _ => []
  | _ :: l', 0 => v :: l'
  | x :: l', S i' => x :: upd l' i' v
  end.

(** GATHER along one axis with a rank-1 index vector. *)
Definition gather {A} (axis : nat) (ix : list nat) (t : tensor A) : tensor A :=
  mkT (upd (tshape t) axis (length ix))
      (fun idx => tget t (upd idx axis (nth (nth axis idx 0) ix 0))).

Definition cdiv (a b : nat) : nat := (a + b - 1) / b.

(** STRIDED_SLICE with begin/end/strides (no masks, positive strides). *)
Definition slice_dim (d s e st : nat) : nat := cdiv (Nat.min e d - s) st.
Fixpoint slice_shape (sh s e st : list nat) : list nat :=
  match sh, s, e, st with
  | d :: sh', a :: s', b :: e', c :: st' => slice_dim d a b c :: slice_shape sh' s' e' st'
  | _, _, _, _ => []
  end.
Fixpoint slice_idx (idx s st : list nat) : list nat :=
  match idx, s, st with
  | i :: idx', a :: s', c :: st' => (a + c * i) :: slice_idx idx' s' st'
  | _, _, _ => []
  end.
Definition strided_slice {A} (s e st : list nat) (t : tensor A) : tensor A :=
  mkT (slice_shape (tshape t) s e st) (fun idx => tget t (slice_idx idx s st)).

(** Row-major position of a multi-index, and back. *)
Fixpoint prod (s : list nat) : nat :=
  match s with [] => 1 | d :: s' => d * prod s' end.
Fixpoint ravel (s idx : list nat) : nat :=
  match s, idx with
  | d :: s', i :: idx' => i * prod s' + ravel s' idx'
  | _, _ => 0
  end.
Fixpoint unravel (s : list nat) (n : nat) : list nat :=
  match s with
  | [] => []
  | d :: s' => (n / prod s') :: unravel s' (n mod prod s')
  end.

(** RESHAPE keeps the row-major order of the elements. *)
Definition reshape {A} (s : list nat) (t : tensor A) : tensor A :=
  mkT s (fun idx => tget t (unravel (tshape t) (ravel s idx))).

(* ------------------------------------------------------------------ *)
(** * Basic facts *)

Lemma teq_refl {A} (t : tensor A) : teq t t.
Proof. split; auto. Qed.

Lemma teq_sym {A} (t u : tensor A) : teq t u -> teq u t.
Proof. intros [H1 H2]; split; [auto|]. intros idx V; symmetry; apply H2; rewrite H1; exact V. Qed.

Lemma teq_trans {A} (t u v : tensor A) : teq t u -> teq u v -> teq t v.
Proof.
  intros [H1 H2] [H3 H4]; split; [congruence|].
  intros idx V; rewrite H2 by exact V; apply H4; rewrite <- H1; exact V.
Qed.

Lemma valid_length s idx : valid s idx -> length idx = length s.
Proof. intros H; induction H; simpl; auto. Qed.

Lemma valid_nth s idx k : valid s idx -> k < length s -> nth k idx 0 < nth k s 0.
Proof.
  intros H; revert k; induction H; intros k Hk; simpl in *; [lia|].
  destruct k; auto. apply IHForall2; lia.
Qed.

Lemma valid_intro s idx :
  length idx = length s -> (forall k, k < length s -> nth k idx 0 < nth k s 0) -> valid s idx.
Proof.
  revert idx; induction s as [|d s IH]; intros [|i idx] HL HK; simpl in *; try discriminate.
  - constructor.
  - constructor.
    + apply (HK 0); lia.
    + apply IH; [lia|]. intros k Hk. apply (HK (S k)); lia.
Qed.

Lemma sel_length l p : length (sel l p) = length p.
Proof. apply map_length. Qed.

Lemma sel_nth l p k : k < length p -> nth k (sel l p) 0 = nth (nth k p 0) l 0.
Proof.
  intros H. unfold sel.
  rewrite nth_indep with (d' := (fun k => nth k l 0) 0) by (rewrite map_length; exact H).
  apply (map_nth (fun k => nth k l 0)).
Qed.

Lemma list_eq_nth (l m : list nat) :
  length l = length m -> (forall k, k < length l -> nth k l 0 = nth k m 0) -> l = m.
Proof. intros H1 H2. apply nth_ext with (d := 0) (d' := 0); auto. Qed.

Lemma sel_sel l p q :
  Forall (fun k => k < length p) q -> sel (sel l p) q = sel l (sel p q).
Proof.
  intros H. unfold sel at 1 3. rewrite Forall_forall in H.
  unfold sel at 2. rewrite map_map. apply map_ext_in.
  intros k Hk. apply sel_nth. auto.
Qed.

Lemma sel_seq l : sel l (seq 0 (length l)) = l.
Proof.
  apply list_eq_nth; [rewrite sel_length, seq_length; reflexivity|].
  intros k Hk. rewrite sel_length, seq_length in Hk.
  rewrite sel_nth by (rewrite seq_length; exact Hk).
  rewrite seq_nth by exact Hk. reflexivity.
Qed.

Lemma is_perm_length n p : is_perm n p -> length p = n.
Proof. intros H. apply Permutation_length in H. rewrite seq_length in H. exact H. Qed.

Lemma is_perm_in n p k : is_perm n p -> (In k p <-> k < n).
Proof.
  intros H. split; intros Hk.
  - apply (Permutation_in _ H) in Hk. apply in_seq in Hk. lia.
  - apply (Permutation_in _ (Permutation_sym H)). apply in_seq. lia.
Qed.

Lemma is_perm_NoDup n p : is_perm n p -> NoDup p.
Proof. intros H. apply (Permutation_NoDup (Permutation_sym H)). apply seq_NoDup. Qed.

Lemma is_perm_Forall n p : is_perm n p -> Forall (fun k => k < n) p.
Proof. intros H. apply Forall_forall. intros k Hk. apply (is_perm_in n p k H). exact Hk. Qed.

Lemma is_perm_intro n p :
  length p = n -> NoDup p -> Forall (fun k => k < n) p -> is_perm n p.
Proof.
  intros HL HN HF. unfold is_perm. apply NoDup_Permutation_bis.
  - exact HN.
  - rewrite seq_length. lia.
  - intros k Hk. apply in_seq. rewrite Forall_forall in HF. specialize (HF k Hk). lia.
Qed.

Lemma NoDup_map_inj {A B} (f : A -> B) l :
  (forall a b, In a l -> In b l -> f a = f b -> a = b) -> NoDup l -> NoDup (map f l).
Proof.
  intros HI HN; induction HN as [|x l Hx HN IH]; simpl; [constructor|].
  constructor.
  - intros Hin. apply in_map_iff in Hin. destruct Hin as [y [E Hy]].
    apply HI in E; simpl; auto. subst; contradiction.
  - apply IH. intros a b Ha Hb. apply HI; simpl; auto.
Qed.

Lemma find_pos_lt k p : In k p -> find_pos k p < length p.
Proof.
  induction p as [|x p IH]; simpl; [tauto|]. intros [->|H].
  - rewrite Nat.eqb_refl. lia.
  - destruct (x =? k); [lia|]. specialize (IH H). lia.
Qed.

Lemma nth_find_pos k p : In k p -> nth (find_pos k p) p 0 = k.
Proof.
  induction p as [|x p IH]; simpl; [tauto|]. intros H.
  destruct (Nat.eqb_spec x k); [auto|]. destruct H; [congruence|]. auto.
Qed.

Lemma find_pos_nth i p : NoDup p -> i < length p -> find_pos (nth i p 0) p = i.
Proof.
  revert i; induction p as [|x p IH]; intros i HN Hi; simpl in *; [lia|].
  inversion HN; subst. destruct i.
  - rewrite Nat.eqb_refl. reflexivity.
  - destruct (Nat.eqb_spec x (nth i p 0)) as [E|E].
    + exfalso. apply H1. rewrite E. apply nth_In. lia.
    + f_equal. apply IH; auto. lia.
Qed.

Lemma inv_perm_length p : length (inv_perm p) = length p.
Proof. unfold inv_perm. rewrite map_length, seq_length. reflexivity. Qed.

Lemma inv_perm_nth p k : k < length p -> nth k (inv_perm p) 0 = find_pos k p.
Proof.
  intros H. unfold inv_perm.
  rewrite nth_indep with (d' := (fun k => find_pos k p) 0) by (rewrite map_length, seq_length; exact H).
  rewrite (map_nth (fun k => find_pos k p)). rewrite seq_nth by exact H. reflexivity.
Qed.

Lemma inv_perm_is_perm n p : is_perm n p -> is_perm n (inv_perm p).
Proof.
  intros H. pose proof (is_perm_length _ _ H) as HL.
  apply is_perm_intro.
  - rewrite inv_perm_length; exact HL.
  - unfold inv_perm. apply NoDup_map_inj.
    + intros a b Ha Hb E. apply in_seq in Ha. apply in_seq in Hb.
      rewrite HL in *.
      assert (In a p) by (apply (is_perm_in n p a H); lia).
      assert (In b p) by (apply (is_perm_in n p b H); lia).
      rewrite <- (nth_find_pos a p), <- (nth_find_pos b p) by assumption.
      rewrite E. reflexivity.
    + apply seq_NoDup.
  - apply Forall_forall. intros k Hk. unfold inv_perm in Hk.
    apply in_map_iff in Hk. destruct Hk as [j [<- Hj]]. apply in_seq in Hj.
    rewrite <- HL. apply find_pos_lt. apply (is_perm_in n p j H). lia.
Qed.

Lemma sel_inv_r l p : is_perm (length l) p -> sel (sel l p) (inv_perm p) = l.
Proof.
  intros H. pose proof (is_perm_length _ _ H) as HL.
  apply list_eq_nth.
  - rewrite sel_length, inv_perm_length; exact HL.
  - intros k Hk. rewrite sel_length, inv_perm_length in Hk.
    rewrite sel_nth by (rewrite inv_perm_length; exact Hk).
    rewrite inv_perm_nth by exact Hk.
    assert (HI : In k p) by (apply (is_perm_in _ _ k H); lia).
    rewrite sel_nth by (apply find_pos_lt; exact HI).
    rewrite nth_find_pos by exact HI. reflexivity.
Qed.

Lemma sel_inv_l l p : is_perm (length l) p -> sel (sel l (inv_perm p)) p = l.
Proof.
  intros H. pose proof (is_perm_length _ _ H) as HL.
  apply list_eq_nth.
  - rewrite sel_length; exact HL.
  - intros k Hk. rewrite sel_length in Hk.
    rewrite sel_nth by exact Hk.
    assert (HN : nth k p 0 < length p).
    { rewrite HL. apply (is_perm_in _ _ _ H). apply nth_In. exact Hk. }
    rewrite sel_nth by (rewrite inv_perm_length; exact HN).
    rewrite inv_perm_nth by exact HN.
    rewrite find_pos_nth; auto. apply (is_perm_NoDup _ _ H).
Qed.

Lemma is_perm_sel n p q : is_perm n p -> is_perm n q -> is_perm n (sel p q).
Proof.
  intros Hp Hq. pose proof (is_perm_length _ _ Hp) as HLp.
  pose proof (is_perm_length _ _ Hq) as HLq.
  apply is_perm_intro.
  - rewrite sel_length; exact HLq.
  - unfold sel. apply NoDup_map_inj.
    + intros a b Ha Hb E.
      apply (is_perm_in _ _ _ Hq) in Ha. apply (is_perm_in _ _ _ Hq) in Hb.
      rewrite <- (find_pos_nth a p), <- (find_pos_nth b p); try lia;
        try apply (is_perm_NoDup _ _ Hp). rewrite E. reflexivity.
    + apply (is_perm_NoDup _ _ Hq).
  - apply Forall_forall. intros k Hk. unfold sel in Hk. apply in_map_iff in Hk.
    destruct Hk as [j [<- Hj]]. apply (is_perm_in _ _ _ Hq) in Hj.
    apply (is_perm_in _ _ _ Hp). apply nth_In. lia.
Qed.

Lemma is_perm_seq n : is_perm n (seq 0 n).
Proof. apply Permutation_refl. Qed.

Lemma inv_perm_seq n : inv_perm (seq 0 n) = seq 0 n.
Proof.
  apply list_eq_nth.
  - rewrite inv_perm_length. reflexivity.
  - intros k Hk. rewrite inv_perm_length, seq_length in Hk.
    rewrite inv_perm_nth by (rewrite seq_length; exact Hk).
    rewrite seq_nth by exact Hk. simpl.
    pose proof (find_pos_nth k (seq 0 n) (seq_NoDup _ _)) as E.
    rewrite seq_length in E. specialize (E Hk). rewrite seq_nth in E by exact Hk. exact E.
Qed.

(** Validity of permuted indices. *)
Lemma valid_sel s idx p :
  valid s idx -> Forall (fun k => k < length s) p -> valid (sel s p) (sel idx p).
Proof.
  intros V HF. apply valid_intro.
  - rewrite !sel_length; reflexivity.
  - rewrite sel_length. intros k Hk.
    rewrite !sel_nth by exact Hk.
    apply valid_nth; auto. rewrite Forall_forall in HF. apply HF. apply nth_In; exact Hk.
Qed.

Lemma valid_transpose_inv s idx p :
  is_perm (length s) p -> valid (sel s p) idx -> valid s (sel idx (inv_perm p)).
Proof.
  intros Hp V.
  assert (H : valid (sel (sel s p) (inv_perm p)) (sel idx (inv_perm p))).
  { apply valid_sel; auto. rewrite sel_length.
    pose proof (is_perm_length _ _ Hp) as HL. rewrite HL.
    apply is_perm_Forall. apply inv_perm_is_perm; exact Hp. }
  rewrite sel_inv_r in H by exact Hp. exact H.
Qed.

(** The independent characterisation of transposition: the element with operand
    index [j] is found at result index [j[p[0]], j[p[1]], ...]. *)
Lemma transpose_spec {A} p (t : tensor A) j :
  is_perm (length (tshape t)) p -> valid (tshape t) j ->
  tget (transpose p t) (sel j p) = tget t j.
Proof.
  intros Hp V. simpl. rewrite sel_inv_r; auto.
  rewrite (valid_length _ _ V). exact Hp.
Qed.

Lemma transpose_unique {A} p (t u : tensor A) :
  is_perm (length (tshape t)) p ->
  tshape u = sel (tshape t) p ->
  (forall j, valid (tshape t) j -> tget u (sel j p) = tget t j) ->
  teq u (transpose p t).
Proof.
  intros Hp HS HG. split; [exact HS|]. intros idx V. rewrite HS in V.
  pose proof (valid_transpose_inv _ _ _ Hp V) as V'.
  specialize (HG _ V'). simpl.
  rewrite <- HG. f_equal. symmetry. apply sel_inv_l.
  rewrite (valid_length _ _ V), sel_length, (is_perm_length _ _ Hp). exact Hp.
Qed.

Lemma transpose_congr {A} p (t u : tensor A) :
  is_perm (length (tshape t)) p -> teq t u -> teq (transpose p t) (transpose p u).
Proof.
  intros Hp [HS HG]. split; simpl; [rewrite HS; reflexivity|].
  intros idx V. apply HG. apply valid_transpose_inv; auto.
Qed.

Lemma transpose_transpose {A} p q (t : tensor A) :
  is_perm (length (tshape t)) p -> is_perm (length (tshape t)) q ->
  teq (transpose q (transpose p t)) (transpose (sel p q) t).
Proof.
  intros Hp Hq.
  pose proof (is_perm_length _ _ Hp) as HLp.
  pose proof (is_perm_length _ _ Hq) as HLq.
  assert (HF : Forall (fun k => k < length p) q).
  { rewrite HLp. apply is_perm_Forall; exact Hq. }
  apply transpose_unique.
  - apply is_perm_sel; assumption.
  - simpl. apply sel_sel. exact HF.
  - intros j V. rewrite <- (transpose_spec p t j Hp V).
    rewrite <- sel_sel by exact HF.
    apply transpose_spec.
    + simpl. rewrite sel_length, HLp. exact Hq.
    + simpl. apply valid_sel; auto. apply is_perm_Forall. exact Hp.
Qed.

Lemma transpose_id {A} (t : tensor A) :
  teq (transpose (seq 0 (length (tshape t))) t) t.
Proof.
  split; simpl.
  - apply sel_seq.
  - intros idx V. rewrite inv_perm_seq.
    rewrite sel_seq in V. rewrite <- (valid_length _ _ V). rewrite sel_seq. reflexivity.
Qed.

(** upd *)
Lemma upd_length l i v : length (upd l i v) = length l.
Proof. revert i; induction l; intros [|i]; simpl; auto. Qed.

Lemma upd_nth l i v k :
  nth k (upd l i v) 0 = if (k =? i) && (i <? length l) then v else nth k l 0.
Proof.
  revert i k; induction l as [|x l IH]; intros i k; simpl.
  - destruct i; simpl; rewrite andb_false_r; reflexivity.
  - destruct i; destruct k; simpl; auto. rewrite IH.
    destruct (k =? i); simpl; auto.
Qed.

Lemma upd_upd l i v w : upd (upd l i v) i w = upd l i w.
Proof. revert i; induction l; intros [|i]; simpl; auto. rewrite IHl. reflexivity. Qed.

Lemma upd_same l i : i < length l -> upd l i (nth i l 0) = l.
Proof.
  revert i; induction l; intros [|i] H; simpl in *; auto; try lia.
  rewrite IHl by lia. reflexivity.
Qed.

Lemma upd_nth_eq l i v : i < length l -> nth i (upd l i v) 0 = v.
Proof.
  intros H. rewrite upd_nth, Nat.eqb_refl. apply Nat.ltb_lt in H. rewrite H. reflexivity.
Qed.

Lemma valid_upd s idx i d v :
  valid (upd s i d) idx -> i < length s -> v < nth i s 0 -> valid s (upd idx i v).
Proof.
  intros V Hi Hv. pose proof (valid_length _ _ V) as HL. rewrite upd_length in HL.
  apply valid_intro.
  - rewrite upd_length; exact HL.
  - intros k Hk. rewrite upd_nth.
    destruct (Nat.eqb_spec k i) as [->|E]; simpl.
    + rewrite HL. apply Nat.ltb_lt in Hi. rewrite Hi. exact Hv.
    + pose proof (valid_nth _ _ k V) as H. rewrite upd_length in H. specialize (H Hk).
      rewrite upd_nth in H. destruct (Nat.eqb_spec k i); [contradiction|]. simpl in H. exact H.
Qed.

(** cdiv *)
Lemma cdiv_spec a b i : 0 < b -> (i < cdiv a b <-> b * i < a).
Proof.
  intros Hb. unfold cdiv. split; intros H.
  - assert (S i <= (a + b - 1) / b) by lia.
    pose proof (Nat.mul_div_le (a + b - 1) b). nia.
  - apply Nat.div_le_lower_bound with (a := a + b - 1) (b := b) (q := S i); nia.
Qed.

Lemma cdiv_ext a b c d :
  0 < b -> 0 < d -> (forall i, b * i < a <-> d * i < c) -> cdiv a b = cdiv c d.
Proof.
  intros Hb Hd H.
  destruct (Nat.lt_trichotomy (cdiv a b) (cdiv c d)) as [L|[E|L]]; auto; exfalso.
  - apply cdiv_spec in L; auto. apply H in L. apply cdiv_spec in L; auto. lia.
  - apply cdiv_spec in L; auto. apply H in L. apply cdiv_spec in L; auto. lia.
Qed.

(** ravel/unravel *)
Lemma ravel_lt s idx : valid s idx -> ravel s idx < prod s.
Proof.
  intros V; induction V; simpl; [lia|]. nia.
Qed.

Lemma unravel_ravel s idx : valid s idx -> unravel s (ravel s idx) = idx.
Proof.
  intros V; induction V; simpl; auto.
  pose proof (ravel_lt _ _ V) as HL.
  assert (HP : prod l' <> 0) by lia.
  rewrite Nat.div_add_l by exact HP.
  rewrite (Nat.div_small _ _ HL), Nat.add_0_r.
  rewrite (Nat.add_comm (x * prod l')), Nat.mod_add by exact HP.
  rewrite (Nat.mod_small _ _ HL), IHV. reflexivity.
Qed.

Lemma unravel_valid s n : n < prod s -> valid s (unravel s n).
Proof.
  revert n; induction s as [|d s IH]; intros n H; simpl in *; [constructor|].
  assert (HP : prod s <> 0) by nia.
  constructor.
  - apply Nat.div_lt_upper_bound; lia.
  - apply IH. apply Nat.mod_upper_bound; exact HP.
Qed.

Lemma ravel_unravel s n : n < prod s -> ravel s (unravel s n) = n.
Proof.
  revert n; induction s as [|d s IH]; intros n H; simpl in *; [lia|].
  assert (HP : prod s <> 0) by nia.
  rewrite IH by (apply Nat.mod_upper_bound; exact HP).
  rewrite Nat.mul_comm. symmetry. apply Nat.div_mod; exact HP.
Qed.

Lemma reshape_reshape {A} s1 s2 (t : tensor A) :
  prod s1 = prod (tshape t) -> prod s2 = prod (tshape t) ->
  teq (reshape s2 (reshape s1 t)) (reshape s2 t).
Proof.
  intros H1 H2. split; simpl; auto. intros idx V.
  rewrite ravel_unravel; auto. rewrite H1, <- H2. apply ravel_lt; exact V.
Qed.

Lemma reshape_id {A} (t : tensor A) : teq (reshape (tshape t) t) t.
Proof.
  split; simpl; auto. intros idx V. rewrite unravel_ravel; auto.
Qed.

Lemma reshape_congr {A} s (t u : tensor A) :
  prod s = prod (tshape t) -> teq t u -> teq (reshape s t) (reshape s u).
Proof.
  intros HP [HS HG]. split; simpl; auto. intros idx V. rewrite <- HS. apply HG.
  apply unravel_valid. rewrite <- HP. apply ravel_lt; exact V.
Qed.
