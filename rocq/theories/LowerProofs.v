(** Proofs about [lower_transpose_dim_pass]. *)
From Coq Require Import List Arith Lia Permutation Bool Sorted.
From Verif Require Import Tensor ChainModel ChainProofs ReshapeProofs.
Import ListNotations.

(** Row-major position of a concatenated index, block by block. *)
Lemma ravel_app s1 s2 i1 i2 :
  valid s1 i1 -> ravel (s1 ++ s2) (i1 ++ i2) = ravel s1 i1 * prod s2 + ravel s2 i2.
Proof.
  intros V; induction V; simpl; auto. rewrite IHV, prod_app. nia.
Qed.

Lemma prod_concat Ss : prod (concat Ss) = prod (map prod Ss).
Proof. induction Ss; simpl; auto. rewrite prod_app, IHSs. reflexivity. Qed.

Section Blocks.
  Variable B : list (list nat).
  Variables sh idx : list nat.

  Definition bshape := map (fun b => prod (sel sh b)) B.
  Definition bidx := map (fun b => ravel (sel sh b) (sel idx b)) B.
End Blocks.

Lemma blocks_ravel B sh idx :
  valid sh idx -> Forall (fun k => k < length sh) (concat B) ->
  ravel (sel sh (concat B)) (sel idx (concat B)) = ravel (bshape B sh) (bidx B sh idx) /\
  valid (bshape B sh) (bidx B sh idx) /\ prod (sel sh (concat B)) = prod (bshape B sh).
Proof.
  intros V. induction B as [|b B IH]; intros HF; simpl in *.
  - repeat split; auto. constructor.
  - apply Forall_app in HF. destruct HF as [HF1 HF2]. destruct (IH HF2) as [I1 [I2 I3]].
    pose proof (valid_sel sh idx b V HF1) as Vb.
    rewrite !sel_app. repeat split.
    + rewrite ravel_app by exact Vb. rewrite I1, I3. reflexivity.
    + constructor; auto. apply ravel_lt; exact Vb.
    + rewrite prod_app. fold (bshape B sh). rewrite <- I3. reflexivity.
Qed.

Section Lower.
  Variables shape q : list nat.
  Hypothesis NOUNIT : Forall (fun d => 2 <= d) shape.
  Hypothesis HQ : is_perm (length shape) q.

  Let n := length shape.

  (** A block of axes whose [q]-values are consecutive. *)
  Fixpoint consec (b : list nat) : Prop :=
    match b with
    | [] => False
    | a :: b' => match b' with
                 | [] => True
                 | c :: _ => nth c q 0 = S (nth a q 0) /\ consec b'
                 end
    end.

  Definition key (b : list nat) : nat := nth (last b 0) q 0.

  Lemma consec_snoc b c : consec b -> nth c q 0 = S (key b) -> consec (b ++ [c]).
  Proof.
    induction b as [|a b IH]; [simpl; tauto|]. destruct b as [|d b].
    - unfold key. simpl. auto.
    - intros [H1 H2] H3. split; [exact H1|]. apply IH; auto.
  Qed.

  Lemma consec_nonnil b : consec b -> b <> [].
  Proof. destruct b; simpl; [tauto|discriminate]. Qed.

  Lemma prod_ge2 b : b <> [] -> Forall (fun k => k < n) b -> 2 <= prod (sel shape b).
  Proof.
    intros HN HF; induction HF as [|k b Hk HF IH]; [congruence|]. simpl.
    assert (2 <= nth k shape 0) by (rewrite Forall_forall in NOUNIT; apply NOUNIT; apply nth_In; exact Hk).
    destruct b as [|c b].
    - simpl. lia.
    - assert (2 <= prod (sel shape (c :: b))) by (apply IH; discriminate). nia.
  Qed.

  Lemma lower_blocks rest : forall cur ns np,
    consec cur -> Forall (fun k => k < n) cur -> Forall (fun k => k < n) rest ->
    exists B, Forall consec B /\ concat B = cur ++ rest /\
      lower_loop (map (fun a => (nth a shape 0, nth a q 0)) rest) (key cur) (prod (sel shape cur)) ns np =
        (rev ns ++ map (fun b => prod (sel shape b)) B, rev np ++ map key B).
  Proof.
    induction rest as [|a rest IH]; intros cur ns np HC HF HR; simpl.
    - exists [cur]. repeat split.
      + constructor; auto.
    - inversion HR; subst.
      pose proof (prod_ge2 cur (consec_nonnil _ HC) HF) as G1.
      assert (G2 : 2 <= nth a shape 0)
        by (rewrite Forall_forall in NOUNIT; apply NOUNIT; apply nth_In; assumption).
      destruct (Nat.eqb_spec (nth a shape 0) 1); [lia|].
      destruct (Nat.eqb_spec (prod (sel shape cur)) 1); [lia|].
      destruct (Nat.eqb_spec (nth a q 0) (S (key cur))) as [E|E]; simpl.
      + destruct (IH (cur ++ [a]) ns np) as [B [B1 [B2 B3]]]; auto.
        { apply consec_snoc; auto. }
        { apply Forall_app; split; auto. }
        exists B. repeat split; auto.
        { rewrite B2, <- app_assoc. reflexivity. }
        rewrite <- B3. f_equal.
        * unfold key. rewrite last_last. reflexivity.
        * rewrite sel_app, prod_app. simpl. lia.
      + destruct (IH [a] (prod (sel shape cur) :: ns) (key cur :: np)) as [B [B1 [B2 B3]]]; auto.
        { simpl; auto. }
        exists (cur :: B). repeat split.
        { constructor; auto. }
        { simpl. rewrite B2. reflexivity. }
        simpl. simpl in B3. rewrite Nat.mul_1_r in B3. unfold key in B3 at 1. simpl in B3. rewrite B3.
        rewrite <- !app_assoc. reflexivity.
  Qed.

  (** The values of a block are a range that ends at its key. *)
End Lower.

  Lemma consec_range q b : consec q b -> sel q b = seq (nth (hd 0 b) q 0) (length b) /\
      key q b = nth (hd 0 b) q 0 + length b - 1.
  Proof.
    induction b as [|a b IH]; simpl; [tauto|]. destruct b as [|c b].
    - intros _. unfold key. simpl. split; auto. lia.
    - intros [H1 H2]. destruct (IH H2) as [I1 I2]. split.
      + cbn [hd] in I1. cbn [sel map length] in *. unfold sel in I1. cbn [map length] in I1.
        rewrite I1, H1. reflexivity.
      + cbn [hd length] in *. unfold key in *. cbn [last] in *. rewrite I2, H1. lia.
  Qed.


Lemma np_sort_length l : length (np_sort l) = length l.
Proof. apply Permutation_length. apply np_sort_perm. Qed.

Lemma argsort_perm l : NoDup l -> is_perm (length l) (argsort l).
Proof.
  intros HN. unfold argsort. apply is_perm_intro.
  - rewrite map_length, np_sort_length. reflexivity.
  - apply NoDup_map_inj.
    + intros a b Ha Hb E.
      apply (Permutation_in _ (np_sort_perm l)) in Ha. apply (Permutation_in _ (np_sort_perm l)) in Hb.
      rewrite <- (nth_find_pos a l Ha), <- (nth_find_pos b l Hb), E. reflexivity.
    + apply (Permutation_NoDup (Permutation_sym (np_sort_perm l))). exact HN.
  - apply Forall_forall. intros k Hk. apply in_map_iff in Hk. destruct Hk as [v [<- Hv]].
    apply find_pos_lt. apply (Permutation_in _ (np_sort_perm l)). exact Hv.
Qed.

Lemma sel_argsort l : sel l (argsort l) = np_sort l.
Proof.
  unfold argsort, sel. rewrite map_map. rewrite <- (map_id (np_sort l)) at 2.
  apply map_ext_in. intros v Hv. apply nth_find_pos. apply (Permutation_in _ (np_sort_perm l)). exact Hv.
Qed.

Lemma selb_perm {X} (d : X) (l : list X) o :
  is_perm (length l) o -> Permutation (map (fun i => nth i l d) o) l.
Proof.
  intros H. rewrite (Permutation_map (fun i => nth i l d) H).
  assert (E : map (fun i => nth i l d) (seq 0 (length l)) = l).
  { clear. apply nth_ext with (d := d) (d' := d).
    - rewrite map_length, seq_length. reflexivity.
    - intros k Hk. rewrite map_length, seq_length in Hk.
      rewrite nth_indep with (d' := (fun i => nth i l d) 0) by (rewrite map_length, seq_length; exact Hk).
      rewrite (map_nth (fun i => nth i l d)). rewrite seq_nth by exact Hk. reflexivity. }
  rewrite E. reflexivity.
Qed.

Lemma Permutation_concat {X} (l m : list (list X)) : Permutation l m -> Permutation (concat l) (concat m).
Proof.
  intros H; induction H; simpl; auto.
  - apply Permutation_app_head; auto.
  - rewrite !app_assoc. apply Permutation_app_tail. apply Permutation_app_comm.
  - eapply Permutation_trans; eauto.
Qed.

Lemma StronglySorted_app l m :
  StronglySorted le l -> StronglySorted le m ->
  (forall x y, In x l -> In y m -> x <= y) -> StronglySorted le (l ++ m).
Proof.
  intros Hl Hm H; induction Hl; simpl; auto.
  constructor.
  - apply IHHl. intros; apply H; simpl; auto.
  - apply Forall_app. split; auto. apply Forall_forall. intros y Hy. apply H; simpl; auto.
Qed.

Lemma NoDup_app_disjoint {X} (l m : list X) x : NoDup (l ++ m) -> In x l -> In x m -> False.
Proof.
  induction l; simpl; intros HN H1 H2; [tauto|]. inversion HN; subst.
  destruct H1 as [->|H1]; auto. apply H3. apply in_or_app; auto.
Qed.

Lemma NoDup_app_r {X} (l m : list X) : NoDup (l ++ m) -> NoDup m.
Proof. induction l; simpl; auto. intros H; inversion H; auto. Qed.

Section Lower2.
  Variables shape q : list nat.
  Hypothesis HQ : is_perm (length shape) q.

  (** Blocks in ascending key order, with disjoint values, enumerate the values in order. *)
  Lemma ordered_blocks_sorted Bs :
    Forall (consec q) Bs -> NoDup (concat (map (sel q) Bs)) ->
    StronglySorted le (map (key q) Bs) ->
    StronglySorted le (concat (map (sel q) Bs)).
  Proof.
    induction Bs as [|b Bs IH]; intros HC HN HS; simpl in *; [constructor|].
    inversion HC; subst. inversion HS; subst.
    pose proof (consec_range q b H1) as [R1 R2].
    apply StronglySorted_app.
    - rewrite R1. apply seq_sorted.
    - apply IH; auto. apply NoDup_app_r in HN; auto.
    - intros x y Hx Hy.
      rewrite in_concat in Hy. destruct Hy as [sb [Hsb Hy]].
      apply in_map_iff in Hsb. destruct Hsb as [b2 [<- Hb2]].
      assert (C2 : consec q b2) by (rewrite Forall_forall in H2; auto).
      pose proof (consec_range q b2 C2) as [S1 S2].
      rewrite Forall_forall in H4. specialize (H4 (key q b2) (in_map _ _ _ Hb2)).
      pose proof Hx as Hx'. rewrite R1 in Hx'. apply in_seq in Hx'.
      pose proof Hy as Hy'. rewrite S1 in Hy'. apply in_seq in Hy'.
      (* key b would be a value of b2 otherwise *)
      destruct (Nat.le_gt_cases x y) as [L|L]; auto. exfalso.
      assert (KB : In (key q b) (sel q b)) by (rewrite R1; apply in_seq; lia).
      apply (NoDup_app_disjoint _ _ (key q b) HN KB).
      apply in_concat. exists (sel q b2). split.
      + apply in_map; auto.
      + rewrite S1. apply in_seq. lia.
  Qed.
End Lower2.

Lemma sel_concat l Bs : sel l (concat Bs) = concat (map (sel l) Bs).
Proof. induction Bs; simpl; auto. rewrite sel_app, IHBs. reflexivity. Qed.

Lemma map_sel_nth {X} (f : X -> nat) (B : list X) (d : X) o :
  Forall (fun i => i < length B) o ->
  sel (map f B) o = map f (map (fun i => nth i B d) o).
Proof.
  intros HF. rewrite map_map. unfold sel. apply map_ext_in. intros i Hi.
  rewrite Forall_forall in HF. specialize (HF i Hi).
  rewrite nth_indep with (d' := f d) by (rewrite map_length; exact HF). apply map_nth.
Qed.

Lemma combine_map2 (shape q : list nat) :
  length shape = length q ->
  combine shape q = map (fun a => (nth a shape 0, nth a q 0)) (seq 0 (length shape)).
Proof.
  revert q; induction shape as [|d shape IH]; intros [|p q] H; simpl in *; auto; try discriminate.
  f_equal. rewrite <- seq_shift, map_map. rewrite IH by lia. reflexivity.
Qed.

(** What the pass really computes on shapes without unit axes: the transpose by the
    *inverse* permutation, relabelled with the shape of the right result. *)
Lemma lower_is_inverse {A} (t : tensor A) q :
  let shape := tshape t in
  shape <> [] -> Forall (fun d => 2 <= d) shape -> is_perm (length shape) q ->
  exists u, lowered shape q t = Some u /\
    teq u (reshape (sel shape q) (transpose (inv_perm q) t)).
Proof.
  intros shape HNE HU HQ.
  pose proof (is_perm_length _ _ HQ) as HL.
  unfold lowered, lower_transpose. rewrite combine_map2 by lia.
  destruct (length shape) as [|n'] eqn:En; [destruct shape; [congruence|discriminate]|].
  cbn [seq map].
  destruct (lower_blocks shape q HU (seq 1 n') [0] [] []) as [B [B1 [B2 B3]]].
  { simpl; auto. }
  { constructor; [lia|constructor]. }
  { apply Forall_forall. intros k Hk. apply in_seq in Hk. lia. }
  unfold key in B3 at 1. simpl in B3. rewrite Nat.mul_1_r in B3. rewrite B3. clear B3.
  change ([0] ++ seq 1 n') with (seq 0 (S n')) in B2. rewrite <- En in *. clear n' En.
  set (keys := map (key q) B) in *.
  set (o := argsort keys).
  assert (ND : NoDup (concat (map (sel q) B))).
  { rewrite <- sel_concat, B2. rewrite <- HL, sel_seq. apply (is_perm_NoDup _ _ HQ). }
  assert (KIN : forall b, consec q b -> In (key q b) (sel q b)).
  { intros b Hb. pose proof (consec_range q b Hb) as [R1 R2]. rewrite R1. apply in_seq.
    destruct b; simpl in *; [tauto|lia]. }
  assert (NDK : NoDup keys).
  { unfold keys. clear - B1 ND KIN. induction B as [|b B IH]; simpl in *; [constructor|].
    inversion B1; subst. constructor.
    - intros Hin. apply in_map_iff in Hin. destruct Hin as [c [E Hc]].
      apply (NoDup_app_disjoint _ _ (key q b) ND (KIN b H1)).
      apply in_concat. exists (sel q c). split; [apply in_map; auto|]. rewrite <- E.
      apply KIN. rewrite Forall_forall in H2; auto.
    - apply IH; auto. apply NoDup_app_r in ND; auto. }
  assert (LK : length keys = length B) by (unfold keys; apply map_length).
  assert (HO : is_perm (length B) o).
  { rewrite <- LK. apply argsort_perm; exact NDK. }
  set (Bs := map (fun i => nth i B []) o).
  assert (PB : Permutation Bs B) by (apply selb_perm; exact HO).
  assert (CB : Forall (consec q) Bs).
  { apply Forall_forall. intros b Hb. apply (Permutation_in _ PB) in Hb.
    rewrite Forall_forall in B1; auto. }
  assert (KS : map (key q) Bs = np_sort keys).
  { unfold Bs. rewrite <- map_sel_nth by (apply is_perm_Forall; exact HO).
    fold keys. apply sel_argsort. }
  assert (PC : Permutation (concat (map (sel q) Bs)) (seq 0 (length shape))).
  { rewrite (Permutation_concat _ _ (Permutation_map (sel q) PB)).
    rewrite <- sel_concat, B2, <- HL, sel_seq. rewrite HL. exact HQ. }
  assert (SRT : concat (map (sel q) Bs) = seq 0 (length shape)).
  { apply sorted_perm_eq; auto.
    - apply ordered_blocks_sorted; auto.
      + apply (Permutation_NoDup (Permutation_sym PC)). apply seq_NoDup.
      + rewrite KS. apply np_sort_sorted.
    - apply seq_sorted. }
  assert (CIN : Forall (fun k => k < length shape) (concat Bs)).
  { apply Forall_forall. intros k Hk.
    apply (Permutation_in _ (Permutation_concat _ _ PB)) in Hk. rewrite B2 in Hk.
    apply in_seq in Hk. lia. }
  assert (CL : length (concat Bs) = length shape).
  { rewrite (Permutation_length (Permutation_concat _ _ PB)), B2, seq_length. reflexivity. }
  assert (CQ : concat Bs = inv_perm q).
  { apply list_eq_nth; [rewrite inv_perm_length; lia|]. intros k Hk.
    rewrite inv_perm_nth by lia.
    assert (E : nth (nth k (concat Bs) 0) q 0 = k).
    { rewrite <- sel_nth by exact Hk. rewrite sel_concat, SRT, seq_nth; lia. }
    rewrite <- E at 2. symmetry. apply find_pos_nth.
    - apply (is_perm_NoDup _ _ HQ).
    - rewrite HL. rewrite Forall_forall in CIN. apply CIN. apply nth_In; exact Hk. }
  cbn [rev app]. fold keys. fold o.
  eexists; split; [reflexivity|].
  (* the middle: transpose of the reduced tensor *)
  assert (BIN : Forall (fun k => k < length shape) (concat B)).
  { rewrite B2. apply Forall_forall. intros k Hk. apply in_seq in Hk. lia. }
  set (ns := map (fun b => prod (sel shape b)) B) in *.
  assert (NSO : sel ns o = map (fun b => prod (sel shape b)) Bs).
  { unfold ns, Bs. apply map_sel_nth. apply is_perm_Forall; exact HO. }
  assert (MAIN : forall j, valid shape j ->
     unravel (sel ns o) (ravel (sel shape (concat Bs)) (sel j (concat Bs))) = sel (bidx B shape j) o /\
     ravel ns (bidx B shape j) = ravel shape j).
  { intros j V.
    destruct (blocks_ravel Bs shape j V CIN) as [I1 [I2 I3]].
    destruct (blocks_ravel B shape j V BIN) as [J1 [J2 J3]].
    split.
    - rewrite I1. unfold bshape in *. rewrite NSO, unravel_ravel by exact I2.
      unfold bidx, Bs. symmetry. apply map_sel_nth. apply is_perm_Forall; exact HO.
    - unfold bshape in J1. fold ns in J1. rewrite <- J1. rewrite B2.
      rewrite sel_seq. rewrite <- (valid_length _ _ V). rewrite sel_seq. reflexivity. }
  assert (LNS : length ns = length B) by (unfold ns; apply map_length).
  assert (PQ : is_perm (length shape) (inv_perm q)) by (apply inv_perm_is_perm; exact HQ).
  split; [reflexivity|].
  cbn [tshape reshape]. intros idx V.
  cbn [tget transpose reshape tshape]. fold shape.
  assert (EP : prod (sel shape q) = prod (sel shape (concat Bs))).
  { assert (PE : forall l m, Permutation l m -> prod l = prod m).
    { intros l m H; induction H; simpl; auto; lia. }
    apply PE. rewrite CQ. apply Permutation_map.
    apply (Permutation_trans HQ (Permutation_sym PQ)). }
  pose proof (ravel_lt _ _ V) as RL. rewrite EP in RL.
  set (r := ravel (sel shape q) idx) in *.
  set (k := unravel (sel shape (concat Bs)) r).
  assert (VK : valid (sel shape (concat Bs)) k) by (apply unravel_valid; exact RL).
  assert (RK : ravel (sel shape (concat Bs)) k = r) by (apply ravel_unravel; exact RL).
  set (j := sel k (inv_perm (inv_perm q))).
  assert (VJ : valid shape j).
  { apply valid_transpose_inv; auto. rewrite <- CQ. exact VK. }
  assert (KJ : k = sel j (concat Bs)).
  { unfold j. rewrite CQ. symmetry. apply sel_inv_l.
    rewrite (valid_length _ _ VK), sel_length, CL. exact PQ. }
  destruct (MAIN j VJ) as [M1 M2].
  rewrite <- RK, KJ, M1, sel_inv_r.
  - rewrite M2. rewrite unravel_ravel by exact VJ. rewrite <- KJ.
    rewrite <- CQ, unravel_ravel by exact VK. rewrite CQ. reflexivity.
  - unfold bidx. rewrite map_length. exact HO.
Qed.

Lemma lower_involutive {A} (t : tensor A) q :
  tshape t <> [] -> Forall (fun d => 2 <= d) (tshape t) -> is_perm (length (tshape t)) q ->
  (forall k, k < length q -> nth (nth k q 0) q 0 = k) ->
  exists u, lowered (tshape t) q t = Some u /\ teq u (transpose q t).
Proof.
  intros HNE HU HQ HI.
  destruct (lower_is_inverse t q HNE HU HQ) as [u [E HT]].
  exists u; split; auto.
  assert (EI : inv_perm q = q).
  { apply list_eq_nth; [apply inv_perm_length|]. intros k Hk. rewrite inv_perm_length in Hk.
    rewrite inv_perm_nth by exact Hk. rewrite <- (HI k Hk) at 1. apply find_pos_nth.
    - apply (is_perm_NoDup _ _ HQ).
    - rewrite (is_perm_length _ _ HQ). apply (is_perm_in _ _ _ HQ). apply nth_In; exact Hk. }
  rewrite EI in HT. eapply teq_trans; [exact HT|].
  change (sel (tshape t) q) with (tshape (transpose q t)). apply reshape_id.
Qed.
