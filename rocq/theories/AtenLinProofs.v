(** Proofs about [AtenLinModel]. *)
From Coq Require Import List Arith Bool Reals ZArith Lia Lra Permutation.
From Verif Require Import Tensor ReshapeProofs LowerProofs FuseMiscProofs PassAxesProofs PassProofs QModProofs AtenMoveProofs AtenNormProofs.
From Verif Require Import ConvSpec CatSpec LayoutSpec ChainModel FuseModel MoveSpec NormSpec LinSpec AtenLinModel.
Import ListNotations.
Local Open Scope R_scope.

Lemma norm_axis n d : norm_dim n d = axis_of n d.
Proof. reflexivity. Qed.

(* ------------------------------------------------------------------ *)
(** * Matrix products *)

Lemma split2 (s : list nat) : (2 <= length s)%nat -> s = batch_of s ++ [rows_of s; cols_of s].
Proof.
  intros L. unfold batch_of, rows_of, cols_of.
  rewrite <- (firstn_skipn (length s - 2) s) at 1. f_equal.
  assert (length (skipn (length s - 2) s) = 2%nat) as E by (rewrite skipn_length; lia).
  pose proof (nth_skipn' (length s - 2) s 0) as N0. pose proof (nth_skipn' (length s - 2) s 1) as N1.
  destruct (skipn (length s - 2) s) as [|a [|b [|]]]; try discriminate. cbn in N0, N1.
  replace (length s - 2 + 0)%nat with (length s - 2)%nat in N0 by lia.
  replace (length s - 2 + 1)%nat with (length s - 1)%nat in N1 by lia. now subst.
Qed.
Lemma batch_app b n k : batch_of (b ++ [n; k]) = b.
Proof. unfold batch_of. rewrite app_length. cbn. replace (length b + 2 - 2)%nat with (length b) by lia. now rewrite firstn_app, Nat.sub_diag, firstn_all, app_nil_r. Qed.
Lemma rows_app b n k : rows_of (b ++ [n; k]) = n.
Proof. unfold rows_of. rewrite app_length. cbn. replace (length b + 2 - 2)%nat with (length b) by lia. now rewrite app_nth2, Nat.sub_diag by lia. Qed.
Lemma cols_app b n k : cols_of (b ++ [n; k]) = k.
Proof. unfold cols_of. rewrite app_length. cbn. rewrite app_nth2 by lia. replace (length b + 2 - 1 - length b)%nat with 1%nat by lia. reflexivity. Qed.
Lemma removelast_two {A} (b : list A) n k : removelast (b ++ [n; k]) = b ++ [n].
Proof. replace (b ++ [n; k]) with ((b ++ [n]) ++ [k]) by now rewrite <- app_assoc. now rewrite removelast_last. Qed.
Lemma last_two {A} (b : list A) n k d : last (b ++ [n; k]) d = k.
Proof. replace (b ++ [n; k]) with ((b ++ [n]) ++ [k]) by now rewrite <- app_assoc. now rewrite last_last. Qed.
Lemma valid_two b n p idx : valid (b ++ [n; p]) idx -> exists pos i j, idx = pos ++ [i; j] /\ valid b pos /\ (i < n)%nat /\ (j < p)%nat.
Proof.
  intros V. unfold valid in V. apply Forall2_app_inv_r in V. destruct V as (pos & r & V1 & V2 & ->).
  inversion V2 as [|i ? r' ? Hi V3]; subst. inversion V3 as [|j ? r'' ? Hj V4]; subst. inversion V4; subst.
  exists pos, i, j. auto.
Qed.
Lemma firstn_pos {A} (pos : list A) r : firstn (length pos) (pos ++ r) = pos.
Proof. now rewrite firstn_app, Nat.sub_diag, firstn_all, app_nil_r. Qed.
Lemma bshape_nil_r s : bshape s [] = Some s.
Proof. rewrite bshape_comm. unfold bshape. cbn. now rewrite rev_involutive. Qed.
Lemma bidx_nil idx : bidx [] idx = [].
Proof. reflexivity. Qed.
Lemma bidx_valid_self s idx : valid s idx -> bidx s idx = idx.
Proof. apply bidx_self. Qed.

Lemma prod_two b n k : prod (b ++ [n; k]) = (prod b * n * k)%nat.
Proof. rewrite prod_app. cbn. lia. Qed.
(** FULLY_CONNECTED with [keep_num_dims] exactly when the operand has more than two axes *)
Lemma fc_keep x w bias b n k p : tshape x = b ++ [n; k] -> tshape w = [p; k] -> prod (tshape bias) = p -> (0 < k)%nat ->
  exists y, fully_connected (2 <? length (tshape x))%nat x w bias = Some y /\ tshape y = b ++ [n; p] /\
    forall pos i j, valid b pos -> (i < n)%nat -> (j < p)%nat ->
    tget y (pos ++ [i; j]) = tget bias (unravel (tshape bias) j) + lsum (seq 0 k) (fun q => tget w [j; q] * tget x (pos ++ [i; q])).
Proof.
  intros Ex Ew Eb Hk. unfold fully_connected. rewrite Ew. cbn [length nth]. rewrite Eb, Nat.eqb_refl, Nat.eqb_refl, Ex. cbn [andb].
  rewrite prod_two, Nat.mod_mul, Nat.eqb_refl by lia. rewrite last_two, Nat.eqb_refl.
  rewrite Nat.div_mul by lia. rewrite app_length. cbn [length].
  destruct (Nat.ltb_spec 2 (length b + 2)) as [L|L].
  - eexists. split; [reflexivity|]. unfold fc. cbn [tshape tget]. rewrite Ex, Ew, removelast_two, <- app_assoc. cbn [nth app]. split; [reflexivity|].
    intros pos i j _ _ _. rewrite removelast_two, last_two. f_equal. apply lsum_ext. intros q _. now rewrite <- app_assoc.
  - assert (b = []) by (destruct b; [auto|cbn in L; lia]). subst b. cbn [app prod] in *. rewrite Nat.mul_1_l.
    eexists. split; [reflexivity|]. unfold fc, reshape. cbn [tshape tget]. rewrite Ew. cbn [nth removelast app]. split; [reflexivity|].
    intros pos i j V Hi Hj. inversion V; subst pos. cbn [app last removelast]. f_equal. apply lsum_ext. intros q Hq. apply in_seq in Hq.
    rewrite Ex. now rewrite unravel_ravel by (repeat constructor; lia).
Qed.

Lemma transpose2 {A} (w : tensor A) k p : tshape w = [k; p] -> tshape (transpose [1; 0]%nat w) = [p; k] /\
  forall i j, tget (transpose [1; 0]%nat w) [j; i] = tget w [i; j].
Proof. intros E. cbn. rewrite E. auto. Qed.

Theorem aten_matmul_ok x w z : (2 <= length (tshape x) <= 5)%nat -> (2 <= length (tshape w) <= 5)%nat -> (0 < cols_of (tshape x))%nat ->
  torch_matmul x w = Some z -> exists y, aten_matmul x w = Some y /\ teq y z.
Proof.
  intros Lx Lw Hk E. unfold aten_matmul. destruct (Nat.leb_spec 2 (length (tshape x))); [|lia]. destruct (Nat.leb_spec (length (tshape x)) 5); [|lia].
  cbn [andb]. destruct (Nat.eqb_spec (length (tshape w)) 2) as [L2|N2].
  - unfold torch_matmul in E. destruct (Nat.leb_spec 2 (length (tshape x))); [|lia]. destruct (Nat.leb_spec 2 (length (tshape w))); [|lia]. cbn [andb] in E.
    destruct (Nat.eqb_spec (cols_of (tshape x)) (rows_of (tshape w))) as [Ek|]; [|discriminate].
    pose proof (split2 (tshape x) ltac:(lia)) as Sx. set (b := batch_of (tshape x)) in *. set (n := rows_of (tshape x)) in *. set (k := cols_of (tshape x)) in *.
    destruct (tshape w) as [|k' [|p [|]]] eqn:Ew; try discriminate. cbn in Ek. subst k'. cbn [nth].
    change (batch_of [k; p]) with (@nil nat) in E. change (cols_of [k; p]) with p in E. rewrite bshape_nil_r in E. injection E as <-.
    destruct (transpose2 w k p Ew) as [T1 T2].
    destruct (fc_keep x (transpose [1; 0]%nat w) (zero_bias p) b n k p Sx T1) as (y & Ey & Sy & Gy).
    { cbn. lia. } { exact Hk. }
    exists y. split; [exact Ey|]. split; [exact Sy|]. intros idx V. rewrite Sy in V. destruct (valid_two _ _ _ _ V) as (pos & i & j & -> & Vp & Hi & Hj).
    rewrite Gy by auto. cbn [zero_bias tget]. rewrite Rplus_0_l.
    assert (length pos = length b) as Lp by now apply valid_length. rewrite <- Lp, firstn_pos, bidx_self by auto. 
    rewrite app_nth2, Nat.sub_diag by lia. rewrite app_nth2 by lia. replace (S (length pos) - length pos)%nat with 1%nat by lia. cbn [nth app].
    apply lsum_ext. intros q _. rewrite T2. ring.
  - destruct (Nat.leb_spec 2 (length (tshape w))); [|lia]. destruct (Nat.leb_spec (length (tshape w)) 5); [|lia]. cbn [andb].
    exists z. split; [|apply teq_refl]. unfold batch_matmul. destruct (Nat.leb_spec (length (tshape x)) 5); [|lia]. destruct (Nat.leb_spec (length (tshape w)) 5); [|lia]. exact E.
Qed.
(** a vector as second operand: no operator is emitted; as first operand: unimplemented *)
Theorem matmul_vector_refuted : exists x v, tshape x = [2; 2]%nat /\ tshape v = [2]%nat /\ tshape (torch_matvec x v) = [2]%nat /\
  aten_matmul x v = None /\ aten_matmul v x = None.
Proof. exists (mkT [2; 2]%nat (fun _ => 1)), (mkT [2]%nat (fun _ => 1)). repeat split. Qed.

Theorem aten_linear_ok x w bias out : (2 <= length (tshape x) <= 5)%nat -> (0 < last (tshape x) 0)%nat -> tshape w = [out; last (tshape x) 0%nat] ->
  match bias with Some b => tshape b = [out] | None => True end ->
  exists y, aten_linear x w bias = Some y /\ teq y (torch_linear x w bias).
Proof.
  intros Lx Hk Ew Eb. unfold aten_linear. destruct (Nat.leb_spec 2 (length (tshape x))); [|lia]. destruct (Nat.leb_spec (length (tshape x)) 5); [|lia].
  rewrite Ew. cbn [length Nat.eqb andb nth].
  pose proof (split2 (tshape x) ltac:(lia)) as Sx. set (b := batch_of (tshape x)) in *. set (n := rows_of (tshape x)) in *. set (k := cols_of (tshape x)) in *.
  assert (last (tshape x) 0%nat = k) as Ek by (rewrite Sx; apply last_two). rewrite Ek in *.
  set (bb := match bias with Some b0 => b0 | None => zero_bias out end).
  assert (prod (tshape bb) = out) as Pb by (subst bb; destruct bias as [b0|]; [rewrite Eb|]; cbn; lia).
  destruct (fc_keep x w bb b n k out Sx Ew Pb Hk) as (y & Ey & Sy & Gy).
  exists y. split; [exact Ey|]. unfold torch_linear. split; cbn [tshape tget].
  { rewrite Sy, Sx, Ew, removelast_two, <- app_assoc. reflexivity. }
  intros idx V. rewrite Sy in V. destruct (valid_two _ _ _ _ V) as (pos & i & j & -> & Vp & Hi & Hj).
  rewrite Gy by auto. rewrite last_two, removelast_two, Ek, Rplus_comm. f_equal.
  - apply lsum_ext. intros q _. rewrite <- app_assoc. cbn [app]. ring.
  - subst bb. destruct bias as [b0|]; [|reflexivity]. rewrite Eb. cbn [unravel prod]. now rewrite Nat.div_1_r.
Qed.

(* ------------------------------------------------------------------ *)
(** * Products with an addition *)

Lemma bidx_row p i j : (j < p)%nat -> bidx [p] [i; j] = [j].
Proof.
  intros Hj. change [i; j] with ([i] ++ [j]). rewrite bidx_app by reflexivity. apply bidx_self. repeat constructor. auto.
Qed.
Theorem aten_addmm_ok s x w n k p : tshape x = [n; k] -> tshape w = [k; p] -> (tshape s = [p] \/ tshape s = [1; p]%nat) -> (0 < k)%nat ->
  exists y, aten_addmm 1 1 s x w = Some y /\ teq y (torch_addmm 1 1 s x w).
Proof.
  intros Ex Ew Es Hk. unfold aten_addmm. rewrite Ew. cbn [length Nat.eqb].
  destruct (transpose2 w k p Ew) as [T1 T2].
  destruct (fc_keep x (transpose [1; 0]%nat w) s [] n k p Ex T1) as (y & Ey & Sy & Gy).
  { destruct Es as [-> | ->]; cbn; lia. } { exact Hk. }
  rewrite Ex in Ey. cbn in Ey. exists y. split; [exact Ey|]. split; cbn [torch_addmm tshape tget].
  { now rewrite Sy, Ex, Ew. }
  intros idx V. rewrite Sy in V. destruct (valid_two [] n p idx V) as (pos & i & j & -> & Vp & Hi & Hj). rewrite Gy by auto.
  inversion Vp; subst pos. cbn [app nth]. rewrite Ex. cbn [nth]. rewrite !Rmult_1_l. f_equal.
  - f_equal. destruct Es as [E|E]; rewrite E.
    + cbn [unravel prod]. rewrite Nat.div_1_r. symmetry. now apply bidx_row.
    + cbn [unravel prod]. rewrite Nat.mul_1_r, Nat.div_1_r, Nat.div_small, Nat.mod_small by auto. unfold bidx. cbn.
      destruct (Nat.eqb_spec p 1); [|reflexivity]. f_equal. f_equal. lia.
  - apply lsum_ext. intros q _. rewrite T2. ring.
Qed.
Theorem addmm_alpha_refuted : exists alpha s x w y, tshape s = [1]%nat /\ tshape x = [1; 1]%nat /\ tshape w = [1; 1]%nat /\
  aten_addmm 1 alpha s x w = Some y /\ tshape y = [1; 1]%nat /\ tget y [0; 0]%nat <> tget (torch_addmm 1 alpha s x w) [0; 0]%nat.
Proof.
  exists 2, (mkT [1]%nat (fun _ => 0)), (mkT [1; 1]%nat (fun _ => 1)), (mkT [1; 1]%nat (fun _ => 1)).
  eexists. split; [reflexivity|]. split; [reflexivity|]. split; [reflexivity|]. split; [reflexivity|]. split; [reflexivity|].
  cbn. unfold lsum. cbn. lra.
Qed.
(** a column as bias is taken for a row when it happens to have the length of one *)
Theorem addmm_column_refuted : exists s x w y, tshape s = [2; 1]%nat /\ tshape x = [2; 1]%nat /\ tshape w = [1; 2]%nat /\
  aten_addmm 1 1 s x w = Some y /\ tshape y = [2; 2]%nat /\ tget y [0; 1]%nat <> tget (torch_addmm 1 1 s x w) [0; 1]%nat.
Proof.
  exists (mkT [2; 1]%nat (fun idx => INR (nth 0 idx 0%nat))), (mkT [2; 1]%nat (fun _ => 0)), (mkT [1; 2]%nat (fun _ => 0)).
  eexists. split; [reflexivity|]. split; [reflexivity|]. split; [reflexivity|]. split; [reflexivity|]. split; [reflexivity|].
  cbn. unfold lsum. cbn. lra.
Qed.
(** a full matrix as bias is refused *)
Theorem addmm_matrix_refuted : exists s x w, tshape s = [2; 2]%nat /\ tshape x = [2; 1]%nat /\ tshape w = [1; 2]%nat /\ aten_addmm 1 1 s x w = None.
Proof. exists (mkT [2; 2]%nat (fun _ => 0)), (mkT [2; 1]%nat (fun _ => 0)), (mkT [1; 2]%nat (fun _ => 0)). repeat split. Qed.

Lemma bmm_three x w b n k p : tshape x = [b; n; k] -> tshape w = [b; k; p] ->
  exists y, batch_matmul x w = Some y /\ tshape y = [b; n; p] /\
    forall q i j, (q < b)%nat -> (i < n)%nat -> (j < p)%nat -> tget y [q; i; j] = lsum (seq 0 k) (fun r => tget x [q; i; r] * tget w [q; r; j]).
Proof.
  intros Ex Ew. unfold batch_matmul, torch_matmul. rewrite Ex, Ew. cbn [length Nat.leb andb].
  change (cols_of [b; n; k]) with k. change (rows_of [b; k; p]) with k. rewrite Nat.eqb_refl.
  change (batch_of [b; n; k]) with [b]. change (batch_of [b; k; p]) with [b]. rewrite bshape_self.
  eexists. split; [reflexivity|]. split; [reflexivity|]. intros q i j Hq Hi Hj. cbn [tget length firstn nth]. apply lsum_ext. intros r _.
  rewrite bidx_self by (repeat constructor; auto). reflexivity.
Qed.
Theorem aten_baddbmm_ok s x w b n k p : tshape x = [b; n; k] -> tshape w = [b; k; p] -> bshape (tshape s) [b; n; p] = Some [b; n; p] ->
  exists y, aten_baddbmm 1 1 s x w = Some y /\ teq y (torch_baddbmm 1 1 s x w).
Proof.
  intros Ex Ew Es. destruct (bmm_three x w b n k p Ex Ew) as (m & Em & Sm & Gm). unfold aten_baddbmm. rewrite Em, Ex, Ew. cbn [length Nat.eqb andb obind].
  unfold binop. rewrite Sm, Es. eexists. split; [reflexivity|]. split; cbn [tshape tget torch_baddbmm]; [now rewrite Ex, Ew|].
  intros idx V. rewrite (bidx_self [b; n; p] idx V). destruct (list_eq_dec Nat.eq_dec idx []) as [->|_]; [inversion V|].
  destruct idx as [|q [|i [|j [|]]]]; try (apply valid_length in V; discriminate).
  pose proof (valid_nth _ _ 0 V ltac:(cbn; lia)). pose proof (valid_nth _ _ 1 V ltac:(cbn; lia)). pose proof (valid_nth _ _ 2 V ltac:(cbn; lia)). cbn [nth] in *.
  rewrite Gm, Ex by auto. cbn [nth]. ring.
Qed.
Lemma reduce_first y b n p : tshape y = [b; n; p] -> tshape (reduce_op total [0%nat] false y) = [n; p] /\
  forall i j, (i < n)%nat -> (j < p)%nat -> tget (reduce_op total [0%nat] false y) [i; j] = lsum (seq 0 b) (fun q => tget y [q; i; j]).
Proof.
  intros Ey. destruct (reduce_op_torch total [0%nat] false y) as [S1 G1].
  assert (tshape (torch_reduce total [0%nat] false y) = [n; p]) as S2 by (cbn; now rewrite Ey).
  rewrite S2 in S1. split; [exact S1|]. intros i j Hi Hj. rewrite G1 by (rewrite S1; repeat constructor; auto).
  cbn [torch_reduce tget]. unfold line, total. rewrite Ey, lsum_map, lsum_filter.
  rewrite lsum_indices_cons. apply lsum_ext. intros q _. rewrite lsum_indices_cons.
  rewrite (lsum_ext _ _ (fun a => if (a =? i)%nat then tget y [q; a; j] else 0)).
  { apply (lsum_delta i (fun a => tget y [q; a; j])). lia. }
  intros a _. rewrite lsum_indices_cons.
  rewrite (lsum_ext _ _ (fun c => if (c =? j)%nat then if (a =? i)%nat then tget y [q; a; c] else 0 else 0)).
  { rewrite (lsum_delta j (fun c => if (a =? i)%nat then tget y [q; a; c] else 0)) by lia. reflexivity. }
  intros c _. rewrite lsum_indices_nil. unfold kept. cbn [drop_from existsb Nat.eqb orb]. 
  destruct (list_eqb_spec [a; c] [i; j]) as [E|N].
  - injection E as -> ->. now rewrite !Nat.eqb_refl.
  - destruct (Nat.eqb_spec c j); [|reflexivity]. destruct (Nat.eqb_spec a i); [|reflexivity]. subst. congruence.
Qed.
Theorem aten_addbmm_ok s x w b n k p : tshape x = [b; n; k] -> tshape w = [b; k; p] -> bshape (tshape s) [n; p] = Some [n; p] ->
  exists y, aten_addbmm 1 1 s x w = Some y /\ teq y (torch_addbmm 1 1 s x w).
Proof.
  intros Ex Ew Es. destruct (bmm_three x w b n k p Ex Ew) as (m & Em & Sm & Gm). unfold aten_addbmm. rewrite Em, Ex, Ew. cbn [length Nat.eqb andb obind].
  destruct (reduce_first m b n p Sm) as [S1 G1]. unfold binop. rewrite S1, Es. eexists. split; [reflexivity|]. split; cbn [tshape tget torch_addbmm]; [now rewrite Ex, Ew|].
  intros idx V. rewrite (bidx_self [n; p] idx V). destruct idx as [|i [|j [|]]]; try (apply valid_length in V; discriminate).
  pose proof (valid_nth _ _ 0 V ltac:(cbn; lia)). pose proof (valid_nth _ _ 1 V ltac:(cbn; lia)). cbn [nth] in *.
  rewrite G1, Ex by auto. cbn [nth]. rewrite !Rmult_1_l. f_equal. apply lsum_ext. intros q Hq. apply in_seq in Hq. apply Gm; lia.
Qed.
Theorem bmm_beta_refuted : exists beta s x w, tshape s = [1; 1; 1]%nat /\ tshape x = [1; 1; 1]%nat /\ tshape w = [1; 1; 1]%nat /\
  (exists y, aten_baddbmm beta 1 s x w = Some y /\ tget y [0; 0; 0]%nat <> tget (torch_baddbmm beta 1 s x w) [0; 0; 0]%nat) /\
  (exists y, aten_addbmm beta 1 (reshape [1; 1]%nat s) x w = Some y /\ tget y [0; 0]%nat <> tget (torch_addbmm beta 1 (reshape [1; 1]%nat s) x w) [0; 0]%nat).
Proof.
  exists 0, (mkT [1; 1; 1]%nat (fun _ => 1)), (mkT [1; 1; 1]%nat (fun _ => 0)), (mkT [1; 1; 1]%nat (fun _ => 0)).
  split; [reflexivity|]. split; [reflexivity|]. split; [reflexivity|].
  split; (eexists; split; [reflexivity|]; cbn; unfold total, lsum; cbn; lra).
Qed.

(* ------------------------------------------------------------------ *)
(** * Softmax *)

Definition last_perm (n ax : nat) : list nat := filter (fun i => negb (i =? ax)%nat) (seq 0 n) ++ [ax].
Lemma last_perm_ok n ax : (ax < n)%nat -> is_perm n (last_perm n ax).
Proof.
  intros H. unfold is_perm, last_perm. eapply Permutation_trans; [apply Permutation_sym, Permutation_cons_append|].
  apply NoDup_Permutation; [|apply seq_NoDup|].
  - constructor; [|apply NoDup_filter, seq_NoDup]. intros Ha. apply filter_In in Ha. rewrite Nat.eqb_refl in Ha. destruct Ha. discriminate.
  - intros a. cbn [In]. rewrite filter_In, in_seq. destruct (Nat.eqb_spec a ax); cbn; split; intros; subst; intuition lia.
Qed.

Lemma sel_last_perm n ax j i : (ax < n)%nat -> length j = n ->
  sel (upd j ax i) (last_perm n ax) = removelast (sel j (last_perm n ax)) ++ [i].
Proof.
  intros H L. unfold last_perm, sel. rewrite !map_app. cbn [map]. rewrite removelast_last, upd_nth_eq by lia. f_equal.
  apply map_ext_in. intros a Ha. apply filter_In in Ha. destruct Ha as [Ha Hn]. destruct (Nat.eqb_spec a ax) as [E|N]; [discriminate|].
  rewrite upd_nth. destruct (Nat.eqb_spec a ax); [congruence|]. reflexivity.
Qed.
Lemma last_sel l n ax : last (sel l (last_perm n ax)) 0%nat = nth ax l 0%nat.
Proof. unfold last_perm, sel. rewrite map_app. cbn [map]. apply last_last. Qed.
Lemma transpose_round {A} n perm (y y' : tensor A) : is_perm n perm -> length (tshape y) = n -> tshape y' = sel (tshape y) perm ->
  (forall j, valid (tshape y) j -> tget y' (sel j perm) = tget y j) -> teq (transpose (argsort perm) y') y.
Proof.
  intros Hp L HS HG. rewrite (argsort_inv_perm n perm Hp). pose proof (inv_perm_is_perm n perm Hp) as Hi.
  assert (teq y' (transpose perm y)) as E by (apply transpose_unique; [rewrite L; auto|auto|auto]).
  eapply teq_trans; [apply transpose_congr; [|exact E]; rewrite HS, sel_length, (is_perm_length _ _ Hp); exact Hi|].
  eapply teq_trans; [apply transpose_transpose; rewrite L; auto|].
  replace (sel perm (inv_perm perm)) with (seq 0 (length (tshape y))); [apply transpose_id|]. rewrite L.
  apply list_eq_nth; [now rewrite sel_length, inv_perm_length, seq_length, (is_perm_length _ _ Hp)|].
  intros k Hk. rewrite seq_length in Hk. rewrite seq_nth by auto. rewrite sel_nth by (now rewrite inv_perm_length, (is_perm_length _ _ Hp)).
  rewrite inv_perm_nth by (now rewrite (is_perm_length _ _ Hp)). rewrite nth_find_pos; [reflexivity|]. now apply (is_perm_in n perm k Hp).
Qed.
(** an operator along the last axis, moved to another axis *)
Lemma wrap_last_ok (g : (nat -> R) -> nat -> R -> R) op x ax : (ax < length (tshape x))%nat ->
  (forall f f' m v, (forall i, (i < m)%nat -> f i = f' i) -> g f m v = g f' m v) ->
  (forall t, tshape (op t) = tshape t /\
     forall idx, tget (op t) idx = g (fun i => tget t (removelast idx ++ [i])) (last (tshape t) 0%nat) (tget t idx)) ->
  teq (wrap_last op ax x) (mkT (tshape x) (fun idx => g (fun i => tget x (upd idx ax i)) (nth ax (tshape x) 0%nat) (tget x idx))).
Proof.
  intros H Hg Hop. unfold wrap_last. destruct (Nat.eqb_spec (length (tshape x)) ax) as [?|_]; [lia|]. fold (last_perm (length (tshape x)) ax).
  set (n := length (tshape x)) in *. pose proof (last_perm_ok n ax H) as Hp.
  destruct (Hop (transpose (last_perm n ax) x)) as [So Go].
  apply (transpose_round n); [exact Hp|reflexivity|exact So|]. intros j V. cbn [tshape] in V. pose proof (valid_length _ _ V) as Lj.
  rewrite Go. cbn [tshape tget]. rewrite transpose_spec by auto. change (tshape (transpose (last_perm n ax) x)) with (sel (tshape x) (last_perm n ax)). rewrite last_sel.
  apply Hg. intros i Hi. rewrite <- sel_last_perm by auto. apply (transpose_get _ x _ n Hp). rewrite upd_length. exact Lj.
Qed.
Theorem aten_softmax_ok dim x : axis_ok (length (tshape x)) dim ->
  teq (aten_softmax dim x) (torch_softmax (axis_of (length (tshape x)) dim) x).
Proof.
  intros H. apply (wrap_last_ok (fun f m v => exp v / lsum (seq 0 m) (fun i => exp (f i)))).
  - now apply axis_of_lt.
  - intros f f' m v E. f_equal. apply lsum_ext. intros i Hi. apply in_seq in Hi. rewrite E by lia. reflexivity.
  - intros t. split; reflexivity.
Qed.
Theorem aten_log_softmax_ok dim x : axis_ok (length (tshape x)) dim ->
  teq (aten_log_softmax dim x) (torch_log_softmax (axis_of (length (tshape x)) dim) x).
Proof.
  intros H. apply (wrap_last_ok (fun f m v => v - ln (lsum (seq 0 m) (fun i => exp (f i))))).
  - now apply axis_of_lt.
  - intros f f' m v E. f_equal. f_equal. apply lsum_ext. intros i Hi. apply in_seq in Hi. rewrite E by lia. reflexivity.
  - intros t. split; reflexivity.
Qed.

(* ------------------------------------------------------------------ *)
(** * Axes *)

Lemma axis_nonneg n d : (0 <= d)%Z -> axis_of n d = Z.to_nat d.
Proof. intros H. unfold axis_of. destruct (Z.ltb_spec d 0); [lia|reflexivity]. Qed.
Lemma dims_perm n dims : dims_ok n dims -> is_perm n (map (axis_of n) dims).
Proof.
  intros (F & N & L). apply is_perm_intro; [now rewrite map_length|auto|]. apply Forall_map. eapply Forall_impl; [|exact F]. intros a Ha. now apply axis_of_lt.
Qed.
Theorem aten_permute_ok {A} dims (x : tensor A) : dims_ok (length (tshape x)) dims -> Forall (fun d => (0 <= d)%Z) dims ->
  exists y, aten_permute dims x = Some y /\ is_permute dims x y.
Proof.
  intros Hd F. unfold aten_permute, transpose_op. destruct Hd as (F1 & N & L).
  replace (forallb _ dims) with true.
  2: { symmetry. apply forallb_forall. intros d Hd. rewrite Forall_forall in F, F1. specialize (F d Hd). specialize (F1 d Hd). unfold axis_ok in F1.
       apply andb_true_intro. split; [apply Z.leb_le|apply Z.ltb_lt]; lia. }
  eexists. split; [reflexivity|].
  assert (map Z.to_nat dims = map (axis_of (length (tshape x))) dims) as E.
  { apply map_ext_in. intros d Hd. rewrite Forall_forall in F. symmetry. apply axis_nonneg. auto. }
  rewrite E. unfold is_permute.
  assert (forall l, map (fun d => nth (axis_of (length (tshape x)) d) l 0%nat) dims = sel l (map (axis_of (length (tshape x))) dims)) as E2
    by (intros l; unfold sel; now rewrite map_map).
  rewrite E2. split; [reflexivity|]. intros j V. rewrite E2. apply transpose_spec; [|exact V]. apply dims_perm. split; auto.
Qed.
(** a negative entry is written as it is and refused by TFLite *)
Theorem permute_negative_refuted : exists (x : tensor R) dims, tshape x = [2; 3]%nat /\ dims_ok 2 dims /\ aten_permute dims x = None /\ exists y, is_permute dims x y.
Proof.
  exists (mkT [2; 3]%nat (fun _ => 0)), [(-1)%Z; 0%Z]. split; [reflexivity|]. split.
  - split; [repeat constructor; unfold axis_ok; lia|]. split; [|reflexivity]. cbn. repeat constructor; cbn; intuition lia.
  - split; [reflexivity|]. exists (mkT [3; 2]%nat (fun _ => 0)). split; reflexivity.
Qed.

Lemma swap_at_length a b l : length (swap_at a b l) = length l.
Proof. unfold swap_at. now rewrite !upd_length. Qed.
Lemma swap_at_nth a b l k : (a < length l)%nat -> (b < length l)%nat -> (k < length l)%nat ->
  nth k (swap_at a b l) 0%nat = nth (if (k =? b)%nat then a else if (k =? a)%nat then b else k) l 0%nat.
Proof.
  intros Ha Hb Hk. unfold swap_at. rewrite upd_nth, upd_length. destruct (Nat.eqb_spec k b) as [->|N].
  - rewrite (proj2 (Nat.ltb_lt _ _) Hb). cbn. reflexivity.
  - cbn [andb]. rewrite upd_nth. destruct (Nat.eqb_spec k a) as [->|N2]; cbn [andb]; [now rewrite (proj2 (Nat.ltb_lt _ _) Ha)|reflexivity].
Qed.
Theorem aten_transpose_ok {A} d1 d2 (x : tensor A) : axis_ok (length (tshape x)) d1 -> axis_ok (length (tshape x)) d2 ->
  exists y, aten_transpose d1 d2 x = Some y /\ teq y (torch_transpose (axis_of (length (tshape x)) d1) (axis_of (length (tshape x)) d2) x).
Proof.
  intros H1 H2. unfold aten_transpose, transpose_op. change (norm_dim ?n ?d) with (axis_of n d). set (n := length (tshape x)) in *.
  set (a := axis_of n d1). set (b := axis_of n d2). assert (a < n)%nat as Ha by now apply axis_of_lt. assert (b < n)%nat as Hb by now apply axis_of_lt.
  fold (swap_at a b (seq 0 n)). set (p := swap_at a b (seq 0 n)).
  assert (length p = n) as Lp by (subst p; now rewrite swap_at_length, seq_length).
  assert (forall k, (k < n)%nat -> nth k p 0%nat = if (k =? b)%nat then a else if (k =? a)%nat then b else k) as Np.
  { intros k Hk. subst p. rewrite swap_at_nth by (rewrite seq_length; auto). rewrite seq_nth; [reflexivity|]. destruct (k =? b)%nat; [auto|]. destruct (k =? a)%nat; auto. }
  assert (forall k, (k < n)%nat -> (nth k p 0 < n)%nat) as Bp by (intros k Hk; rewrite Np by auto; destruct (k =? b)%nat; [auto|]; destruct (k =? a)%nat; auto).
  assert (is_perm n p) as Pp.
  { apply is_perm_intro; [exact Lp| |].
    - apply NoDup_of_inj. rewrite Lp. intros i j Hi Hj. rewrite !Np by auto. destruct (Nat.eqb_spec i b), (Nat.eqb_spec j b), (Nat.eqb_spec i a), (Nat.eqb_spec j a); subst; intros; try lia; auto.
    - apply Forall_forall. intros v Hv. apply (In_nth _ _ 0%nat) in Hv. destruct Hv as (k & Hk & <-). apply Bp. lia. }
  replace (forallb _ (map Z.of_nat p)) with true.
  2: { symmetry. apply forallb_forall. intros d Hd. apply in_map_iff in Hd. destruct Hd as (v & <- & Hv). apply (is_perm_in n p v Pp) in Hv.
       apply andb_true_intro. split; [apply Z.leb_le|apply Z.ltb_lt]; lia. }
  eexists. split; [reflexivity|]. rewrite map_map. rewrite (map_ext _ (fun v => v)) by (intros; apply Nat2Z.id). rewrite map_id.
  assert (forall l, length l = n -> sel l p = swap_at a b l) as Es.
  { intros l Ll. apply list_eq_nth; [now rewrite sel_length, swap_at_length, Lp|]. intros k Hk. rewrite sel_length, Lp in Hk.
    rewrite sel_nth, Np, swap_at_nth by lia. reflexivity. }
  assert (forall l, length l = n -> swap_at a b (swap_at a b l) = l) as Ess.
  { intros l Ll. apply list_eq_nth; [now rewrite !swap_at_length|]. intros k Hk. rewrite !swap_at_length in Hk.
    rewrite swap_at_nth by (rewrite swap_at_length; lia). 
    rewrite swap_at_nth by first [lia | destruct (k =? b)%nat; [lia|]; destruct (k =? a)%nat; lia].
    f_equal. destruct (Nat.eqb_spec k b), (Nat.eqb_spec k a), (Nat.eqb_spec a b), (Nat.eqb_spec b b), (Nat.eqb_spec a a), (Nat.eqb_spec b a); subst; try lia; auto;
    destruct (Nat.eqb_spec k b), (Nat.eqb_spec k a); lia. }
  apply teq_sym. apply transpose_unique; [exact Pp|symmetry; now apply Es|]. intros j V. pose proof (valid_length _ _ V) as Lj. cbn [torch_transpose tget].
  rewrite Es, Ess by auto. reflexivity.
Qed.

Lemma prod_insert ax v l : prod (insert_at ax v l) = (v * prod (firstn ax l) * prod (skipn ax l))%nat.
Proof. unfold insert_at. rewrite prod_app. cbn. lia. Qed.
Lemma ravel_insert0 ax : forall s idx, (ax <= length s)%nat -> length idx = length s ->
  ravel (insert_at ax 1 s) (insert_at ax 0 idx) = ravel s idx.
Proof.
  induction ax as [|ax IH]; intros s idx H L; unfold insert_at; cbn [firstn skipn app].
  - cbn. reflexivity.
  - destruct s as [|d s]; [cbn in H; lia|]. destruct idx as [|i idx]; [discriminate|]. cbn [firstn skipn app ravel]. f_equal.
    + fold (insert_at ax 1 s). rewrite prod_insert, Nat.mul_1_l, <- prod_app, firstn_skipn. reflexivity.
    + apply IH; cbn in H, L; lia.
Qed.
Lemma valid_insert ax v d s idx : valid s idx -> (v < d)%nat -> valid (insert_at ax d s) (insert_at ax v idx).
Proof.
  intros V H. unfold valid, insert_at. revert s idx V. induction ax as [|ax IH]; intros s idx V; cbn [firstn skipn app]; [now constructor|].
  destruct V; cbn [firstn skipn app]; [now repeat constructor|]. constructor; auto.
Qed.
Theorem aten_select_ok {A} dim index (x : tensor A) : axis_ok (length (tshape x)) dim ->
  axis_ok (nth (axis_of (length (tshape x)) dim) (tshape x) 0%nat) index ->
  teq (aten_select dim index x)
      (torch_select (axis_of (length (tshape x)) dim) (axis_of (nth (axis_of (length (tshape x)) dim) (tshape x) 0%nat) index) x).
Proof.
  intros Hd Hi. unfold aten_select. change (norm_dim ?n ?d) with (axis_of n d). set (ax := axis_of (length (tshape x)) dim) in *.
  set (i := axis_of _ index). assert (ax < length (tshape x))%nat as Ha by now apply axis_of_lt.
  split; cbn [torch_select reshape gather tshape tget length]; [reflexivity|]. intros idx V.
  assert (length idx = pred (length (tshape x))) as L.
  { rewrite (valid_length _ _ V). unfold remove_at. rewrite app_length, firstn_length, skipn_length. lia. }
  pose proof (remove_at_length ax (tshape x) Ha) as Lr.
  assert (upd (tshape x) ax 1 = insert_at ax 1 (remove_at ax (tshape x))) as Es.
  { rewrite <- (insert_remove ax (tshape x) Ha) at 1. apply upd_insert. lia. }
  rewrite Es, <- (ravel_insert0 ax) by lia.
  rewrite unravel_ravel by (apply valid_insert; [exact V|lia]).
  rewrite insert_at_eq by lia. cbn [nth]. now rewrite upd_insert by lia.
Qed.
Theorem aten_unbind_ok {A} int64 dim (x : tensor A) : axis_ok (length (tshape x)) dim -> 
  Forall2 teq (aten_unbind int64 dim x)
    (map (fun i => torch_select (axis_of (length (tshape x)) dim) i x) (seq 0 (nth (axis_of (length (tshape x)) dim) (tshape x) 0%nat))).
Proof.
  intros Hd. unfold aten_unbind. change (norm_dim ?n ?d) with (axis_of n d). set (ax := axis_of (length (tshape x)) dim) in *.
  assert (ax < length (tshape x))%nat as Ha by now apply axis_of_lt.
  destruct (int64 && (length (tshape x) =? 1)%nat && (prod (tshape x) =? 1)%nat) eqn:E.
  - apply andb_prop in E. destruct E as [E E2]. apply andb_prop in E. destruct E as [_ E1]. apply Nat.eqb_eq in E1, E2.
    destruct (tshape x) as [|d [|]] eqn:Es; try discriminate. cbn in E2. assert (d = 1%nat) by lia. subst d. assert (ax = 0%nat) by (cbn in Ha; lia).
    clearbody ax. subst ax. cbn. constructor; [|constructor]. unfold torch_select. rewrite Es. split; cbn; [reflexivity|]. intros idx V. inversion V; subst. rewrite Es. reflexivity.
  - induction (seq 0 (nth ax (tshape x) 0%nat)) as [|i l IH]; constructor; [|exact IH]. split; reflexivity.
Qed.
Theorem aten_embedding_ok {A} (w : tensor A) ix v d : tshape w = [v; d] -> exists y, aten_embedding w ix = Some y /\ teq y (torch_embedding w ix).
Proof.
  intros E. unfold aten_embedding. rewrite E. cbn [length Nat.eqb]. eexists. split; [reflexivity|]. unfold gather_nd, torch_embedding. rewrite E.
  split; cbn [tshape tget firstn skipn app nth]; [reflexivity|]. intros idx V. unfold valid in V. apply Forall2_app_inv_r in V. destruct V as (pos & r & V1 & V2 & ->).
  inversion V2 as [|j ? r' ? Hj V3]; subst. inversion V3; subst. pose proof (valid_length _ _ V1) as L. cbn [Nat.add]. rewrite <- L, firstn_pos, skipn_app, skipn_all, Nat.sub_diag. cbn [skipn app].
  now rewrite removelast_last, last_last.
Qed.
