(** Proofs about rewriting grouped (transposed) convolutions (RewriteModel.v). *)
From Coq Require Import List Arith Bool Reals Lia Lra.
From Verif Require Import Tensor ChainModel ConvSpec CatSpec RewriteModel FuseModel FuseProofs PadProofs FuseMiscProofs.
Import ListNotations.
Local Open Scope nat_scope.

Definition bias_at (b : option (list R)) (o : nat) : R := match b with None => 0%R | Some l => nth o l 0%R end.

Lemma split_list_nth {A} n g (l : list A) k i d : 0 < n -> length l = n * k -> i < k ->
  nth i (split_list n g l) d = nth (g * k + i) l d.
Proof.
  intros Hn Hl Hi. unfold split_list. rewrite Hl, Nat.mul_comm, Nat.div_mul by lia.
  revert l Hl. generalize (g * k) as s. intros s l Hl.
  assert (forall (m : list A) j, j < k -> nth j (firstn k m) d = nth j m d) as F.
  { clear. revert k. induction k; intros m j Hj; [lia|]. destruct m; [now destruct j|]. destruct j; simpl; auto. apply IHk. lia. }
  rewrite F by auto. clear. revert l. induction s; intros l; [reflexivity|]. destruct l; [now destruct i|]. apply IHs.
Qed.

Lemma bias_split n g b k i : 0 < n -> (match b with None => True | Some l => length l = n * k end) -> i < k ->
  bias_at (option_map (split_list n g) b) i = bias_at b (g * k + i).
Proof. destruct b as [l|]; simpl; intros; auto. now apply split_list_nth. Qed.

Lemma map_combine_seq {A B} (F : nat * A -> B) (h : nat -> A) n :
  map F (combine (seq 0 n) (map h (seq 0 n))) = map (fun g => F (g, h g)) (seq 0 n).
Proof. generalize 0. induction n; intro a; simpl; [reflexivity|]. now rewrite IHn. Qed.

(** the rewritten graph of a grouped convolution *)
Definition run_conv_parts (od st dil pad : list nat) (x : tensor R) (parts : list part) : tensor R :=
  concatenation 0%R 3
    (map (fun gp => conv2d (pt_act (snd gp)) od st dil pad (split_part (length parts) 3 (fst gp) x)
                           (pt_w (snd gp)) (bias_at (pt_b (snd gp))))
         (combine (seq 0 (length parts)) parts)).

Lemma val0_row (f : nat -> R) (t : option (list nat)) (h : list nat -> nat -> R) C c : c < C ->
  val0 (nth c (map (fun c => option_map (fun q => h q c) t) (seq 0 C)) None) =
  match t with Some q => h q c | None => 0%R end.
Proof. intro H. rewrite nth_map_seq by auto. now destruct t. Qed.

Lemma tap2 d1 d2 st dil pad p q k kh kw r : length st = 2 -> length dil = 2 -> length pad = 2 -> In k (indices [kh; kw]) ->
  tap [d1; d2] st dil pad [p; q] k = Some r -> exists r1 r2, r = [r1; r2].
Proof.
  intros H1 H2 H3 Hk E. apply indices_valid, valid_length in Hk.
  destruct st as [|s1 [|s2 [|]]], dil as [|l1 [|l2 [|]]], pad as [|a1 [|a2 [|]]], k as [|k1 [|k2 [|]]]; try discriminate.
  cbn [tap] in E. destruct (_ && _); [|discriminate]. destruct (_ && _); [|discriminate]. injection E as <-. eauto.
Qed.

(** value of CONV_2D at an index, written out *)
Lemma conv2d_get act od st dil pad (x w : tensor R) b N H W C cout kh kw ipg n p q o :
  tshape x = [N; H; W; C] -> tshape w = [cout; kh; kw; ipg] -> 0 < ipg ->
  (o / (cout / (C / ipg))) * ipg + ipg <= C ->
  tget (conv2d act od st dil pad x w b) [n; p; q; o] =
  act_fn act (b o + lsum (indices [kh; kw]) (fun k => lsum (seq 0 ipg) (fun i =>
     tget w (o :: k ++ [i]) *
     match tap [H; W] st dil pad [p; q] k with
     | Some r => tget x (n :: r ++ [(o / (cout / (C / ipg))) * ipg + i]%nat) | None => 0 end)))%R.
Proof.
  intros Hx Hw Hi Hb. unfold conv2d, tmap, windowed. cbn [tget]. rewrite Hx, Hw.
  cbn [nth tl removelast last]. unfold conv_kernel. rewrite Hw. cbn [nth tl removelast last].
  rewrite lsum_combine_map. f_equal. f_equal. apply lsum_ext. intros k _. apply lsum_ext. intros i Hin.
  apply in_seq in Hin. cbn [fst snd]. f_equal.
  rewrite nth_map_seq by lia. now destruct (tap _ _ _ _ _ _).
Qed.

Lemma group_conv_correct act od st dil pad x w b N H W cout kh kw ipg opg G oh ow :
  tshape x = [N; H; W; G * ipg] -> tshape w = [cout; kh; kw; ipg] -> cout = G * opg -> od = [oh; ow] ->
  length st = 2 -> length dil = 2 -> length pad = 2 ->
  0 < ipg -> 0 < opg -> 0 < G -> (match b with None => True | Some l => length l = cout end) ->
  exists parts, group_conv_rewrite (tshape x) [N; oh; ow; cout] w b act = Some parts /\ length parts = G /\
    (forall p, In p parts -> tshape (pt_w p) = [opg; kh; kw; ipg]) /\
    teq (run_conv_parts od st dil pad x parts) (conv2d act od st dil pad x w (bias_at b)).
Proof.
  intros Hx Hw -> -> Hst Hdil Hpad Hi Ho HG Hb. unfold group_conv_rewrite. rewrite Hx, Hw. cbn [nth].
  rewrite Nat.div_mul by lia. rewrite (proj2 (Nat.eqb_neq G 0)) by lia.
  rewrite !(Nat.mul_comm G), !Nat.mod_mul by lia. rewrite Nat.eqb_refl. cbn [negb orb].
  assert (match b with Some l => negb (length l mod G =? 0) | None => false end = false) as ->.
  { destruct b as [l|]; auto. rewrite Hb, Nat.mul_comm, Nat.mod_mul by lia. reflexivity. }
  eexists. split; [reflexivity|]. rewrite map_length, seq_length. split; [reflexivity|].
  assert (forall g, tshape (split_part G 0 g w) = [opg; kh; kw; ipg]) as Hpw.
  { intro g. unfold split_part, axis_size. rewrite Hw. cbn. rewrite (Nat.mul_comm G), Nat.div_mul by lia. reflexivity. }
  assert (forall g, tshape (split_part G 3 g x) = [N; H; W; ipg]) as Hpx.
  { intro g. unfold split_part, axis_size. rewrite Hx. cbn. rewrite (Nat.mul_comm G), Nat.div_mul by lia. reflexivity. }
  split.
  { intros p Hp. apply in_map_iff in Hp. destruct Hp as (g & <- & _). apply Hpw. }
  unfold run_conv_parts. rewrite map_length, seq_length, map_combine_seq. cbn [fst snd pt_w pt_b pt_act].
  set (F := fun g => conv2d act [oh; ow] st dil pad (split_part G 3 g x) (split_part G 0 g w) (bias_at (option_map (split_list G g) b))).
  assert (forall g, tshape (F g) = [N; oh; ow; opg]) as HF.
  { intro g. unfold F, conv2d, windowed, tmap. cbn [tshape]. now rewrite Hpx, Hpw. }
  assert (forall g, axis_size 3 (F g) = opg) as HFs by (intro g; unfold axis_size; now rewrite HF).
  assert (tshape (conv2d act [oh; ow] st dil pad x w (bias_at b)) = [N; oh; ow; G * opg]) as Hcs.
  { unfold conv2d, windowed, tmap. cbn [tshape]. now rewrite Hx, Hw. }
  split.
  - rewrite Hcs. unfold concatenation. cbn [tshape]. rewrite (sizes_sum_uniform 3 opg F) by auto.
    destruct G as [|G]; [lia|]. cbn [seq map]. now rewrite HF.
  - intros idx V.
    assert (valid [N; oh; ow; G * opg] idx) as V'.
    { unfold concatenation in V. cbn [tshape] in V. rewrite (sizes_sum_uniform 3 opg F) in V by auto.
      destruct G as [|G]; [lia|]. cbn [seq map] in V. now rewrite HF in V. }
    clear V. inversion V' as [|n ? ? ? Hn V1]; subst. inversion V1 as [|p ? ? ? Hp V2]; subst.
    inversion V2 as [|q ? ? ? Hq V3]; subst. inversion V3 as [|o ? ? ? Hoo V4]; subst. inversion V4; subst.
    clear V' V1 V2 V3 V4. unfold concatenation. cbn [tget nth]. rewrite (cat_at_uniform 0%R 3 opg F) by auto.
    cbn [upd]. rewrite Nat.add_0_l.
    assert (o mod opg < opg) as Hmod by (apply Nat.mod_upper_bound; lia).
    assert (o / opg < G) as Hdiv by (apply Nat.div_lt_upper_bound; [lia|]; lia).
    assert (o = o / opg * opg + o mod opg) as Eo by (rewrite (Nat.div_mod o opg) at 1; lia).
    unfold F.
    rewrite (conv2d_get act [oh; ow] st dil pad _ _ _ N H W ipg opg kh kw ipg); auto;
      [|rewrite Nat.div_same, Nat.div_1_r, (Nat.div_small (o mod opg)) by lia; lia].
    rewrite (conv2d_get act [oh; ow] st dil pad x w _ N H W (G * ipg) (G * opg) kh kw ipg); auto;
      [|rewrite Nat.div_mul, (Nat.mul_comm G opg), Nat.div_mul by lia; nia].
    rewrite Nat.div_same, Nat.div_1_r, (Nat.div_small (o mod opg)), Nat.mul_0_l, Nat.div_mul by lia.
    replace (G * opg / G) with opg by (rewrite (Nat.mul_comm G opg), Nat.div_mul; lia).
    f_equal. f_equal.
    + rewrite (bias_split G (o / opg) b opg) by (auto; lia). now rewrite <- Eo.
    + apply lsum_ext. intros k Hk. apply lsum_ext. intros i Hin. f_equal.
      * unfold split_part. cbn [tget upd nth]. unfold axis_size. rewrite Hw. cbn [nth].
        rewrite (Nat.mul_comm G), Nat.div_mul by lia. now rewrite <- Eo.
      * destruct (tap [H; W] st dil pad [p; q] k) as [r|] eqn:Et; [|reflexivity].
        unfold split_part. cbn [tget]. unfold axis_size. rewrite Hx. cbn [nth].
        rewrite (Nat.mul_comm G), Nat.div_mul by lia.
        assert (exists r1 r2, r = [r1; r2]) as (r1 & r2 & ->) by exact (tap2 H W st dil pad p q k kh kw r Hst Hdil Hpad Hk Et).
        cbn [app upd nth]. do 5 f_equal.
Qed.

(* ------------------------------------------------------------------ *)
(** * Transposed convolutions *)

(** TRANSPOSE_CONV, operand [N; H; W; Cin], weight [Cout/G; kh; kw; Cin]; the number of groups
    follows from the output shape.  [pad]: offset subtracted by the padding scheme. *)
Definition tconv2d (act : activ) (st pad oshape : list nat) (x w : tensor R) (b : nat -> R) : tensor R :=
  let opg := nth 0 (tshape w) 0 in
  let G := nth 3 oshape 0 / opg in
  let ipg := nth 3 (tshape w) 0 / G in
  tmap (act_fn act) (mkT oshape (fun idx =>
    let n := nth 0 idx 0 in let pos := removelast (tl idx) in let o := last idx 0 in
    (b o + lsum (indices (removelast (tl (tshape w)))) (fun k => lsum (indices (removelast (tl (tshape x)))) (fun q =>
       if hits st [1; 1]%nat pad q k pos
       then lsum (seq 0 ipg) (fun i => tget w ((o mod opg)%nat :: k ++ [(o / opg * ipg + i)%nat]) *
                                        tget x (n :: q ++ [(o / opg * ipg + i)%nat]))
       else 0)))%R)).

Definition run_deconv_parts (st pad : list nat) (x : tensor R) (new_os : list nat) (parts : list part) : tensor R :=
  concatenation 0%R 3
    (map (fun gp => tconv2d (pt_act (snd gp)) st pad new_os (split_part (length parts) 3 (fst gp) x)
                            (pt_w (snd gp)) (bias_at (pt_b (snd gp))))
         (combine (seq 0 (length parts)) parts)).

Lemma group_deconv_correct st pad x w b N H W kh kw ipg opg G oh ow :
  tshape x = [N; H; W; G * ipg] -> tshape w = [opg; kh; kw; G * ipg] ->
  0 < ipg -> 0 < opg -> 0 < G -> (match b with None => True | Some l => length l = G * opg end) ->
  exists new_os parts,
    group_deconv_rewrite (tshape x) [N; oh; ow; G * opg] w b ANone = Some (new_os, parts) /\ length parts = G /\
    new_os = [N; oh; ow; opg] /\
    (forall p, In p parts -> tshape (pt_w p) = [opg; kh; kw; ipg]) /\
    teq (run_deconv_parts st pad x new_os parts) (tconv2d ANone st pad [N; oh; ow; G * opg] x w (bias_at b)).
Proof.
  intros Hx Hw Hi Ho HG Hb. unfold group_deconv_rewrite. rewrite Hx, Hw. cbn [nth upd].
  rewrite Nat.div_mul by lia. rewrite (proj2 (Nat.eqb_neq G 0)) by lia.
  rewrite !(Nat.mul_comm G), !Nat.mod_mul by lia. rewrite Nat.eqb_refl. cbn [negb orb].
  assert (match b with Some l => negb (length l mod G =? 0) | None => false end = false) as ->.
  { destruct b as [l|]; auto. rewrite Hb, Nat.mul_comm, Nat.mod_mul by lia. reflexivity. }
  eexists. eexists. split; [reflexivity|]. rewrite map_length, seq_length. do 2 (split; [reflexivity|]).
  assert (forall g, tshape (split_part G 3 g w) = [opg; kh; kw; ipg]) as Hpw.
  { intro g. unfold split_part, axis_size. rewrite Hw. cbn. rewrite (Nat.mul_comm G), Nat.div_mul by lia. reflexivity. }
  assert (forall g, tshape (split_part G 3 g x) = [N; H; W; ipg]) as Hpx.
  { intro g. unfold split_part, axis_size. rewrite Hx. cbn. rewrite (Nat.mul_comm G), Nat.div_mul by lia. reflexivity. }
  split.
  { intros p Hp. apply in_map_iff in Hp. destruct Hp as (g & <- & _). apply Hpw. }
  unfold run_deconv_parts. rewrite map_length, seq_length, map_combine_seq. cbn [fst snd pt_w pt_b pt_act].
  set (F := fun g => tconv2d ANone st pad [N; oh; ow; opg] (split_part G 3 g x) (split_part G 3 g w) (bias_at (option_map (split_list G g) b))).
  assert (forall g, tshape (F g) = [N; oh; ow; opg]) as HF by reflexivity.
  assert (forall g, axis_size 3 (F g) = opg) as HFs by (intro g; unfold axis_size; now rewrite HF).
  split.
  - unfold concatenation. cbn [tshape]. rewrite (sizes_sum_uniform 3 opg F) by auto.
    destruct G as [|G]; [lia|]. cbn [seq map]. rewrite HF. cbn [tshape upd tconv2d tmap]. rewrite Nat.mul_comm. reflexivity.
  - intros idx V.
    assert (valid [N; oh; ow; G * opg] idx) as V'.
    { unfold concatenation in V. cbn [tshape] in V. rewrite (sizes_sum_uniform 3 opg F) in V by auto.
      destruct G as [|G]; [lia|]. cbn [seq map] in V. now rewrite HF in V. }
    clear V. inversion V' as [|n ? ? ? Hn V1]; subst. inversion V1 as [|p ? ? ? Hp V2]; subst.
    inversion V2 as [|q ? ? ? Hq V3]; subst. inversion V3 as [|o ? ? ? Hoo V4]; subst. inversion V4; subst.
    clear V' V1 V2 V3 V4. unfold concatenation. cbn [tget nth]. rewrite (cat_at_uniform 0%R 3 opg F) by auto.
    cbn [upd]. rewrite Nat.add_0_l.
    assert (o mod opg < opg) as Hmod by (apply Nat.mod_upper_bound; lia).
    assert (o / opg < G) as Hdiv by (apply Nat.div_lt_upper_bound; [lia|]; lia).
    assert (o = o / opg * opg + o mod opg) as Eo by (rewrite (Nat.div_mod o opg) at 1; lia).
    unfold F, tconv2d, tmap. cbn [tget act_fn]. rewrite Hpx, Hpw, Hx, Hw. cbn [nth tl removelast last].
    rewrite Nat.div_same, Nat.div_1_r, (Nat.div_small (o mod opg)), Nat.mul_0_l, (Nat.mod_small (o mod opg)) by lia.
    rewrite (Nat.mul_comm opg G), Nat.div_mul by lia.
    replace (G * ipg / G) with ipg by (rewrite (Nat.mul_comm G ipg), Nat.div_mul; lia).
    f_equal.
    + rewrite (bias_split G (o / opg) b opg) by (auto; lia). now rewrite <- Eo.
    + apply lsum_ext. intros k Hk. apply lsum_ext. intros r Hr. destruct (hits _ _ _ _ _ _); [|reflexivity].
      apply lsum_ext. intros i Hin.
      apply indices_valid, valid_length in Hk. apply indices_valid, valid_length in Hr.
      destruct k as [|k1 [|k2 [|]]], r as [|r1 [|r2 [|]]]; try discriminate.
      unfold split_part, axis_size. rewrite Hx, Hw. cbn [tget nth app upd].
      replace (G * ipg / G) with ipg by (rewrite (Nat.mul_comm G ipg), Nat.div_mul; lia). reflexivity.
Qed.

(** a fused activation is lost *)
Lemma group_deconv_act_refuted :
  exists x w new_os parts,
    tshape x = [1; 1; 1; 2] /\ tshape w = [1; 1; 1; 2] /\ is_group_deconv_node [1; 1; 1; 2] (tshape w) = true /\
    group_deconv_rewrite (tshape x) [1; 1; 1; 2] w None ARelu = Some (new_os, parts) /\
    ~ teq (run_deconv_parts [1; 1] [0; 0] x new_os parts) (tconv2d ARelu [1; 1] [0; 0] [1; 1; 1; 2] x w (bias_at None)).
Proof.
  exists (mkT [1; 1; 1; 2] (fun _ => (-1)%R)), (mkT [1; 1; 1; 2] (fun _ => 1%R)). eexists. eexists.
  do 3 (split; [reflexivity|]). split; [reflexivity|].
  intros [_ H]. specialize (H [0; 0; 0; 0]). cbn in H. unfold lsum in H. cbn in H.
  assert (valid [1; 1; 1; 2] [0; 0; 0; 0]) as V by (repeat constructor). specialize (H V).
  rewrite Rmax_left in H; lra.
Qed.
