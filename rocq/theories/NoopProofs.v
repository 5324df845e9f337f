(** Proofs about the removal of operators that do nothing. *)
From Coq Require Import List Arith Bool Lia Permutation ZArith.
From Verif Require Import Tensor PassModel.
From Verif Require Import ConvSpec CatSpec LayoutSpec CatProofs PassProofs.
Import ListNotations.
Local Open Scope nat_scope.

(** what the operators compute; [conv a b] is the numeric conversion of CAST *)
Definition nsem {A} (d : A) (conv : nat -> nat -> A -> A) (nd : nnode) (x : tensor A) : tensor A :=
  match nd with
  | NReshape out => reshape out x
  | NTranspose perm => transpose perm x
  | NPad pads => padz d pads x
  | NMirrorPad pads => mirror_pad pads x
  | NTile m => tile m x
  | NSlice b z => slice_op b z x
  | NStridedSlice s e st => strided_slice s e st x
  | NConcat ax _ => concatenation d ax [x]
  | NGather ax ix => gather ax ix x
  | NCast a b => mkT (tshape x) (fun idx => conv a b (tget x idx))
  end.
(** well-formed operators: operands have the rank of the tensor, slices stay inside, strides are
    positive, gather indices are inside, padding amounts are not negative *)
Definition nwf {A} (nd : nnode) (x : tensor A) : Prop :=
  match nd with
  | NReshape out => prod out = prod (tshape x)
  | NTranspose perm => is_perm (length (tshape x)) perm
  | NPad pads => length pads = length (tshape x) /\ Forall (fun ab => 0 <= fst ab /\ 0 <= snd ab)%Z pads
  | NMirrorPad pads => length pads = length (tshape x)
  | NTile m => length m = length (tshape x)
  | NSlice b z => Forall2 le (zip_plus b z) (tshape x) /\ length b = length (tshape x) /\ length z = length (tshape x)
  | NStridedSlice s e st => length s = length (tshape x) /\ length e = length (tshape x) /\ length st = length (tshape x) /\ Forall (fun c => 0 < c) st
  | NConcat ax _ => ax < length (tshape x)
  | NGather ax ix => ax < length (tshape x) /\ Forall (fun i => i < nth ax (tshape x) 0) ix
  | NCast _ _ => True
  end.

Lemma list_eqb_nat_spec a : forall b, list_eqb_nat a b = true <-> a = b.
Proof.
  induction a as [|x a IH]; intros [|y b]; cbn; split; try congruence; auto; intro H.
  - apply andb_true_iff in H. destruct H as [H1 H2]. apply Nat.eqb_eq in H1. apply IH in H2. congruence.
  - injection H as <- <-. rewrite Nat.eqb_refl. apply IH. reflexivity.
Qed.
Lemma diff_ones_seq l : diff_ones l = true -> l = seq (nth 0 l 0) (length l).
Proof.
  induction l as [|a l IH]; intro H; [reflexivity|]. destruct l as [|b l]; [reflexivity|].
  cbn [diff_ones] in H. apply andb_true_iff in H. destruct H as [H1 H2]. apply Nat.eqb_eq in H1. subst b.
  cbn [nth length seq]. f_equal. specialize (IH H2). cbn [nth length] in IH. rewrite Nat.add_1_r in *. exact IH.
Qed.

Lemma noop_perm n perm : is_perm n perm -> diff_ones perm = true -> perm = seq 0 n.
Proof.
  intros Hp H. apply diff_ones_seq in H. pose proof (is_perm_length _ _ Hp) as L. rewrite L in H.
  destruct n as [|n]; [rewrite H; reflexivity|]. assert (nth 0 perm 0 = 0) as E; [|congruence].
  assert (In 0 perm) as Hin by (apply (is_perm_in _ _ _ Hp); lia). rewrite H in Hin. apply in_seq in Hin. lia.
Qed.

Lemma noop_padz sh : forall pads, length pads = length sh -> Forall (fun ab => 0 <= fst ab /\ 0 <= snd ab)%Z pads ->
  padz_shape sh pads = sh -> forall idx, valid sh idx -> unpadz sh pads idx = Some idx.
Proof.
  induction sh as [|d sh IH]; intros [|[a b] pads] L HF HS idx V; cbn [length] in L; try lia.
  - inversion V. reflexivity.
  - cbn [padz_shape] in HS. injection HS as H1 H2. inversion HF as [|? ? [Ha Hb] HF']; subst. cbn [fst snd] in *.
    inversion V as [|i ? idx' ? Hi V']; subst. assert (a = 0%Z) as -> by lia. cbn [unpadz]. rewrite Z.sub_0_r.
    replace ((0 <=? Z.of_nat i) && (Z.of_nat i <? Z.of_nat d))%Z%bool with true.
    2: { symmetry. apply andb_true_iff. split; [apply Z.leb_le|apply Z.ltb_lt]; lia. }
    rewrite IH by (auto; lia). cbn [option_map]. now rewrite Nat2Z.id.
Qed.
Lemma noop_reflect sh : forall pads, length pads = length sh -> pad_shape sh pads = sh ->
  forall idx, valid sh idx -> reflect_idx sh pads idx = idx.
Proof.
  induction sh as [|d sh IH]; intros [|[a b] pads] L HS idx V; cbn [length] in L; try lia.
  - inversion V. reflexivity.
  - cbn [pad_shape] in HS. injection HS as H1 H2. inversion V as [|i ? idx' ? Hi V']; subst.
    assert (a = 0) as -> by lia. cbn [reflect_idx]. rewrite IH by (auto; lia). f_equal. unfold reflect.
    destruct (Nat.ltb_spec i 0); [lia|]. destruct (Nat.ltb_spec (i - 0) d); lia.
Qed.
Lemma noop_mod sh : forall idx, valid sh idx -> modidx sh idx = idx.
Proof. intros idx V. induction V as [|i d idx sh Hi V IH]; [reflexivity|]. cbn [modidx]. rewrite IH, Nat.mod_small; auto. Qed.
Lemma noop_begin sh : forall b z idx, length b = length sh -> z = sh -> Forall2 le (zip_plus b z) sh -> valid sh idx -> zip_plus b idx = idx.
Proof.
  induction sh as [|d sh IH]; intros [|x b] z idx L -> HF V; cbn [length] in L; try lia; inversion V as [|i ? idx' ? Hi V']; subst; [reflexivity|].
  cbn [zip_plus] in *. inversion HF; subst. f_equal; [lia|]. eapply IH; eauto.
Qed.
Lemma noop_strided sh : forall s e st, length s = length sh -> length e = length sh -> length st = length sh -> Forall (fun c => 0 < c) st ->
  slice_shape sh s e st = sh -> forall idx, valid sh idx -> slice_idx idx s st = idx.
Proof.
  induction sh as [|d sh IH]; intros [|a s] [|b e] [|c st] L1 L2 L3 HF HS idx V; cbn [length] in *; try lia.
  - inversion V. reflexivity.
  - cbn [slice_shape] in HS. injection HS as H1 H2. inversion HF as [|? ? Hc HF']; subst. inversion V as [|i ? idx' ? Hi V']; subst.
    cbn [slice_idx]. rewrite (IH s e st) by (auto; lia). f_equal. unfold slice_dim in H1.
    assert (c * (d - 1) < Nat.min b d - a) as Hl by (apply cdiv_spec; auto; lia).
    assert (c = 1 \/ d = 1) as [E|E] by nia; subst; nia.
Qed.

Theorem noop_ok {A} (d : A) conv nd (x : tensor A) : (forall a v, conv a a v = v) ->
  nwf nd x -> is_noop nd (tshape x) (tshape (nsem d conv nd x)) = true -> teq (nsem d conv nd x) x.
Proof.
  intros Hc W H. destruct nd; cbn [is_noop nsem nwf] in *.
  - apply list_eqb_nat_spec in H. cbn in H. subst out. apply reshape_id.
  - rewrite (noop_perm _ _ W H). apply transpose_id.
  - apply list_eqb_nat_spec in H. cbn [padz tshape] in H. destruct W as [L HF]. split; [symmetry; exact H|].
    cbn [padz tget tshape]. intros idx V. rewrite <- H in V. rewrite noop_padz by auto. reflexivity.
  - apply list_eqb_nat_spec in H. cbn [mirror_pad tshape] in H. split; [symmetry; exact H|].
    cbn [mirror_pad tget tshape]. intros idx V. rewrite <- H in V. rewrite noop_reflect by auto. reflexivity.
  - apply list_eqb_nat_spec in H. split; [symmetry; exact H|]. intros idx V. rewrite <- H in V. unfold tile. cbn [tget]. now rewrite noop_mod.
  - apply list_eqb_nat_spec in H. cbn [slice_op tshape] in H. destruct W as (HF & L1 & L2). split; [symmetry; exact H|].
    intros idx V. cbn [slice_op tget tshape] in *. rewrite <- H in V, HF. rewrite (noop_begin (tshape x) begin (tshape x)); auto.
  - apply list_eqb_nat_spec in H. cbn [strided_slice tshape] in H. destruct W as (L1 & L2 & L3 & HF). split; [symmetry; exact H|].
    intros idx V. cbn [strided_slice tget tshape] in *. rewrite <- H in V. rewrite (noop_strided (tshape x) s e st); auto.
  - apply andb_true_iff in H. destruct H as [_ H]. apply list_eqb_nat_spec in H. split; [symmetry; exact H|].
    intros idx V. rewrite <- H in V. unfold concatenation. cbn [tget]. apply cat_at_cons_single; auto.
  - apply andb_true_iff in H. destruct H as [H H2]. apply list_eqb_nat_spec in H. destruct W as [Hax HF]. cbn [gather tshape] in H.
    split; [symmetry; exact H|]. intros idx V. cbn [gather tget tshape] in *. rewrite <- H in V.
    assert (length ix = nth ax (tshape x) 0) as L.
    { transitivity (nth ax (upd (tshape x) ax (length ix)) 0); [symmetry; apply upd_nth_eq; auto|now rewrite <- H]. }
    apply diff_ones_seq in H2. pose proof (valid_nth _ _ ax V Hax) as Hi.
    assert (nth 0 ix 0 = 0) as E0.
    { destruct ix as [|a ix]; [reflexivity|]. cbn [nth] in *. cbn [length] in L, H2.
      assert (In (a + length ix) (a :: ix)) as Hin by (rewrite H2; apply in_seq; lia).
      rewrite Forall_forall in HF. specialize (HF _ Hin). lia. }
    rewrite E0 in H2. rewrite H2. rewrite seq_nth by lia. cbn [plus]. rewrite upd_same; auto. rewrite (valid_length _ _ V). auto.
  - apply Nat.eqb_eq in H. subst. split; [reflexivity|]. intros idx V. cbn [tget]. apply Hc.
Qed.
