(** Proofs about moving reshapes across another node: concatenations, reductions, elementwise and
    broadcasting operators, PRELU, PACK, UNPACK. *)
From Coq Require Import List Arith Lia Permutation Bool Sorted ZArith Reals.
From Verif Require Import Tensor ChainModel ChainProofs ReshapeProofs LowerProofs ConvSpec CatSpec LayoutSpec FuseMiscProofs PassModel PassProofs PassAxesProofs AtenNormProofs FuseModel
  PassReshapeModel PassReshapeOpProofs PassReshapeOp2Proofs.
Import ListNotations.
Local Open Scope nat_scope.

(** CONCATENATION *)
Lemma cat_moved {A} (dv : A) ax ts P N : ts <> [] -> cat_compat ax ts -> Forall (fun t => pos (tshape t)) ts ->
  offered KOther (Some ax) (map tshape ts) [tshape (concatenation dv ax ts)] P N ->
  exists ax' ts', rp_axis P = Some ax' /\ Forall2 (fun t t' => rp_operand KOther P N t = Some t') ts ts' /\
    restored P (concatenation dv ax' ts') (concatenation dv ax ts).
Proof.
  intros Hne (sh & Hax & Hc) Hpos Hof. destruct ts as [|t0 ts0]; [congruence|].
  set (ts := t0 :: ts0) in *. set (s := tshape t0).
  assert (upd s ax 0 = upd sh ax 0) as Es0 by (inversion Hc; auto).
  assert (ax < length s) as Hax' by (rewrite (upd_len_eq _ _ _ Es0); exact Hax).
  assert (pos s) as Hps by (inversion Hpos; auto).
  assert (forall t, In t ts -> 0 < axis_size ax t /\ tshape t = upd s ax (axis_size ax t)) as Hts.
  { intros t Ht. rewrite Forall_forall in Hc, Hpos. specialize (Hc _ Ht). specialize (Hpos _ Ht).
    assert (ax < length (tshape t)) as Lt by (rewrite (upd_len_eq _ _ _ Hc); exact Hax).
    split; [unfold axis_size; unfold pos in Hpos; rewrite Forall_forall in Hpos; apply Hpos, nth_In, Lt|].
    rewrite (upd_eq_any s (tshape t) ax); [|congruence]. unfold axis_size. symmetry. apply upd_same, Lt. }
  destruct (offered_marked ax s (map tshape ts) [tshape (concatenation dv ax ts)] P N Hps Hax') as (p1 & p2 & M); auto.
  { intros b Hb. apply in_map_iff in Hb. destruct Hb as (t & <- & Ht). destruct (Hts _ Ht) as [H1 H2]. exists (axis_size ax t). auto. }
  { intros o [<-|[]]. exists (sizes_sum ax ts). reflexivity. }
  set (n1 := firstn ax s) in *. set (n2 := skipn (S ax) s) in *.
  assert (length n1 = ax) as La by (unfold n1; rewrite firstn_length; lia).
  assert (forall t, In t ts -> tshape t = n1 ++ axis_size ax t :: n2) as Hsh.
  { intros t Ht. destruct (Hts _ Ht) as [_ ->]. apply upd_split, Hax'. }
  set (mv := fun t : tensor A => reshape (p1 ++ axis_size ax t :: p2) t).
  assert (forall t, In t ts -> axis_size (length p1) (mv t) = axis_size ax t) as Hsz by (intros t Ht; unfold axis_size at 1; cbn [mv tshape reshape]; apply nth_mid).
  exists (length p1), (map mv ts). split; [apply (axis_marked _ _ _ _ _ _ M)|]. split.
  { clearbody ts. clear Hof Hc Hne Hpos. induction ts as [|t ts IH]; cbn [map]; constructor.
    - apply (operand_marked _ _ _ _ _ _ _ _ M); [apply Hts; left; reflexivity|apply Hsh; left; reflexivity].
    - apply IH; intros; [apply Hts|apply Hsh|apply Hsz]; right; auto. }
  assert (sizes_sum (length p1) (map mv ts) = sizes_sum ax ts) as Esum.
  { unfold sizes_sum. rewrite map_map. f_equal. apply map_ext_in. exact Hsz. }
  apply (restore P N p1 p2 n1 n2 (sizes_sum ax ts)); auto.
  - cbn [tshape concatenation ts]. fold s. apply upd_split, Hax'.
  - cbn [map ts]. cbn [tshape concatenation]. change (mv t0 :: map mv ts0) with (map mv ts). rewrite Esum. unfold mv. cbn [tshape reshape]. apply upd_app.
  - intros i1 i2 j1 j2 k T _. destruct (twin_length _ _ _ _ _ _ _ _ T) as (L1 & L2 & _). cbn [tget concatenation].
    assert (nth (length p1) (i1 ++ k :: i2) 0 = k) as -> by (rewrite <- L1; apply nth_mid).
    assert (nth ax (j1 ++ k :: j2) 0 = k) as -> by (rewrite <- La, <- L2; apply nth_mid).
    generalize k at 2 4. clearbody ts. clear Hof Hc Hne Hpos Esum. induction ts as [|t ts IH]; intros q; cbn [map cat_at]; [reflexivity|].
    rewrite Hsz by (left; reflexivity). destruct (Nat.ltb_spec q (axis_size ax t)) as [Lq|Lq].
    + rewrite (upd_app' i1) by auto. rewrite (upd_app' j1) by congruence. unfold mv.
      apply (read_twin p1 p2 n1 n2 (axis_size ax t)); auto; [apply (marked_prods _ _ _ _ _ _ M)|apply Hsh; left; reflexivity].
    + apply IH; intros; [apply Hts|apply Hsh|apply Hsz]; right; auto.
Qed.

(** reductions of one axis that is kept with size 1 *)
Lemma fibre_rest axes s i : valid s i -> forall k, (forall a, In a axes -> a < k) -> filter (agree_from k axes i) (indices s) = [i].
Proof.
  induction 1 as [|a d i s Ha V IH]; intros k Hk; [reflexivity|]. rewrite filter_agree_cons by exact Ha.
  assert (existsb (Nat.eqb k) axes = false) as ->.
  { destruct (existsb (Nat.eqb k) axes) eqn:E; [|reflexivity]. apply existsb_exists in E. destruct E as (x & Hx & E). apply Nat.eqb_eq in E. apply Hk in Hx. lia. }
  rewrite IH; [reflexivity|]. intros x Hx. apply Hk in Hx. lia.
Qed.
Lemma fibre_axis s1 i1 : valid s1 i1 -> forall k d s2 q i2, valid s2 i2 -> q < d ->
  filter (agree_from k [k + length i1] (i1 ++ q :: i2)) (indices (s1 ++ d :: s2)) = map (fun b => i1 ++ b :: i2) (seq 0 d).
Proof.
  induction 1 as [|a e i1 s1 Ha V IH]; intros k d s2 q i2 V2 Hq; cbn [app length].
  - rewrite filter_agree_cons by exact Hq. cbn [existsb]. rewrite Nat.add_0_r, Nat.eqb_refl. cbn [orb].
    rewrite fibre_rest; [|exact V2|intros x [<-|[]]; lia]. cbn [map]. clear. generalize 0. induction d as [|d IH]; intros n; cbn; [reflexivity|]. rewrite IH. reflexivity.
  - rewrite filter_agree_cons by exact Ha. cbn [existsb]. destruct (Nat.eqb_spec k (k + S (length i1))) as [E|_]; [lia|]. cbn [orb].
    replace (k + S (length i1)) with (S k + length i1) by lia. rewrite IH by auto. rewrite map_map. reflexivity.
Qed.
Lemma fibre_mid {A} (t : tensor A) s1 d s2 i1 i2 : tshape t = s1 ++ d :: s2 -> 0 < d -> valid s1 i1 -> valid s2 i2 ->
  map (tget t) (filter (agree_off [length s1] (i1 ++ 0 :: i2)) (indices (tshape t))) = map (fun b => tget t (i1 ++ b :: i2)) (seq 0 d).
Proof.
  intros E Hd V1 V2. rewrite E. rewrite (filter_ext_in _ (agree_from 0 [length s1] (i1 ++ 0 :: i2))).
  2:{ intros j Hj. apply indices_valid, valid_length in Hj. apply agree_off_from. rewrite Hj, !mid_length, (valid_length _ _ V1), (valid_length _ _ V2). reflexivity. }
  rewrite <- (valid_length _ _ V1). change (length i1) with (0 + length i1). rewrite fibre_axis by auto. apply map_map.
Qed.
Lemma reduce_moved {A B} (red : list A -> B) axes ax (x : tensor A) P N : pos (tshape x) -> dims_reduce axes = Some ax -> ax < length (tshape x) ->
  offered KOther (Some ax) [tshape x] [tshape (reduce red axes x)] P N ->
  exists ax' x', rp_axis P = Some ax' /\ rp_operand KOther P N x = Some x' /\ restored P (reduce red [ax'] x') (reduce red axes x).
Proof.
  intros Hp Hdim Hax Hof. destruct axes as [|a [|? ?]]; cbn in Hdim; try discriminate. inversion Hdim; subst a.
  destruct (one_operand ax x _ P N Hof Hp Hax) as (p1 & p2 & n1 & n2 & d & M & Es & La & Hd & Eax & Eop & Rd).
  { intros o [<-|[]]. exists 1. reflexivity. }
  exists (length p1), (reshape (p1 ++ d :: p2) x). split; [exact Eax|]. split; [exact Eop|].
  apply (restore P N p1 p2 n1 n2 1); auto.
  - cbn [tshape reduce fold_left]. rewrite Es. apply upd_app'. auto.
  - cbn [tshape reduce fold_left reshape]. apply upd_app.
  - intros i1 i2 j1 j2 k T Hk. assert (k = 0) by lia. subst k. cbn [tget reduce]. f_equal. rewrite <- La.
    rewrite (fibre_mid x n1 d n2) by (auto; apply T). rewrite (fibre_mid (reshape (p1 ++ d :: p2) x) p1 d p2) by (auto; apply T).
    apply map_ext_in. intros b Hb. apply in_seq in Hb. apply Rd; auto. lia.
Qed.
