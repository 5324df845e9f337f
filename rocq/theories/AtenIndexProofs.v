(** Proofs about the lowering of indexing operators. *)
From Coq Require Import List Arith Bool Reals Lia Lra ZArith.
From Verif Require FuseProofs.
From Verif Require Import LowerProofs ReshapeProofs QModProofs PassProofs PassAxesProofs FuseMiscProofs Tensor ConvSpec CatSpec LayoutSpec FuseModel MoveSpec IndexSpec
  AtenConvProofs AtenMoveModel AtenMoveProofs AtenNormProofs AtenIndexModel.
Import ListNotations.

(** * broadcasting of several shapes *)
Inductive le_rev : list nat -> list nat -> Prop :=
| le_nil b : le_rev [] b
| le_cons x y a b : (x = 1 \/ x = y) -> le_rev a b -> le_rev (x :: a) (y :: b).
Lemma le_rev_refl a : le_rev a a.
Proof. induction a; constructor; auto. Qed.
Lemma le_rev_trans a : forall b c, le_rev a b -> le_rev b c -> le_rev a c.
Proof.
  induction a as [|x a IH]; intros b c H1 H2; [constructor|]. inversion H1; subst. inversion H2; subst. constructor; [lia|eauto].
Qed.
Lemma bdim_le x y d : bdim x y = Some d -> (x = 1 \/ x = d) /\ (y = 1 \/ y = d).
Proof.
  unfold bdim. intro H. destruct (Nat.eqb_spec x y); [injection H as <-; auto|].
  destruct (Nat.eqb_spec x 1); [injection H as <-; auto|]. destruct (Nat.eqb_spec y 1); [injection H as <-; auto|discriminate].
Qed.
Lemma bshape_rev_le a : forall b c, bshape_rev a b = Some c -> le_rev a c /\ le_rev b c.
Proof.
  induction a as [|x a IH]; intros [|y b] c H; cbn [bshape_rev] in H; try (injection H as <-; split; [constructor|apply le_rev_refl]).
  - injection H as <-. split; [apply le_rev_refl|constructor].
  - destruct (bdim x y) as [d|] eqn:D; [|discriminate]. destruct (bshape_rev a b) as [r|] eqn:E; [|discriminate]. injection H as <-.
    apply bdim_le in D. destruct (IH _ _ E). split; constructor; tauto.
Qed.
Definition le_shape (a b : list nat) := le_rev (rev a) (rev b).
Lemma bshape_le a b c : bshape a b = Some c -> le_shape a c /\ le_shape b c.
Proof.
  unfold bshape, le_shape. destruct (bshape_rev (rev a) (rev b)) as [r|] eqn:E; [|discriminate]. intros [= <-].
  rewrite rev_involutive. eapply bshape_rev_le; eauto.
Qed.
Lemma bshapes_le ss : forall b s, bshapes ss = Some b -> In s ss -> le_shape s b.
Proof.
  induction ss as [|s0 ss IH]; intros b s H Hs; [contradiction|]. cbn [bshapes] in H.
  destruct (bshapes ss) as [q|] eqn:E; [|discriminate]. apply bshape_le in H. destruct Hs as [<-|Hs]; [tauto|].
  eapply le_rev_trans; [apply (IH q); auto|tauto].
Qed.
Lemma le_rev_valid a : forall b idx, le_rev a b -> valid b idx -> valid a (bidx_rev a idx).
Proof.
  induction a as [|x a IH]; intros b idx H V; [constructor|]. inversion H; subst. inversion V; subst. cbn [bidx_rev]. constructor.
  - destruct (Nat.eqb_spec x 1); lia.
  - eapply IH; eauto.
Qed.
Lemma le_shape_valid a b idx : le_shape a b -> valid b idx -> valid a (bidx a idx).
Proof.
  intros H V. unfold bidx. rewrite <- (rev_involutive a) at 1. apply valid_rev. eapply le_rev_valid; [exact H|]. apply valid_rev. auto.
Qed.
Lemma prod_rev s : prod (rev s) = prod s.
Proof. induction s; auto. cbn [rev]. rewrite prod_app, IHs. cbn [prod fold_right]. unfold prod. simpl. lia. Qed.
Lemma le_rev_prod a b : le_rev a b -> 0 < prod b -> prod a <= prod b.
Proof.
  intro H. induction H; intro P; [cbn; lia|]. change (prod (y :: b)) with (y * prod b) in *. change (prod (x :: a)) with (x * prod a).
  assert (0 < prod b) by nia. assert (0 < y) by nia. specialize (IHle_rev ltac:(auto)). destruct H as [-> | ->]; nia.
Qed.
Lemma le_shape_prod a b : le_shape a b -> 0 < prod b -> prod a <= prod b.
Proof. intros H P. rewrite <- (prod_rev a), <- (prod_rev b). apply le_rev_prod; [exact H|]. now rewrite prod_rev. Qed.
(** shapes that are a tail of a common shape, up to leading ones (reversed) *)
Inductive pfx : list nat -> list nat -> Prop :=
| pfx_ones k B : pfx (repeat 1 k) B
| pfx_cons x s B : pfx s B -> pfx (x :: s) (x :: B).
Lemma ones_bshape k : forall c B r, pfx c B -> bshape_rev (repeat 1 k) c = Some r -> pfx r B /\ prod r = prod c.
Proof.
  induction k as [|k IH]; intros c B r P H; cbn [repeat bshape_rev] in H; [injection H as <-; auto|].
  destruct c as [|y c]; [injection H as <-; split; [apply (pfx_ones (S k))|apply (prod_repeat1 (S k))]|].
  rewrite bdim_1l in H. destruct (bshape_rev (repeat 1 k) c) as [q|] eqn:E; [|discriminate]. injection H as <-.
  inversion P as [m ? Em|x s B' P']; subst.
  - destruct m as [|m]; [discriminate|]. cbn [repeat] in Em. injection Em as <- <-.
    destruct (IH _ B q (pfx_ones m B) E) as [Q1 Q2]. split; [|change (1 * prod q = 1 * prod (repeat 1 m)); lia]. clear - E. assert (exists j, q = repeat 1 j) as (j & ->); [|apply (pfx_ones (S j))].
    revert m q E. induction k as [|k IH]; intros [|m] q E; cbn [repeat bshape_rev] in E; try (injection E as <-; first [exists 0; reflexivity|exists (S m); reflexivity|exists (S k); reflexivity]).
    rewrite bdim_1l in E. destruct (bshape_rev (repeat 1 k) (repeat 1 m)) as [r|] eqn:E2; [|discriminate]. injection E as <-.
    destruct (IH _ _ E2) as (j & ->). exists (S j). reflexivity.
  - destruct (IH _ _ _ P' E) as [Q1 Q2]. split; [now constructor|]. change (y * prod q = y * prod c). now rewrite Q2.
Qed.
Lemma pfx_bshape a B : pfx a B -> forall c r, pfx c B -> bshape_rev a c = Some r -> pfx r B /\ (prod r = prod a \/ prod r = prod c).
Proof.
  intro P. induction P as [k B|x s B P IH]; intros c r Q H.
  - destruct (ones_bshape k c B r Q H). auto.
  - inversion Q as [k ? Ek|y c' B' Q']; subst.
    + rewrite bshape_rev_comm in H. destruct (ones_bshape k (x :: s) (x :: B) r ltac:(now constructor) H). auto.
    + cbn [bshape_rev] in H. rewrite FuseProofs.bdim_same in H. destruct (bshape_rev s c') as [q|] eqn:E; [|discriminate]. injection H as <-.
      destruct (IH _ _ Q' E) as [Q1 Q2]. split; [now constructor|]. change (x * prod q = x * prod s \/ x * prod q = x * prod c').
      destruct Q2 as [-> | ->]; auto.
Qed.
Definition sfx (b s : list nat) : Prop := exists k t lead, s = repeat 1 k ++ t /\ b = lead ++ t.
Lemma rev_ones k : rev (repeat 1 k) = repeat 1 k.
Proof. induction k; auto. cbn [repeat rev]. rewrite IHk. symmetry. apply (repeat_cons k 1). Qed.
Lemma sfx_pfx b s : sfx b s -> pfx (rev s) (rev b).
Proof.
  intros (k & t & lead & -> & ->). rewrite !rev_app_distr, rev_ones. induction (rev t); [apply pfx_ones|]. cbn [app]. now constructor.
Qed.
Lemma bshapes_max ss : forall b q, bshapes ss = Some q -> ss <> [] -> Forall (sfx b) ss -> pfx (rev q) (rev b) /\ exists s, In s ss /\ prod q = prod s.
Proof.
  induction ss as [|s ss IH]; intros b q H N F; [congruence|]. cbn [bshapes] in H. inversion F as [|? ? F1 F2]; subst.
  destruct (bshapes ss) as [p|] eqn:E; [|discriminate]. unfold bshape in H.
  destruct (bshape_rev (rev s) (rev p)) as [r|] eqn:E2; [|discriminate]. injection H as <-. rewrite rev_involutive, prod_rev.
  destruct ss as [|s' ss'].
  - cbn in E. injection E as <-. cbn [rev] in E2. rewrite bshape_rev_comm in E2. cbn in E2. injection E2 as <-.
    split; [now apply sfx_pfx|]. exists s. split; [left; auto|apply prod_rev].
  - destruct (IH b p eq_refl ltac:(congruence) F2) as (Pp & s2 & Hs & Es).
    destruct (pfx_bshape _ _ (sfx_pfx _ _ F1) _ _ Pp E2) as [Q [Q1|Q1]].
    + split; auto. exists s. split; [left; auto|]. now rewrite Q1, prod_rev.
    + split; auto. exists s2. split; [right; auto|]. now rewrite Q1, prod_rev.
Qed.

(** * index coordinates *)
Definition fits (b : list nat) (ix : tensor Z) : Prop := sfx b (tshape ix).

Lemma list_max_ge l : forall x, In x l -> x <= list_max l.
Proof. intros x H. pose proof (proj1 (list_max_le l (list_max l)) (le_n _)) as F. rewrite Forall_forall in F. auto. Qed.
Lemma max_len_ok ixs b : ixs <> [] -> bshapes (map tshape ixs) = Some b -> 0 < prod b -> Forall (fits b) ixs -> max_len ixs = prod b.
Proof.
  intros N B P F. unfold max_len. apply Nat.le_antisymm.
  - apply list_max_le. apply Forall_forall. intros k Hk. apply in_map_iff in Hk. destruct Hk as (ix & <- & Hx).
    apply le_shape_prod; auto. eapply bshapes_le; eauto. now apply in_map.
  - assert (Forall (sfx b) (map tshape ixs)) as F'.
    { apply Forall_forall. intros s Hs. apply in_map_iff in Hs. destruct Hs as (ix & <- & Hx). rewrite Forall_forall in F. apply F; auto. }
    destruct (bshapes_max _ b b B) as (_ & s & Hs & ->); auto; [destruct ixs; cbn; congruence|].
    apply list_max_ge. rewrite <- map_map. now apply in_map.
Qed.

Lemma app_inj_len {A} (a : list A) : forall b c d, a ++ c = b ++ d -> length a = length b -> a = b /\ c = d.
Proof. induction a as [|x a IH]; intros [|y b] c d E L; cbn in *; try lia; auto. injection E as -> E. destruct (IH b c d E ltac:(lia)). subst; auto. Qed.
Lemma take_ok ix b p : fits b ix -> le_shape (tshape ix) b -> valid b p ->
  take_flat ix (ravel b p mod prod (tshape ix)) = tget ix (bidx (tshape ix) p).
Proof.
  intros (k & t & lead & Es & ->) L V. unfold take_flat. f_equal. rewrite Es in *.
  assert (valid (repeat 1 k ++ t) (bidx (repeat 1 k ++ t) p)) as W by (eapply le_shape_valid; eauto).
  rewrite <- (unravel_ravel _ _ W) at 1. f_equal. rewrite prod_app, prod_repeat1, Nat.mul_1_l.
  apply valid_app_inv in V. destruct V as (p1 & r & -> & V1 & Vr). rewrite LowerProofs.ravel_app by auto.
  pose proof (ravel_lt t r Vr). rewrite Nat.add_comm, Nat.mod_add, Nat.mod_small by lia.
  assert (exists z, bidx (repeat 1 k ++ t) (p1 ++ r) = z ++ r /\ length z = k) as (z & Ez & Lz).
  { assert (length (bidx (repeat 1 k ++ t) (p1 ++ r)) = k + length t) as LB by (rewrite (valid_length _ _ W), app_length, repeat_length; auto).
    unfold bidx in *. rewrite !rev_app_distr, rev_ones in *. pose proof (valid_length _ _ Vr) as Lr.
    assert (forall tr rr u w, length tr = length rr -> bidx_rev (tr ++ u) (rr ++ w) = bidx_rev tr rr ++ bidx_rev u w) as K.
    { induction tr as [|d tr IH]; intros [|i rr] u w Q; cbn in Q; try lia; [reflexivity|]. cbn [app bidx_rev]. now rewrite IH by lia. }
    rewrite K in * by (rewrite !rev_length; lia). rewrite rev_app_distr in *. change (rev (bidx_rev (rev t) (rev r))) with (bidx t r) in *.
    rewrite (bidx_self t r Vr) in *. eexists; split; [reflexivity|]. rewrite app_length in LB. lia. }
  rewrite Ez in *. apply valid_app_inv in W. destruct W as (z' & r' & Eq & Vz & Vr'). 
  assert (z' = z /\ r' = r) as [-> ->].
  { apply app_inj_len in Eq; [destruct Eq; auto|]. rewrite (valid_length _ _ Vz), repeat_length. auto. }
  rewrite LowerProofs.ravel_app by auto. pose proof (ravel_lt _ _ Vz) as Hz. rewrite prod_repeat1 in Hz. lia.
Qed.
Lemma coords_ok sh ixs b idx : bshapes (map tshape ixs) = Some b -> Forall (fits b) ixs ->
  valid (b ++ skipn (length ixs) sh) idx ->
  index_coords sh ixs (ravel (b ++ skipn (length ixs) sh) idx) =
  map (fun ix => tget ix (bidx (tshape ix) (firstn (length b) idx))) ixs ++ map Z.of_nat (skipn (length b) idx) /\
  valid b (firstn (length b) idx) /\ valid (skipn (length ixs) sh) (skipn (length b) idx).
Proof.
  intros B F V. apply valid_app_inv in V. destruct V as (p & r & -> & Vp & Vr). rewrite <- (valid_length _ _ Vp).
  rewrite firstn_app, firstn_all, Nat.sub_diag, skipn_app, skipn_all, Nat.sub_diag. cbn [firstn skipn app]. rewrite app_nil_r.
  split; [|auto]. unfold index_coords. rewrite LowerProofs.ravel_app by auto. set (pad := skipn (length ixs) sh) in *.
  pose proof (ravel_lt pad r Vr) as HR. f_equal.
  - apply map_ext_in. intros ix Hx. rewrite Nat.div_add_l by lia. rewrite (Nat.div_small (ravel pad r)), Nat.add_0_r by auto.
    rewrite Forall_forall in F. apply take_ok; auto. eapply bshapes_le; eauto. now apply in_map.
  - rewrite Nat.add_comm, Nat.mod_add, Nat.mod_small, unravel_ravel by (auto; lia). reflexivity.
Qed.
Lemma inside_nat sh r : valid sh r -> inside sh (map Z.of_nat r) = true.
Proof.
  intro V. induction V; [reflexivity|]. cbn [map inside]. rewrite IHV, andb_true_r. apply andb_true_intro.
  split; [apply Z.leb_le|apply Z.ltb_lt]; lia.
Qed.
Lemma inside_ok ixs : forall sh (g : tensor Z -> list nat) r, picks_ok nonneg sh ixs -> (forall ix, In ix ixs -> valid (tshape ix) (g ix)) ->
  valid (skipn (length ixs) sh) r ->
  inside sh (map (fun ix => tget ix (g ix)) ixs ++ map Z.of_nat r) = true.
Proof.
  induction ixs as [|ix ixs IH]; intros sh g r P G V; [apply inside_nat; auto|].
  destruct sh as [|d sh]; [destruct P|]. destruct P as [P1 P2]. cbn [map app inside]. rewrite IH; auto.
  - specialize (P1 _ (G ix (or_introl eq_refl))). unfold nonneg in P1. rewrite andb_true_r. apply andb_true_intro.
    split; [apply Z.leb_le|apply Z.ltb_lt]; lia.
  - intros. apply G. right; auto.
Qed.
Lemma picks_val ixs : forall sh p, picks_ok nonneg sh ixs -> (forall ix, In ix ixs -> valid (tshape ix) (bidx (tshape ix) p)) ->
  map Z.to_nat (map (fun ix => tget ix (bidx (tshape ix) p)) ixs) = picks sh ixs p.
Proof.
  induction ixs as [|ix ixs IH]; intros sh p P G; [destruct sh; reflexivity|]. destruct sh as [|d sh]; [destruct P|]. destruct P as [P1 P2].
  cbn [map picks]. rewrite (IH sh p); auto; [|intros; apply G; right; auto]. f_equal. unfold wrap.
  specialize (P1 _ (G ix (or_introl eq_refl))). unfold nonneg in P1. destruct (Z.ltb_spec (tget ix (bidx (tshape ix) p)) 0); [lia|reflexivity].
Qed.
Lemma to_of_nat r : map Z.to_nat (map Z.of_nat r) = r.
Proof. rewrite map_map. rewrite <- map_id. apply map_ext. apply Nat2Z.id. Qed.
(** at every position, the emitted coordinates lie inside and are the target *)
Lemma coords_target sh ixs b idx : bshapes (map tshape ixs) = Some b -> Forall (fits b) ixs -> picks_ok nonneg sh ixs ->
  valid (b ++ skipn (length ixs) sh) idx ->
  let c := index_coords sh ixs (ravel (b ++ skipn (length ixs) sh) idx) in
  inside sh c = true /\ map Z.to_nat c = target sh ixs b idx.
Proof.
  intros B F P V c. subst c. destruct (coords_ok sh ixs b idx B F V) as (-> & Vp & Vr).
  assert (forall ix, In ix ixs -> valid (tshape ix) (bidx (tshape ix) (firstn (length b) idx))) as G.
  { intros ix Hx. eapply le_shape_valid; eauto. eapply bshapes_le; eauto. now apply in_map. }
  split; [apply (inside_ok ixs sh (fun ix => bidx (tshape ix) (firstn (length b) idx))); auto|].
  rewrite map_app, to_of_nat. unfold target. rewrite (picks_val ixs sh); auto.
Qed.

Lemma dyn_ok_true dyn ixs : Forall2 (fun (d : bool) (ix : tensor Z) => d = true -> length (tshape ix) = 1) dyn ixs -> dyn_ok dyn ixs = true.
Proof.
  unfold dyn_ok. induction 1 as [|d ix dyn ixs H F IH]; [reflexivity|]. cbn [combine forallb fst snd]. rewrite IH, andb_true_r.
  destruct d; [|reflexivity]. rewrite H by auto. reflexivity.
Qed.

Lemma index_multi_ok {A} dyn ixs b (x : tensor A) : ixs <> [] -> bshapes (map tshape ixs) = Some b -> 0 < prod b -> Forall (fits b) ixs ->
  Forall2 (fun (d : bool) (ix : tensor Z) => d = true -> length (tshape ix) = 1) dyn ixs -> picks_ok nonneg (tshape x) ixs ->
  exists y, aten_index_multi dyn ixs (tshape (torch_index ixs b x)) x = Some y /\ teq y (torch_index ixs b x).
Proof.
  intros N B P F D R. unfold aten_index_multi. rewrite dyn_ok_true by auto. cbn [negb torch_index tshape].
  rewrite (max_len_ok ixs b), prod_app, Nat.eqb_refl by auto. unfold gather_nd_chk.
  assert (forallb (fun idx => inside (tshape x) (index_coords (tshape x) ixs (ravel (b ++ skipn (length ixs) (tshape x)) idx)))
    (indices (b ++ skipn (length ixs) (tshape x))) = true) as ->.
  { apply forallb_forall. intros idx Hi. apply indices_valid in Hi. apply coords_target; auto. }
  eexists; split; [reflexivity|]. split; [reflexivity|]. intros idx V. cbn [gather_full torch_index tget tshape] in *. f_equal.
  apply coords_target; auto.
Qed.

(** * one index tensor *)
Lemma firstn_skipn_valid (a b c : list nat) idx : valid (a ++ b ++ c) idx -> valid b (firstn (length b) (skipn (length a) idx)).
Proof.
  intro V. apply valid_app_inv in V. destruct V as (p & r & -> & Vp & V). apply valid_app_inv in V. destruct V as (q & t & -> & Vq & Vt).
  rewrite <- (valid_length _ _ Vp), <- (valid_length _ _ Vq). rewrite skipn_app, skipn_all, Nat.sub_diag. cbn [app skipn].
  now rewrite firstn_app, firstn_all, Nat.sub_diag, app_nil_r.
Qed.
Lemma index_single_ok {A} (const : bool) ax ix (x : tensor A) : ax < length (tshape x) ->
  (forall j, valid (tshape ix) j -> (if const then in_range else nonneg) (nth ax (tshape x) 0) (tget ix j)) ->
  exists y, aten_index_single const ax ix x = Some y /\ teq y (torch_index_at ax ix x).
Proof.
  intros H R. set (d := nth ax (tshape x) 0) in *.
  assert (forall j, valid (tshape ix) j -> let z := if const then fix_index d (tget ix j) else tget ix j in
          (0 <= z < Z.of_nat d)%Z /\ Z.to_nat z = wrap d (tget ix j)) as K.
  { intros j V z. specialize (R j V). subst z. destruct const; unfold in_range, nonneg, fix_index, wrap in *;
      destruct (Z.ltb_spec (tget ix j) 0); split; try (f_equal; lia); lia. }
  unfold aten_index_single, gather_chk. fold d.
  set (ix' := if const then mkT (tshape ix) (fun j => fix_index d (tget ix j)) else ix).
  assert (tshape ix' = tshape ix) as Es by (unfold ix'; destruct const; reflexivity).
  assert (forall j, tget ix' j = if const then fix_index d (tget ix j) else tget ix j) as Eg by (intro; unfold ix'; destruct const; reflexivity).
  assert (forallb (fun j => ((0 <=? tget ix' j)%Z && (tget ix' j <? Z.of_nat d)%Z)%bool) (indices (tshape ix')) = true) as ->.
  { apply forallb_forall. intros j Hj. apply indices_valid in Hj. rewrite Es in Hj. destruct (K j Hj) as [K1 _]. rewrite Eg.
    apply andb_true_intro. split; [apply Z.leb_le|apply Z.ltb_lt]; lia. }
  eexists; split; [reflexivity|]. unfold gather_nd, torch_index_at. cbn [tshape tget]. rewrite Es. split; [reflexivity|].
  intros idx V. cbn [tshape tget] in *. fold d. do 3 f_equal. rewrite Eg.
  apply K. apply firstn_skipn_valid in V. rewrite firstn_length_le in V by lia. exact V.
Qed.

(** * gather and scatter *)
Lemma upd_upd l : forall i v w, upd (upd l i v) i w = upd l i w.
Proof. induction l; intros [|i] v w; cbn; auto. now rewrite IHl. Qed.
Lemma axis_eq dim n : (- Z.of_nat n <= dim < Z.of_nat n)%Z -> gather_axis dim n = Z.to_nat (dim mod Z.of_nat n).
Proof.
  intro H. unfold gather_axis. destruct (Z.ltb_spec dim 0).
  - replace (dim mod Z.of_nat n)%Z with (dim + Z.of_nat n)%Z; auto. apply Z.mod_unique with (-1)%Z; lia.
  - now rewrite Z.mod_small by lia.
Qed.
Lemma gather_valid ax index sh idx : gather_ok ax index sh -> valid (tshape index) idx -> valid sh (upd idx ax (tget index idx)).
Proof.
  intros (L & Ha & B & R) V. pose proof (valid_length _ _ V) as LV. apply valid_intro; [rewrite upd_length; lia|].
  intros k Hk. rewrite upd_nth. destruct (Nat.eqb_spec k ax) as [->|Nk]; cbn [andb].
  - destruct (Nat.ltb_spec ax (length idx)); [auto|lia].
  - pose proof (valid_nth _ _ k V ltac:(lia)). specialize (B k ltac:(lia) Nk). lia.
Qed.
Lemma traced_ok ax traced sh idx : gather_ok ax traced sh -> valid (tshape traced) idx ->
  traced_coords ax traced sh idx = upd idx ax (tget traced idx).
Proof.
  intros G V. unfold traced_coords. cbn [torch_gather tget fake reshape arange tshape].
  pose proof (gather_valid _ _ _ _ G V) as W. pose proof (ravel_lt _ _ W) as HL.
  assert (forall q, q < prod sh -> nth 0 (unravel [prod sh] q) 0 = q) as E.
  { intros q Hq. change (q / 1 = q). apply Nat.div_1_r. }
  rewrite E by auto. now apply unravel_ravel.
Qed.
Lemma gather_coords_ok const ax traced index sh idx : gather_ok ax traced sh -> tshape index = tshape traced ->
  (const = true -> forall j, valid (tshape traced) j -> tget index j = tget traced j) -> valid (tshape traced) idx ->
  gather_coords const ax traced index sh idx = upd idx ax (tget index idx).
Proof.
  intros G E C V. unfold gather_coords. rewrite traced_ok by auto. destruct const; [rewrite C; auto|apply upd_upd].
Qed.
Lemma gather_full_ok {A} const dim traced index (x : tensor A) :
  let n := length (tshape x) in let ax := Z.to_nat (dim mod Z.of_nat n) in
  (- Z.of_nat n <= dim < Z.of_nat n)%Z -> gather_ok ax traced (tshape x) -> tshape index = tshape traced ->
  (const = true -> forall j, valid (tshape traced) j -> tget index j = tget traced j) ->
  teq (aten_gather const dim traced index x) (torch_gather ax index x).
Proof.
  intros n ax H G E C. unfold aten_gather. fold n. rewrite axis_eq by auto. fold ax. split; [reflexivity|].
  intros idx V. cbn [gather_full torch_gather tget tshape] in *. f_equal. apply gather_coords_ok; auto. now rewrite <- E.
Qed.

Lemma lsum_unique {A} (l : list A) a f : NoDup l -> In a l -> (forall b, In b l -> b <> a -> f b = 0%R) -> lsum l f = f a.
Proof.
  induction l as [|c l IH]; intros N I Z; [contradiction|]. rewrite lsum_cons. inversion N; subst. destruct I as [->|I].
  - rewrite lsum_zero; [apply Rplus_0_r|]. intros b Hb. apply Z; [right; auto|]. intros ->. auto.
  - rewrite IH; auto; [|intros; apply Z; auto; right; auto]. rewrite Z; [apply Rplus_0_l|left; auto|]. intros ->. auto.
Qed.
Lemma scatter_put (sh : list nat) (ix tgt : list nat -> list nat) (u : tensor R) :
  (forall j, valid (tshape u) j -> ix j = tgt j) ->
  (forall i j, valid (tshape u) i -> valid (tshape u) j -> tgt i = tgt j -> i = j) ->
  is_put (mkT sh (fun _ => 0%R)) u tgt (scatter_full sh ix u).
Proof.
  intros E I. split; [reflexivity|]. intros idx V. cbn [tshape scatter_full tget] in *. split.
  - intro No. apply lsum_zero. intros j Hj. apply indices_valid in Hj. unfold list_eqb. rewrite E by auto.
    destruct (list_eq_dec Nat.eq_dec (tgt j) idx) as [Q|]; auto. exfalso. eapply No; eauto.
  - intros (j & Vj & Ej). exists j. split; auto. split; auto. rewrite (lsum_unique _ j).
    + unfold list_eqb. rewrite E, Ej by auto. destruct (list_eq_dec Nat.eq_dec idx idx); congruence.
    + apply indices_NoDup.
    + now apply indices_valid.
    + intros i Hi Nij. apply indices_valid in Hi. unfold list_eqb. rewrite E by auto.
      destruct (list_eq_dec Nat.eq_dec (tgt i) idx) as [Q|]; auto. exfalso. apply Nij. apply I; auto. congruence.
Qed.
Lemma is_put_ext {A} (x v w : tensor A) f g y : teq v w -> (forall j, valid (tshape v) j -> f j = g j) -> is_put x v f y -> is_put x w g y.
Proof.
  intros [E1 E2] F [P1 P2]. split; auto. intros idx V. destruct (P2 idx V) as [Q1 Q2]. split.
  - intro No. apply Q1. intros j Vj. rewrite F by auto. apply No. now rewrite <- E1.
  - intros (j & Vj & Ej). rewrite <- E1 in Vj. destruct Q2 as (k & Vk & Ek & R). { exists j. rewrite F; auto. }
    exists k. rewrite <- E1. rewrite <- F by auto. rewrite <- E2 by auto. auto.
Qed.

Lemma zip_zero idx : zip_plus (map (fun _ => 0) idx) idx = idx.
Proof. induction idx; cbn; congruence. Qed.
Lemma zip_zero' (s : list nat) : forall idx, length idx = length s -> zip_plus (map (fun _ => 0) s) idx = idx.
Proof. induction s; intros [|i idx] L; cbn in *; try lia; auto. rewrite IHs by lia. reflexivity. Qed.
Lemma scatter_ok const dim traced index value sh :
  let n := length sh in let ax := Z.to_nat (dim mod Z.of_nat n) in
  (- Z.of_nat n <= dim < Z.of_nat n)%Z -> gather_ok ax traced sh -> tshape index = tshape traced ->
  (const = true -> forall j, valid (tshape traced) j -> tget index j = tget traced j) ->
  (forall i j, valid (tshape index) i -> valid (tshape index) j -> upd i ax (tget index i) = upd j ax (tget index j) -> i = j) ->
  is_put (mkT sh (fun _ => 0%R)) (scatter_src value (tshape index)) (fun j => upd j ax (tget index j))
         (aten_scatter const dim traced index value sh).
Proof.
  intros n ax H G E C I. unfold aten_scatter. fold n. rewrite axis_eq by auto. fold ax.
  assert (tshape (scatter_fill value (tshape index)) = tshape index) as Es by (destruct value; reflexivity).
  apply (is_put_ext _ (scatter_fill value (tshape index)) _ (fun j => upd j ax (tget index j))).
  - split; [exact Es|]. intros idx V. rewrite Es in V. destruct value as [v|t]; cbn; auto. rewrite zip_zero'; auto. now apply valid_length.
  - auto.
  - apply scatter_put; rewrite Es; auto. intros j V. apply gather_coords_ok; auto. now rewrite <- E.
Qed.

(** * index_put *)
Lemma unravel_last s d q : q < prod (s ++ [d]) -> exists p, unravel (s ++ [d]) q = p ++ [q mod d].
Proof.
  intro H. pose proof (unravel_valid _ _ H) as V. apply valid_app_inv in V. destruct V as (p & r & E & Vp & Vr).
  destruct (valid1 _ _ Vr) as (l & -> & Hl).
  exists p. rewrite E. do 2 f_equal. pose proof (ravel_unravel _ _ H) as Q. rewrite E, LowerProofs.ravel_app in Q by auto.
  cbn in Q. rewrite Nat.mul_1_r, Nat.add_0_r, Nat.mul_1_r in Q. rewrite <- Q.
  rewrite Nat.add_comm, Nat.mod_add, Nat.mod_small by lia. reflexivity.
Qed.
Lemma put_value_ok (bp : list nat) (val : tensor R) : length (tshape val) <= 1 -> expand_ok (tshape val) bp ->
  exists v, put_value false (prod bp) val = Some v /\ tshape v = [prod bp] /\
    forall q, q < prod bp -> tget v [q] = tget (expand bp val) (unravel bp q).
Proof.
  intros L X. unfold put_value. set (n := prod bp) in *. cbn [expand tget].
  destruct (tshape val) as [|m [|? ?]] eqn:Ev; [| |cbn in L; lia].
  - assert (list_eqb [] [n] = false) as -> by (unfold list_eqb; destruct (list_eq_dec Nat.eq_dec [] [n]); congruence).
    cbn [length Nat.ltb Nat.leb reshape tshape].
    destruct (Nat.eqb_spec 1 n) as [En|En].
    + exists (tile [1] (reshape [1] val)). split; auto. split; [cbn; f_equal; lia|].
      intros q Hq. cbn [tget tile reshape tshape modidx]. rewrite Ev. f_equal.
    + cbn [Nat.eqb]. exists (tile [n / 1] (reshape [1] val)). split; auto. cbn [tile tshape zipmul reshape].
      rewrite Nat.div_1_r, Nat.mul_1_l. split; auto. intros q Hq. cbn [tget tile reshape tshape modidx]. rewrite Ev. f_equal.
  - destruct (exists_last (l := bp)) as (s & d & Eb).
    { intros ->. unfold expand_ok in X. cbn in X. discriminate. }
    assert (m = 1 \/ m = d) as Hm.
    { unfold expand_ok in X. rewrite Eb in X. apply bshape_le in X. destruct X as [X _]. unfold le_shape in X. rewrite rev_app_distr in X.
      cbn in X. inversion X; auto. }
    assert (n = prod s * d) as En by (unfold n; rewrite Eb, prod_app; cbn; lia).
    assert (forall q, q < n -> bidx [m] (unravel bp q) = [q mod m]) as Bx.
    { intros q Hq. subst bp. destruct (unravel_last s d q Hq) as (p & ->). unfold bidx. rewrite rev_app_distr. cbn.
      assert (bidx_rev [] (rev p) = []) as K by (destruct (rev p); reflexivity).
      destruct (Nat.eqb_spec m 1) as [->|Nm]; [now rewrite Nat.mod_1_r|]. destruct Hm; [congruence|]. subst; auto. }
    destruct (list_eqb [m] [n]) eqn:El.
    + unfold list_eqb in El. destruct (list_eq_dec Nat.eq_dec [m] [n]) as [Em|]; [|discriminate]. injection Em as Em.
      exists val. split; auto. rewrite Ev, Em. split; auto. intros q Hq. rewrite <- Em, Bx by auto. rewrite Em, Nat.mod_small by auto. auto.
    + cbn [length Nat.ltb Nat.leb]. rewrite Ev. destruct (Nat.eqb_spec m n) as [Em|Em].
      { subst m. unfold list_eqb in El. destruct (list_eq_dec Nat.eq_dec [n] [n]); congruence. }
      destruct (Nat.eqb_spec m 0) as [Z0|Z0].
      { exfalso. subst m. destruct Hm; [lia|]. subst d. lia. }
      exists (tile [n / m] val). split; auto. cbn [tile tshape]. rewrite Ev. cbn [zipmul]. split.
      * f_equal. symmetry. apply Nat.div_exact; auto. rewrite En. destruct Hm as [-> | ->]; [apply Nat.mod_1_r|apply Nat.mod_mul; auto].
      * intros q Hq. cbn [tile tget]. rewrite Ev, Bx by auto. reflexivity.
Qed.

Lemma index_put_ok dyn ixs b xconst (val x : tensor R) : ixs <> [] -> bshapes (map tshape ixs) = Some b -> 0 < prod b -> Forall (fits b) ixs ->
  Forall2 (fun (d : bool) (ix : tensor Z) => d = true -> length (tshape ix) = 1) dyn ixs -> picks_ok nonneg (tshape x) ixs ->
  let bp := b ++ skipn (length ixs) (tshape x) in
  length (tshape val) <= 1 -> expand_ok (tshape val) bp ->
  (forall i j, valid bp i -> valid bp j -> target (tshape x) ixs b i = target (tshape x) ixs b j -> i = j) ->
  exists y, aten_index_put dyn ixs xconst false val x = Some y /\ is_put x (expand bp val) (target (tshape x) ixs b) y.
Proof.
  intros N B P F D Rg bp L X I. unfold aten_index_put. rewrite dyn_ok_true by auto. cbn [negb].
  rewrite (max_len_ok ixs b) by auto. replace (prod b * prod (skipn (length ixs) (tshape x))) with (prod bp) by (unfold bp; now rewrite prod_app).
  destruct (put_value_ok bp val L X) as (v & -> & Sv & Gv). cbn [obind].
  set (n := prod bp) in *. set (co := fun idx : list nat => index_coords (tshape x) ixs (nth 0 idx 0)).
  assert (forall q, q < n -> inside (tshape x) (co [q]) = true /\ map Z.to_nat (co [q]) = target (tshape x) ixs b (unravel bp q)) as K.
  { intros q Hq. unfold co. cbn [nth]. rewrite <- (ravel_unravel bp q Hq) at 1 2.
    apply (coords_target (tshape x) ixs b (unravel bp q)); auto. apply unravel_valid. exact Hq. }
  assert (forallb (fun idx => inside (tshape x) (co idx)) (indices [n]) = true) as In.
  { apply forallb_forall. intros j Hj. apply indices_valid in Hj. destruct (valid1 _ _ Hj) as (q & -> & Hq). apply K; auto. }
  unfold gather_nd_chk. rewrite In. cbn [obind andb]. unfold binop at 1. rewrite Sv. cbn [gather_full tshape]. rewrite bshape_self. cbn [obind andb].
  cbn [gather_full tget tshape].
  set (u := mkT [n] (fun idx => (tget v (bidx [n] idx) - tget x (map Z.to_nat (co (bidx [n] idx))))%R)). unfold scatter_nd_chk. change (tshape u) with [n]. rewrite In. cbn [obind]. unfold binop. cbn [scatter_full tshape].
  rewrite bshape_self. eexists; split; [reflexivity|]. split; [reflexivity|]. intros idx V. cbn [tget tshape expand].
  rewrite !(bidx_self (tshape x) idx V).
  change (lsum (indices (tshape u)) (fun j => if list_eqb (map Z.to_nat (co j)) idx then tget u j else 0%R))
    with (tget (scatter_full (tshape x) (fun j => map Z.to_nat (co j)) u) idx).
  destruct (scatter_put (tshape x) (fun j => map Z.to_nat (co j)) (fun j => target (tshape x) ixs b (unravel bp (nth 0 j 0))) u) as [_ Hp].
  { intros j Vj. cbn [tshape u] in Vj. destruct (valid1 _ _ Vj) as (q & -> & Hq). apply K; auto. }
  { intros i j Vi Vj Et. cbn [tshape u] in Vi, Vj. destruct (valid1 _ _ Vi) as (q & -> & Hq). destruct (valid1 _ _ Vj) as (r & -> & Hr).
    cbn [nth] in Et. apply I in Et; try (apply unravel_valid; auto). f_equal.
    rewrite <- (ravel_unravel bp q Hq), <- (ravel_unravel bp r Hr). now rewrite Et. }
  destruct (Hp idx V) as [H1 H2]. split.
  - intro No. rewrite H1; [cbn; ring|]. intros j Vj. apply No. cbn [tshape u] in Vj. destruct (valid1 _ _ Vj) as (q & -> & Hq).
    apply unravel_valid. auto.
  - intros (j & Vj & Ej). destruct H2 as (k & Vk & Ek & Q).
    { exists [ravel bp j]. cbn [nth tshape u]. rewrite unravel_ravel by auto. split; auto. constructor; [apply ravel_lt; auto|constructor]. }
    cbn [tshape u] in Vk. destruct (valid1 _ _ Vk) as (q & -> & Hq). cbn [nth] in Ek. exists (unravel bp q).
    split; [apply unravel_valid; auto|]. split; auto. rewrite Q. cbn [u tget gather_full tshape].
    rewrite (bidx_self [n] [q] Vk). rewrite (proj2 (K q Hq)), Ek, Gv by auto. cbn [expand tget]. ring.
Qed.

Lemma index_select_ok {A} (const : bool) (dim : Z) (ix : tensor Z) (x : tensor A) :
  let n := length (tshape x) in let ax := Z.to_nat (dim mod Z.of_nat n) in
  (- Z.of_nat n <= dim < Z.of_nat n)%Z ->
  (forall j, valid (tshape ix) j -> (if const then in_range else nonneg) (nth ax (tshape x) 0) (tget ix j)) ->
  exists y, aten_index_select const dim ix x = Some y /\ teq y (torch_index_at ax ix x).
Proof.
  intros n ax H R. unfold aten_index_select.
  change (Z.to_nat (if (dim <? 0)%Z then (dim + Z.of_nat (length (tshape x)))%Z else dim)) with (gather_axis dim n).
  rewrite axis_eq by auto. apply index_single_ok; auto. fold n. unfold ax.
  pose proof (Z.mod_pos_bound dim (Z.of_nat n) ltac:(lia)). lia.
Qed.
