(** Proofs about reciprocal square roots, tiles, gathers next to convolutions, matrix
    products with an addition, and the lowering of batch-norm (FuseModel.v). *)
From Coq Require Import List Arith Bool Reals Lia Lra Permutation.
From Verif Require Import Tensor ChainModel ChainProofs LowerProofs ConvSpec FuseModel FuseProofs PadProofs.
Import ListNotations.
Local Open Scope nat_scope.

(* ------------------------------------------------------------------ *)
(** * Broadcasting *)

Lemma bdim_comm a b : bdim a b = bdim b a.
Proof.
  unfold bdim. destruct (Nat.eqb_spec a b), (Nat.eqb_spec b a); subst; try congruence; auto.
  destruct (Nat.eqb_spec a 1), (Nat.eqb_spec b 1); subst; congruence.
Qed.
Lemma bshape_rev_comm a : forall b, bshape_rev a b = bshape_rev b a.
Proof.
  induction a as [|x a IH]; intros [|y b]; simpl; auto. rewrite bdim_comm, IH. reflexivity.
Qed.
Lemma bshape_comm a b : bshape a b = bshape b a.
Proof. unfold bshape. now rewrite bshape_rev_comm. Qed.

Lemma bshape_rev_valid a : forall b s idx, bshape_rev a b = Some s -> valid s idx -> valid a (bidx_rev a idx).
Proof.
  induction a as [|x a IH]; intros b s idx H V; [constructor|].
  destruct b as [|y b]; simpl in H.
  - injection H as <-. clear IH. induction V as [|i d r s Hi V IH2]; simpl; [constructor|].
    constructor; [destruct (Nat.eqb_spec d 1); lia|exact IH2].
  - destruct (bdim x y) as [d|] eqn:E; [|discriminate]. destruct (bshape_rev a b) as [r|] eqn:Er; [|discriminate].
    injection H as <-. inversion V as [|i ? idx' ? Hi V']; subst. cbn [bidx_rev]. constructor; [|eapply IH; eauto].
    destruct (Nat.eqb_spec x 1); [lia|]. unfold bdim in E.
    destruct (Nat.eqb_spec x y); [injection E as <-; auto|]. destruct (Nat.eqb_spec x 1); [lia|].
    destruct (Nat.eqb_spec y 1); [injection E as <-; auto|discriminate].
Qed.

Lemma valid_rev s idx : valid s idx -> valid (rev s) (rev idx).
Proof.
  intro V. induction V; simpl; [constructor|]. apply Forall2_app; [exact IHV|]. repeat constructor; auto.
Qed.

Lemma bidx_valid a b s idx : bshape a b = Some s -> valid s idx -> valid a (bidx a idx) /\ valid b (bidx b idx).
Proof.
  intros H V. unfold bshape in H. destruct (bshape_rev (rev a) (rev b)) as [r|] eqn:E; [|discriminate].
  injection H as <-. apply valid_rev in V. rewrite rev_involutive in V. unfold bidx. split.
  - rewrite <- (rev_involutive a) at 1. apply valid_rev. eapply bshape_rev_valid; eauto.
  - rewrite <- (rev_involutive b) at 1. apply valid_rev. rewrite bshape_rev_comm in E. eapply bshape_rev_valid; eauto.
Qed.

Lemma bshape_rev_snoc x y : forall a b, length a = length b ->
  bshape_rev (a ++ [x]) (b ++ [y]) =
  match bshape_rev a b, bdim x y with Some r, Some d => Some (r ++ [d]) | _, _ => None end.
Proof.
  induction a as [|u a IH]; intros [|v b] H; simpl in *; try discriminate.
  - destruct (bdim x y); reflexivity.
  - rewrite IH by lia. destruct (bdim u v); auto. destruct (bshape_rev a b); auto. destruct (bdim x y); auto.
Qed.
Lemma bshape_cons x y a b : length a = length b ->
  bshape (x :: a) (y :: b) = match bdim x y, bshape a b with Some d, Some r => Some (d :: r) | _, _ => None end.
Proof.
  intro H. unfold bshape. cbn [rev]. rewrite bshape_rev_snoc by (rewrite !rev_length; auto).
  destruct (bshape_rev (rev a) (rev b)); cbn; destruct (bdim x y); cbn; auto. now rewrite rev_app_distr.
Qed.
Lemma bidx_rev_snoc d i : forall s idx, length s = length idx ->
  bidx_rev (s ++ [d]) (idx ++ [i]) = bidx_rev s idx ++ [if d =? 1 then 0 else i].
Proof. induction s as [|e s IH]; intros [|j idx] H; simpl in *; try discriminate; auto. now rewrite IH by lia. Qed.
Lemma bidx_cons d s i idx : length s = length idx -> bidx (d :: s) (i :: idx) = (if d =? 1 then 0 else i) :: bidx s idx.
Proof.
  intro H. unfold bidx. cbn [rev]. rewrite bidx_rev_snoc by (rewrite !rev_length; auto). now rewrite rev_app_distr.
Qed.
Lemma bidx_self s idx : valid s idx -> bidx s idx = idx.
Proof.
  intro V. induction V as [|i d r s Hi V IH]; [reflexivity|]. rewrite bidx_cons by (symmetry; eapply valid_length; eauto).
  rewrite IH. destruct (Nat.eqb_spec d 1); f_equal; lia.
Qed.
Lemma bshape_self s : bshape s s = Some s.
Proof. induction s; [reflexivity|]. rewrite bshape_cons, IHs, bdim_same by auto. reflexivity. Qed.

(** two possibly failing results are the same *)
Definition oteq {A} (x y : option (tensor A)) : Prop :=
  match x, y with Some t, Some u => teq t u | None, None => True | _, _ => False end.

(* ------------------------------------------------------------------ *)
(** * Reciprocal square root *)

Local Open Scope R_scope.
Definition rsqrt (x : R) : R := 1 / sqrt x.
Definition act_out (a : activ) (o : option (tensor R)) : option (tensor R) := option_map (tmap (act_fn a)) o.
(** the pair before: SQRT feeding operand 1 of DIV, with numerator [n] *)
Definition div_sqrt (act : activ) (n x : tensor R) : option (tensor R) := act_out act (binop Rdiv n (tmap sqrt x)).
(** the pair after the pass *)
Definition after_rsqrt (r : rsqrt_result) (act : activ) (n x : tensor R) : option (tensor R) :=
  match r with
  | RDropDiv => Some (tmap rsqrt x)
  | RMul => act_out act (binop Rmult n (tmap rsqrt x))
  end.

Lemma rsqrt_correct (ones : bool) act n x :
  (forall idx, valid (tshape x) idx -> 0 < tget x idx) ->
  (ones = true -> (forall idx, valid (tshape n) idx -> tget n idx = 1) /\ bshape (tshape n) (tshape x) = Some (tshape x)) ->
  oteq (after_rsqrt (fuse_reciprocal_sqrt ones act) act n x) (div_sqrt act n x).
Proof.
  intros Hx Ho. unfold fuse_reciprocal_sqrt, div_sqrt, binop.
  assert (forall s idx, bshape (tshape n) (tshape x) = Some s -> valid s idx ->
            0 < tget x (bidx (tshape x) idx)) as Hpos.
  { intros s idx E V. apply Hx. eapply bidx_valid; eauto. }
  destruct (ones && activ_eqb act ANone) eqn:E.
  - apply andb_prop in E. destruct E as [E1 E2]. destruct (Ho E1) as [Hn Hs].
    destruct act; try discriminate. cbn [tshape tmap after_rsqrt]. rewrite Hs. cbn [act_out option_map oteq].
    split; [reflexivity|]. intros idx V. cbn [tmap tshape tget act_fn] in *.
    destruct (bidx_valid _ _ _ idx Hs V) as [V1 V2]. rewrite Hn by exact V1.
    rewrite bidx_self by exact V. reflexivity.
  - cbn [after_rsqrt]. unfold binop. cbn [tshape tmap]. destruct (bshape (tshape n) (tshape x)) as [s|] eqn:Es; [|exact I].
    cbn [act_out option_map oteq]. split; [reflexivity|]. intros idx V. cbn [tmap tshape tget] in *. f_equal.
    unfold rsqrt. specialize (Hpos s idx eq_refl V). pose proof (sqrt_ne _ Hpos). field. auto.
Qed.

(** the edge test does not look at which operand the root is *)
Lemma rsqrt_numerator_refuted :
  exists act x d, (forall idx, 0 < tget x idx) /\ (forall idx, tget d idx <> 0) /\
    fuse_reciprocal_sqrt false act = RMul /\
    ~ oteq (act_out act (binop Rmult (tmap rsqrt x) d)) (act_out act (binop Rdiv (tmap sqrt x) d)).
Proof.
  exists ANone, (mkT [1%nat] (fun _ => 4)), (mkT [1%nat] (fun _ => 1)). split; [cbn; intros; lra|]. split; [cbn; intros; lra|].
  split; [reflexivity|]. cbn. intros [_ H]. specialize (H [0%nat]).
  assert (valid [1%nat] [0%nat]) as V by (repeat constructor). specialize (H V). cbn in H. unfold rsqrt in H.
  replace 4 with (2 * 2) in H by lra. rewrite sqrt_square in H by lra. lra.
Qed.
(** the numerator of ones can be larger than the root: dropping DIV drops the broadcast *)
Lemma rsqrt_broadcast_refuted :
  exists n x, (forall idx, 0 < tget x idx) /\ (forall idx, tget n idx = 1) /\
    bshape (tshape n) (tshape x) <> None /\
    ~ oteq (after_rsqrt (fuse_reciprocal_sqrt true ANone) ANone n x) (div_sqrt ANone n x).
Proof.
  exists (mkT [2; 1]%nat (fun _ => 1)), (mkT [1%nat] (fun _ => 4)). split; [cbn; intros; lra|]. split; [reflexivity|].
  split; [discriminate|]. cbn. intros [H _]. discriminate H.
Qed.

(* ------------------------------------------------------------------ *)
(** * Tile *)
Local Open Scope nat_scope.

Lemma zipmul_snoc x y : forall a b, length a = length b -> zipmul (a ++ [x]) (b ++ [y]) = zipmul a b ++ [x * y].
Proof. induction a as [|u a IH]; intros [|v b] H; simpl in *; try discriminate; auto. now rewrite IH by lia. Qed.
Lemma zipmul_rev a : forall b, length a = length b -> rev (zipmul a b) = zipmul (rev a) (rev b).
Proof.
  induction a as [|x a IH]; intros [|y b] H; simpl in *; try discriminate; auto.
  rewrite zipmul_snoc by (rewrite !rev_length; lia). now rewrite IH by lia.
Qed.
Lemma zipmul_length a b : length a = length b -> length (zipmul a b) = length a.
Proof. revert b. induction a as [|x a IH]; intros [|y b] H; simpl in *; try discriminate; auto. Qed.
Lemma modidx_snoc d i : forall s idx, length s = length idx -> modidx (s ++ [d]) (idx ++ [i]) = modidx s idx ++ [i mod d].
Proof. induction s as [|e s IH]; intros [|j idx] H; simpl in *; try discriminate; auto. now rewrite IH by lia. Qed.
Lemma modidx_rev s : forall idx, length s = length idx -> modidx s (rev idx) = rev (modidx (rev s) idx).
Proof.
  induction s as [|d s IH]; intros idx H; [reflexivity|].
  destruct (exists_last (l := idx)) as (l & i & ->); [intros ->; discriminate|].
  rewrite app_length in H. simpl in H. rewrite rev_app_distr. cbn [rev app modidx].
  rewrite modidx_snoc by (rewrite rev_length; lia). rewrite rev_app_distr. cbn. f_equal. apply IH. lia.
Qed.
Lemma bidx_rev_length s : forall idx, length s <= length idx -> length (bidx_rev s idx) = length s.
Proof. induction s as [|d s IH]; intros [|i idx] H; simpl in *; auto; try lia. now rewrite IH by lia. Qed.

Lemma mul_eq_1 t m : t * m = 1 -> t = 1.
Proof. intro H. apply Nat.eq_mul_1 in H. tauto. Qed.

Lemma tile_axes T : forall A M s idx, length T = length M ->
  bshape_rev A T = Some s -> bshape_rev A (zipmul T M) = Some s -> valid s idx ->
  modidx T (bidx_rev (zipmul T M) idx) = bidx_rev T idx.
Proof.
  induction T as [|t T IH]; intros A [|m M] s idx HL H1 H2 V; simpl in HL; try discriminate; [reflexivity|].
  destruct A as [|a A].
  - injection H1 as <-. cbn [bshape_rev] in H2. injection H2 as E1 E2.
    inversion V as [|i ? idx' ? Hi V']; subst. cbn [zipmul bidx_rev modidx]. f_equal.
    + rewrite E1. destruct (Nat.eqb_spec t 1); [now rewrite Nat.mod_0_l by lia|]. apply Nat.mod_small; auto.
    + apply (IH [] M T); auto. cbn. now rewrite E2.
  - cbn [bshape_rev zipmul] in H1, H2. destruct (bdim a t) as [d|] eqn:D1; [|discriminate].
    destruct (bshape_rev A T) as [r|] eqn:R1; [|discriminate]. injection H1 as <-.
    destruct (bdim a (t * m)) as [d'|] eqn:D2; [|discriminate]. destruct (bshape_rev A (zipmul T M)) as [r'|] eqn:R2; [|discriminate].
    injection H2 as -> ->. inversion V as [|i ? idx' ? Hi V']; subst. cbn [zipmul bidx_rev modidx]. f_equal.
    + destruct (Nat.eqb_spec t 1) as [->|Ht]; [apply Nat.mod_1_r|].
      destruct (Nat.eqb_spec (t * m) 1) as [E|E]; [apply mul_eq_1 in E; lia|].
      apply Nat.mod_small. unfold bdim in D1. destruct (Nat.eqb_spec a t); [injection D1 as <-; lia|].
      destruct (Nat.eqb_spec a 1); [injection D1 as <-; auto|]. destruct (Nat.eqb_spec t 1); [lia|discriminate].
    + eapply IH; eauto.
Qed.

Lemma bshape_rev_length a : forall b s, bshape_rev a b = Some s -> length a <= length s /\ length b <= length s.
Proof.
  induction a as [|x a IH]; intros [|y b] s H; simpl in H; try (injection H as <-; simpl; lia).
  destruct (bdim x y); [|discriminate]. destruct (bshape_rev a b) as [r|] eqn:E; [|discriminate]. injection H as <-.
  destruct (IH _ _ E). simpl. lia.
Qed.

Lemma remove_tile_correct {A B C} (f : A -> B -> C) (o : tensor A) (t : tensor B) (m : list nat) z :
  length m = length (tshape t) -> binop f o (tile m t) = Some z ->
  remove_tile (tshape o) (tshape t) (tshape z) = true ->
  exists z', binop f o t = Some z' /\ teq z' z.
Proof.
  intros HL HB HR. unfold binop in *. cbn [tshape tile] in HB. unfold remove_tile in HR.
  destruct (bshape (tshape o) (tshape t)) as [s|] eqn:E1; [|discriminate].
  destruct (list_eq_dec Nat.eq_dec s (tshape z)) as [Es|]; [|discriminate].
  destruct (bshape (tshape o) (zipmul (tshape t) m)) as [s'|] eqn:E2; [|discriminate]. injection HB as <-.
  cbn [tshape] in Es. subst s'. eexists. split; [reflexivity|]. split; [reflexivity|]. intros idx V. cbn [tshape tget] in *.
  f_equal. f_equal. unfold bshape in E1, E2.
  destruct (bshape_rev (rev (tshape o)) (rev (tshape t))) as [r1|] eqn:R1; [|discriminate]. injection E1 as <-.
  destruct (bshape_rev (rev (tshape o)) (rev (zipmul (tshape t) m))) as [r2|] eqn:R2; [|discriminate]. injection E2 as E2.
  apply (f_equal (@rev nat)) in E2. rewrite !rev_involutive in E2. subst r2.
  rewrite zipmul_rev in R2 by auto. apply valid_rev in V. rewrite rev_involutive in V.
  pose proof (bshape_rev_length _ _ _ R1) as [_ L1]. rewrite rev_length in L1.
  pose proof (valid_length _ _ V) as LV.
  unfold bidx at 2. rewrite modidx_rev.
  - rewrite zipmul_rev by auto. unfold bidx. f_equal. symmetry.
    eapply tile_axes; eauto. rewrite !rev_length. auto.
  - rewrite bidx_rev_length; rewrite rev_length, zipmul_length; auto. lia.
Qed.

(** the tile on the other operand *)
Lemma binop_flip {A B C} (f : A -> B -> C) (x : tensor A) (y : tensor B) :
  binop f x y = binop (fun b a => f a b) y x.
Proof. unfold binop. rewrite bshape_comm. reflexivity. Qed.
Lemma remove_tile_correct_left {A B C} (f : A -> B -> C) (o : tensor B) (t : tensor A) (m : list nat) z :
  length m = length (tshape t) -> binop f (tile m t) o = Some z ->
  remove_tile (tshape o) (tshape t) (tshape z) = true ->
  exists z', binop f t o = Some z' /\ teq z' z.
Proof.
  intros HL HB HR. rewrite binop_flip in HB. rewrite binop_flip. eapply remove_tile_correct; eauto.
Qed.

(* ------------------------------------------------------------------ *)
(** * Gather next to a convolution *)

Lemma lsum_perm {A} (l m : list A) f : Permutation l m -> lsum l f = lsum m f.
Proof.
  intro H. induction H; auto.
  - rewrite !lsum_cons. now rewrite IHPermutation.
  - rewrite !lsum_cons. ring.
  - congruence.
Qed.

(** CONV_2D with one group: operand [N; H; W; C], weight [Cout; kh; kw; C] *)
Definition conv2d (act : activ) (od st dil pad : list nat) (x w : tensor R) (b : nat -> R) : tensor R :=
  tmap (act_fn act)
    (windowed (conv_kernel w b (nth 3 (tshape x) 0)) od (nth 0 (tshape w) 0) st dil pad
              (removelast (tl (tshape w))) x).

Lemma conv_gather_correct act od st dil pad x w b ix N H W C kh kw cout :
  tshape x = [N; H; W; C] -> tshape w = [cout; kh; kw; C] -> 0 < C -> 0 < cout -> length od = 2 ->
  length b = cout -> Forall (fun i => i < cout) ix -> 
  conv2d_gather_edge 3 w ix = true ->
  exists w' b', fuse_conv2d_gather 3 w (Some b) ix = Some (Some (w', b')) /\ tshape w' = tshape w /\ length b' = cout /\
    teq (conv2d act od st dil pad x w' (fun o => nth o b' 0%R))
        (gather 3 ix (conv2d act od st dil pad x w (fun o => nth o b 0%R))).
Proof.
  intros Hx Hw HC Hco Hod Hb Hix He. unfold fuse_conv2d_gather. rewrite He.
  unfold conv2d_gather_edge in He. rewrite Hw in He. cbn in He. apply Nat.eqb_eq in He.
  eexists _, _. split; [reflexivity|]. split; [cbn; rewrite Hw; cbn; congruence|]. split; [now rewrite map_length|].
  destruct od as [|oh [|ow [|]]]; try discriminate Hod.
  split.
  - unfold conv2d, windowed. cbn. rewrite Hw, Hx. reflexivity.
  - intros idx V. unfold conv2d, windowed in V. cbn in V. rewrite Hw, Hx in V. cbn in V.
    inversion V as [|n ? i1 ? Hn V1]; subst. inversion V1 as [|p1 ? i2 ? Hp1 V2]; subst.
    inversion V2 as [|p2 ? i3 ? Hp2 V3]; subst. inversion V3 as [|o ? i4 ? Ho V4]; subst. inversion V4; subst.
    unfold conv2d, gather, tmap, windowed. cbn [tget tshape nth last upd tl removelast]. f_equal.
    rewrite Hx, Hw. cbn [nth tl removelast last upd tshape].
    unfold conv_kernel. cbn [tshape gather]. rewrite Hw. cbn [nth tl removelast last upd tget].
    rewrite Nat.div_same by lia. rewrite !Nat.div_1_r.
    assert (nth o ix 0 < length ix)%nat as Hi.
    { rewrite Forall_forall in Hix. rewrite <- He. apply Hix. apply nth_In. lia. }
    rewrite (Nat.div_small o (length ix)) by lia. rewrite (Nat.div_small (nth o ix 0) (length b)) by lia.
    f_equal. rewrite nth_indep with (d' := (fun i => nth i b 0%R) 0) by (rewrite map_length; lia).
    apply (map_nth (fun i => nth i b 0%R)).
Qed.

(** a grouped CONV_2D: the channels of the other group are read *)
Lemma conv_gather_group_refuted :
  exists x w b ix w' b',
    tshape x = [1; 1; 1; 2] /\ tshape w = [2; 1; 1; 1] /\ is_perm 2 ix /\
    fuse_conv2d_gather 3 w (Some b) ix = Some (Some (w', b')) /\
    ~ teq (conv2d ANone [1; 1] [1; 1] [1; 1] [0; 0] x w' (fun o => nth o b' 0%R))
          (gather 3 ix (conv2d ANone [1; 1] [1; 1] [1; 1] [0; 0] x w (fun o => nth o b 0%R))).
Proof.
  exists (mkT [1; 1; 1; 2] (fun i => match nth 3 i 0 with 0 => 1%R | _ => 2%R end)), (mkT [2; 1; 1; 1] (fun _ => 1%R)), [0%R; 0%R], [1; 0].
  eexists _, _. split; [reflexivity|]. split; [reflexivity|]. split; [apply perm_swap|]. split; [reflexivity|].
  intros [_ E]. specialize (E [0; 0; 0; 0]). assert (valid [1; 1; 1; 2] [0; 0; 0; 0]) as V by (repeat constructor).
  specialize (E V). revert E. unfold conv2d, gather, tmap, windowed, conv_kernel, lsum. cbn. lra.
Qed.
(** a convolution without bias operand: line 589 raises *)
Lemma conv_gather_nobias_raises : exists w ix, conv2d_gather_edge 3 w ix = true /\ fuse_conv2d_gather 3 w None ix = None.
Proof. exists (mkT [1; 1; 1; 1] (fun _ => 0%R)), [0]. split; reflexivity. Qed.

Lemma argsort_inv n p : is_perm n p -> sel p (argsort p) = seq 0 n /\ is_perm n (argsort p).
Proof.
  intro H. pose proof (is_perm_length _ _ H) as L. split.
  - rewrite sel_argsort. apply sorted_perm_eq; [apply np_sort_sorted|apply seq_sorted|].
    eapply Permutation_trans; [apply np_sort_perm|exact H].
  - rewrite <- L. apply argsort_perm. eapply is_perm_NoDup; eauto.
Qed.

Lemma lsum_nth (p : list nat) f : lsum p f = lsum (seq 0 (length p)) (fun c => f (nth c p 0)).
Proof. rewrite <- (sel_seq p) at 1. unfold sel. now rewrite lsum_map. Qed.
Lemma lsum_combine_map {K A} (ks : list K) (h : K -> A) (f : K * A -> R) :
  lsum (combine ks (map h ks)) f = lsum ks (fun k => f (k, h k)).
Proof. induction ks; simpl; [reflexivity|]. rewrite !lsum_cons, IHks. reflexivity. Qed.

Lemma gather_conv_correct act od st dil pad x w b ix N H W C kh kw cout :
  tshape x = [N; H; W; C] -> tshape w = [cout; kh; kw; C] -> 0 < C -> 0 < cout ->
  length od = 2 -> length st = 2 -> length dil = 2 -> length pad = 2 -> is_perm C ix ->
  exists w', fuse_gather_conv2d 3 w ix = Some w' /\ tshape w' = tshape w /\
    teq (conv2d act od st dil pad x w' b) (conv2d act od st dil pad (gather 3 ix x) w b).
Proof.
  intros Hx Hw HC Hco Hod Hst Hdil Hpad Hp. pose proof (is_perm_length _ _ Hp) as HL.
  destruct (argsort_inv _ _ Hp) as [Hs Hpa]. pose proof (is_perm_length _ _ Hpa) as HLa.
  unfold fuse_gather_conv2d, gather_conv2d_edge. rewrite Hw. cbn [nth Nat.eqb andb]. rewrite HL, Nat.eqb_refl.
  eexists. split; [reflexivity|]. split; [cbn; rewrite Hw; cbn; now rewrite HLa|].
  destruct od as [|oh [|ow [|]]]; try discriminate Hod. split.
  - unfold conv2d, windowed. cbn. rewrite Hw, Hx. reflexivity.
  - clear HL HLa. intros idx V. unfold conv2d, windowed in V. cbn in V. rewrite Hw, Hx in V. cbn in V.
    inversion V as [|n ? i1 ? Hn V1]; subst. inversion V1 as [|p1 ? i2 ? Hp1 V2]; subst.
    inversion V2 as [|p2 ? i3 ? Hp2 V3]; subst. inversion V3 as [|o ? i4 ? Ho V4]; subst. inversion V4; subst.
    unfold conv2d, gather, tmap, windowed. cbn [tget tshape nth last upd tl removelast]. f_equal.
    rewrite Hx, Hw. cbn [nth tl removelast last upd tshape tget].
    unfold conv_kernel. cbn [tshape]. rewrite Hw. cbn [nth tl removelast last upd tget].
    rewrite (is_perm_length _ _ Hpa). rewrite Nat.div_same by lia. rewrite !Nat.div_1_r.
    rewrite (Nat.div_small o cout) by lia. cbn [Nat.mul Nat.add]. f_equal.
    rewrite !lsum_combine_map. apply lsum_ext. intros k Hk. cbn [fst snd].
    apply indices_valid in Hk. inversion Hk as [|k1 ? r1 ? Hk1 Hk']; subst. inversion Hk' as [|k2 ? r2 ? Hk2 Hk'']; subst. inversion Hk''; subst.
    cbn [app upd nth]. pose proof (is_perm_length _ _ Hp) as HL. pose proof (is_perm_length _ _ Hpa) as HLa.
    set (tp := tap [H; W] st dil pad [p1; p2] [k1; k2]).
    assert (tp = None \/ exists q1 q2, tp = Some [q1; q2]) as Htp.
    { unfold tp. destruct st as [|s1 [|s2 [|]]]; try discriminate Hst. destruct dil as [|d1 [|d2 [|]]]; try discriminate Hdil.
      destruct pad as [|a1 [|a2 [|]]]; try discriminate Hpad. cbn [tap].
      destruct (_ && _); [|left; reflexivity]. destruct (_ && _); cbn; eauto. }
    set (g := fun c => val0 (option_map (fun q => tget x (n :: q ++ [c])) tp)).
    transitivity (lsum (seq 0 C) (fun c => tget w [o; k1; k2; nth c (argsort ix) 0%nat] * g c)%R).
    { apply lsum_ext. intros c Hc. apply in_seq in Hc. f_equal. unfold g.
      rewrite nth_indep with (d' := option_map (fun q => tget x (n :: q ++ [C])) tp) by (rewrite map_length, seq_length; lia).
      rewrite (map_nth (fun c => option_map (fun q => tget x (n :: q ++ [c])) tp) (seq 0 C) C c), seq_nth by lia. reflexivity. }
    transitivity (lsum (seq 0 C) (fun i => tget w [o; k1; k2; i] * g (nth i ix 0%nat))%R).
    { transitivity (lsum (argsort ix) (fun i => tget w [o; k1; k2; i] * g (nth i ix 0%nat))%R); [|apply lsum_perm; exact Hpa].
      rewrite (lsum_nth (argsort ix)), HLa. apply lsum_ext. intros c Hc. apply in_seq in Hc.
      do 2 f_equal. assert (nth c (sel ix (argsort ix)) 0 = c) as E by (rewrite Hs, seq_nth by lia; lia).
      rewrite sel_nth in E by lia. congruence. }
    apply lsum_ext. intros i Hi. apply in_seq in Hi. f_equal. unfold g. rewrite HL.
    rewrite Nat.div_same, Nat.div_1_r, (Nat.div_small o cout) by lia. cbn [Nat.mul Nat.add].
    set (h := fun c : nat => option_map (fun q : list nat => tget x (n :: upd (q ++ [c]) 2 (nth (nth 2 (q ++ [c]) 0) ix 0))) tp).
    rewrite nth_indep with (d' := h C) by (rewrite map_length, seq_length; lia).
    rewrite (map_nth h (seq 0 C) C i), seq_nth by lia. unfold h.
    destruct Htp as [->|(q1 & q2 & ->)]; reflexivity.
Qed.

(** selecting half of the channels: the fused operator silently becomes a grouped convolution *)
Lemma gather_conv_select_refuted :
  exists x w ix w',
    tshape x = [1; 1; 1; 4] /\ tshape w = [2; 1; 1; 2] /\ NoDup ix /\ Forall (fun i => i < 4) ix /\
    fuse_gather_conv2d 3 w ix = Some w' /\
    ~ teq (conv2d ANone [1; 1] [1; 1] [1; 1] [0; 0] x w' (fun _ => 0%R))
          (conv2d ANone [1; 1] [1; 1] [1; 1] [0; 0] (gather 3 ix x) w (fun _ => 0%R)).
Proof.
  exists (mkT [1; 1; 1; 4] (fun i => match nth 3 i 0 with 0 => 1%R | _ => 2%R end)), (mkT [2; 1; 1; 2] (fun _ => 1%R)), [2; 3].
  eexists. split; [reflexivity|]. split; [reflexivity|].
  split; [repeat constructor; simpl; intuition discriminate|]. split; [repeat constructor|]. split; [reflexivity|].
  intros [_ E]. specialize (E [0; 0; 0; 0]). assert (valid [1; 1; 1; 2] [0; 0; 0; 0]) as V by (repeat constructor).
  specialize (E V). revert E. unfold conv2d, gather, tmap, windowed, conv_kernel, lsum. cbn. lra.
Qed.

(* ------------------------------------------------------------------ *)
(** * Matrix product and addition *)
Local Open Scope R_scope.

(** BATCH_MATMUL with a 2-D second operand [K; O] *)
Definition bmm (x w : tensor R) : tensor R :=
  mkT (removelast (tshape x) ++ [nth 1 (tshape w) 0%nat])
      (fun idx => lsum (seq 0 (nth 0 (tshape w) 0%nat))
                       (fun i => tget x (removelast idx ++ [i]) * tget w [i; last idx 0%nat])).
(** the product before the pass; only FULLY_CONNECTED has a fused activation *)
Definition run_mm (kind : mm_kind) (act : activ) (x w : tensor R) : tensor R :=
  match kind with MBmm => bmm x w | MFc => tmap (act_fn act) (fc x w (fun _ => 0)) end.

Lemma bshape_last lead o : bshape (lead ++ [o]) [o] = Some (lead ++ [o]).
Proof.
  unfold bshape. rewrite rev_app_distr. cbn [rev app bshape_rev]. rewrite bdim_same.
  assert (bshape_rev (rev lead) [] = Some (rev lead)) as -> by (destruct (rev lead); reflexivity).
  cbn. rewrite rev_involutive. reflexivity.
Qed.
Lemma bidx_last (lead : list nat) o pos c : length pos = length lead -> (c < o)%nat -> bidx [o] (pos ++ [c]) = [c].
Proof.
  intros H Hc. unfold bidx. rewrite rev_app_distr. cbn [rev app bidx_rev].
  destruct (Nat.eqb_spec o 1); cbn; f_equal; lia.
Qed.
Lemma valid_snoc lead o idx : valid (lead ++ [o]) idx -> exists pos c, idx = pos ++ [c] /\ valid lead pos /\ (c < o)%nat.
Proof.
  intro V. apply Forall2_app_inv_r in V. destruct V as (pos & l & V1 & V2 & ->).
  inversion V2 as [|c ? r ? Hc V3]; subst. inversion V3; subst. eauto.
Qed.

Lemma bmm_add_correct kind add_act x w bias bias_zero :
  bmm_add_edge kind (length (tshape x)) (tshape w) (tshape bias) bias_zero = true ->
  exists y, binop Rplus (run_mm kind ANone x w) bias = Some y /\
    let '(w', b', act') := fuse_bmm_add kind w bias add_act in
    teq (tmap (act_fn act') (fc x w' b')) (tmap (act_fn add_act) y).
Proof.
  intro H. unfold bmm_add_edge in H. repeat (apply andb_prop in H; destruct H as [H ?]).
  apply Nat.eqb_eq in H1, H2, H3.
  destruct (tshape w) as [|w0 [|w1 [|]]] eqn:Ew; try discriminate H3.
  destruct (tshape bias) as [|o [|]] eqn:Eb; try discriminate H2. cbn [nth] in H1.
  set (lead := removelast (tshape x)) in *.
  assert (tshape (run_mm kind ANone x w) = lead ++ [o]) as Es.
  { destruct kind; cbn; rewrite Ew; cbn; subst o; reflexivity. }
  unfold binop. rewrite Es, Eb, bshape_last. eexists. split; [reflexivity|].
  unfold fuse_bmm_add. split.
  - cbn [tshape tmap fc]. fold lead. destruct kind; cbn; rewrite Ew; cbn; subst o; reflexivity.
  - intros idx V. cbn [tshape tmap fc tget] in *. fold lead in V.
    assert (valid (lead ++ [o]) idx) as V'.
    { destruct kind; cbn in V; rewrite Ew in V; cbn in V; subst o; exact V. }
    destruct (valid_snoc _ _ _ V') as (pos & c & -> & Vp & Hc).
    f_equal. rewrite bidx_self by exact V'. rewrite (bidx_last lead) by (auto; eapply valid_length; eauto).
    rewrite !last_snoc, !removelast_snoc.
    rewrite Rplus_comm. f_equal. destruct kind; cbn [run_mm].
    + unfold bmm. cbn [tget]. rewrite removelast_snoc, last_snoc. cbn [transpose tshape]. rewrite Ew. cbn.
      apply lsum_ext. intros i Hi. rewrite Rmult_comm. f_equal.
    + cbn [tmap fc tget act_fn]. rewrite removelast_snoc, last_snoc, Ew. ring.
Qed.

(** the fully connected layer's own ReLU is lost *)
Lemma bmm_add_relu_refuted :
  exists act x w bias y,
    bmm_add_edge MFc (length (tshape x)) (tshape w) (tshape bias) true = true /\
    binop Rplus (run_mm MFc act x w) bias = Some y /\
    let '(w', b', act') := fuse_bmm_add MFc w bias ANone in
    ~ teq (tmap (act_fn act') (fc x w' b')) (tmap (act_fn ANone) y).
Proof.
  exists ARelu, (mkT [1; 1]%nat (fun _ => -1)), (mkT [1; 1]%nat (fun _ => 1)), (mkT [1]%nat (fun _ => 0)).
  eexists. split; [reflexivity|]. split; [reflexivity|]. cbn. intros [_ H]. specialize (H [0; 0]%nat).
  assert (valid [1; 1]%nat [0; 0]%nat) as V by (repeat constructor). specialize (H V). revert H. cbn. unfold lsum. cbn.
  unfold Rmax. destruct Rle_dec; lra.
Qed.

(* ------------------------------------------------------------------ *)
(** * Lowering of batch-norm to MUL and ADD *)

Lemma bshape_ones r : bshape r (repeat 1%nat (length r)) = Some r.
Proof.
  induction r as [|d r IH]; [reflexivity|]. cbn [length repeat]. rewrite bshape_cons, IH by now rewrite repeat_length.
  unfold bdim. destruct (Nat.eqb_spec d 1); [reflexivity|]. reflexivity.
Qed.
Lemma bshape_channel N C r : bshape (N :: C :: r) (1%nat :: C :: repeat 1%nat (length r)) = Some (N :: C :: r).
Proof.
  rewrite !bshape_cons, bshape_ones, bdim_same by (cbn; now rewrite repeat_length).
  unfold bdim. destruct (Nat.eqb_spec N 1); [reflexivity|]. reflexivity.
Qed.
Lemma bidx_channel C (r : list nat) n c pos : length pos = length r -> (c < C)%nat ->
  nth 1 (bidx (1%nat :: C :: repeat 1%nat (length r)) (n :: c :: pos)) 0%nat = c.
Proof.
  intros H Hc. rewrite !bidx_cons by (cbn; rewrite repeat_length; lia). cbn [nth].
  destruct (Nat.eqb_spec C 1); lia.
Qed.

Lemma bn_transform_correct p act x N C r :
  tshape x = N :: C :: r -> bn_ok C p -> exists y, bn_transform p act x = Some y /\ teq y (run_bn p act x).
Proof.
  intros Hx Hp. pose proof Hp as (P1 & P2 & P3 & P4 & P5). unfold bn_transform.
  destruct (arr2_same Rmult (bn_inv (bn_eps p) (bn_var p)) (bn_w p) C) as (nw & -> & Lw & Hw); auto.
  { now rewrite bn_inv_length. }
  cbn [obind]. destruct (arr2_same Rmult (bn_mean p) nw C) as (m & -> & Lm & Hm); auto.
  cbn [obind]. destruct (arr2_same Rminus (bn_b p) m C) as (nb & -> & Lb & Hb); auto.
  cbn [obind]. rewrite Lw, Lb, Nat.eqb_refl, Hx. cbn [length]. replace (S (S (length r)) - 2)%nat with (length r) by lia.
  unfold binop at 1. rewrite Hx. cbn [tshape]. rewrite bshape_channel. cbn [obind].
  unfold binop. cbn [tshape]. rewrite bshape_channel. cbn [obind].
  eexists. split; [reflexivity|]. split.
  - unfold run_bn, tmap, batch_norm. cbn [tshape]. now rewrite Hx.
  - intros idx V. cbn [tmap tshape tget] in *. unfold run_bn, tmap, batch_norm. cbn [tget]. f_equal.
    inversion V as [|n ? i1 ? Hn V1]; subst. inversion V1 as [|c ? pos ? Hc Vp]; subst.
    pose proof (valid_length _ _ Vp) as Lp. pose proof (bidx_self _ _ V) as Ebs. rewrite !Ebs.
    rewrite !bidx_channel by auto. cbn [nth]. rewrite Hb, Hm, Hw by auto. rewrite bn_inv_nth by lia.
    unfold bn_affine. pose proof (sqrt_ne _ (bn_ok_pos _ _ _ Hp Hc)). field. auto.
Qed.
