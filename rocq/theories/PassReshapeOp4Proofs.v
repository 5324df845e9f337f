(** Proofs about moving reshapes across another node: elementwise and broadcasting operators, PRELU,
    PACK, UNPACK. *)
From Coq Require Import List Arith Lia Permutation Bool Sorted ZArith Reals.
From Verif Require Import Tensor ChainModel ChainProofs ReshapeProofs LowerProofs ConvSpec CatSpec LayoutSpec FuseMiscProofs PassModel PassProofs PassAxesProofs FuseModel
  PassReshapeModel PassReshapeOpProofs PassReshapeOp2Proofs.
Import ListNotations.
Local Open Scope nat_scope.

Lemma back_gen {A} P (y y' : tensor A) : prod P = prod (tshape y) -> tshape y' = P ->
  (forall p q, valid P p -> valid (tshape y) q -> ravel P p = ravel (tshape y) q -> tget y' p = tget y q) ->
  teq (reshape (tshape y) y') y.
Proof.
  intros E Ey' H. split; [reflexivity|]. cbn [tshape reshape]. intros q V. pose proof (ravel_lt _ _ V) as L.
  cbn [tget reshape]. rewrite Ey'. apply H; auto; [apply unravel_valid; lia|apply ravel_unravel; lia].
Qed.
Lemma offered_None kind ins outs P N : offered kind None ins outs P N -> filter ne1 P = filter ne1 N /\ (In N ins \/ In N outs).
Proof.
  intros [(a & b & Hb & E)|(a & b & Ha & E)].
  - unfold cand_prev in E. destruct (is_simple_reshape a b) as [m|] eqn:Em; [|discriminate]. cbn in E. inversion E; subst.
    split; [apply (walk_filter _ _ _ _ _ (is_simple_walk _ _ _ Em))|auto].
  - unfold cand_next in E. destruct (is_simple_reshape a b) as [m|] eqn:Em; [|discriminate]. cbn in E. inversion E; subst.
    split; [symmetry; apply (walk_filter _ _ _ _ _ (is_simple_walk _ _ _ Em))|auto].
Qed.
Lemma where_pos s : pos s -> np_where 0 s = None.
Proof. induction 1 as [|d s Hd H IH]; cbn; [reflexivity|]. destruct (Nat.eqb_spec d 0); [lia|]. rewrite IH. reflexivity. Qed.
Lemma recorded_plain P s : pos P -> prod P = prod s -> rp_recorded KOther P s = Some P.
Proof. intros Hp E. unfold rp_recorded. rewrite where_pos by exact Hp. rewrite E, Nat.eqb_refl. reflexivity. Qed.

(** operators on each element *)
Lemma unary_moved {A B} (f : A -> B) (x : tensor A) P N : pos (tshape x) ->
  offered KOther None [tshape x] [tshape (tmap f x)] P N ->
  exists x', rp_operand KOther P N x = Some x' /\ restored P (tmap f x') (tmap f x).
Proof.
  intros Hp Hof. destruct (offered_None _ _ _ _ _ Hof) as [EF HN].
  assert (N = tshape x) as -> by (destruct HN as [[<-|[]]|[<-|[]]]; reflexivity).
  pose proof (filter_prod_eq _ _ EF) as Ep.
  exists (reshape P x). split.
  - unfold rp_operand, align. rewrite Ep, Nat.eqb_refl. cbn [obind]. unfold np_reshape. rewrite Ep, Nat.eqb_refl. reflexivity.
  - split; [apply recorded_plain; [apply (filter_pos _ _ EF Hp)|exact Ep]|].
    apply (back_gen P); auto. intros p q V1 V2 E. cbn [tget tmap reshape]. f_equal. rewrite E. cbn [tshape tmap]. f_equal. apply unravel_ravel, V2.
Qed.

(** broadcasting operators *)
Lemma Forall2_length' {A B} (R : A -> B -> Prop) l m : Forall2 R l m -> length l = length m.
Proof. induction 1; cbn; auto. Qed.
Definition le1 (a n : nat) : Prop := a = n \/ a = 1.
Lemma walk_stretch P N i j m : walk P N i j m -> forall s, Forall2 le1 s N ->
  exists r, walk r s i j m /\ Forall2 le1 r P /\
    (forall p q, valid P p -> valid N q -> ravel P p = ravel N q -> ravel r (bidx r p) = ravel s (bidx s q)).
Proof.
  intros H; induction H as [|x a b i j m H IH|a b i j m H IH|a b i j m H IH]; intros s F.
  - inversion F; subst. exists []. split; [constructor|]. split; [constructor|]. intros p q V1 V2 _. inversion V1; inversion V2; subst. reflexivity.
  - inversion F as [|c ? s' ? Hc F']; subst. destruct (IH _ F') as (r & W & Fr & R). exists (c :: r).
    split; [constructor; exact W|]. split; [constructor; auto|].
    intros p q V1 V2 E. inversion V1 as [|k ? p' ? Hk V1']; subst. inversion V2 as [|l ? q' ? Hl V2']; subst. cbn [ravel] in E.
    pose proof (walk_prod _ _ _ _ _ H) as Ep. pose proof (ravel_lt _ _ V1') as B1. pose proof (ravel_lt _ _ V2') as B2. rewrite Ep in E, B1.
    assert (k = l /\ ravel a p' = ravel b q') as [-> E'] by (assert (k = l) by nia; subst; split; lia).
    assert (length r = length p') as Lr by (rewrite (Forall2_length' _ _ _ Fr), (valid_length _ _ V1'); reflexivity).
    assert (length s' = length q') as Ls by (rewrite (Forall2_length' _ _ _ F'), (valid_length _ _ V2'); reflexivity).
    rewrite !bidx_cons by auto. cbn [ravel]. rewrite (R _ _ V1' V2' E'), (walk_prod _ _ _ _ _ W). reflexivity.
  - destruct (IH _ F) as (r & W & Fr & R). exists (1 :: r). split; [constructor; exact W|]. split; [constructor; auto; left; reflexivity|].
    intros p q V1 V2 E. inversion V1 as [|k ? p' ? Hk V1']; subst. assert (k = 0) by lia. subst k. cbn [ravel] in E.
    assert (length r = length p') as Lr by (rewrite (Forall2_length' _ _ _ Fr), (valid_length _ _ V1'); reflexivity).
    rewrite bidx_cons by auto. cbn [ravel Nat.eqb]. rewrite Nat.mul_0_l, Nat.add_0_l. apply R; auto.
  - inversion F as [|c ? s' ? Hc F']; subst. assert (c = 1) by (destruct Hc; auto). subst c. destruct (IH _ F') as (r & W & Fr & R).
    exists r. split; [constructor; exact W|]. split; [exact Fr|].
    intros p q V1 V2 E. inversion V2 as [|l ? q' ? Hl V2']; subst. assert (l = 0) by lia. subst l. cbn [ravel] in E.
    assert (length s' = length q') as Ls by (rewrite (Forall2_length' _ _ _ F'), (valid_length _ _ V2'); reflexivity).
    rewrite (bidx_cons 1) by auto. cbn [ravel Nat.eqb]. rewrite Nat.mul_0_l, Nat.add_0_l. apply R; auto.
Qed.
Lemma le1_prod r P : Forall2 le1 r P -> pos P -> prod r <= prod P /\ (prod r = prod P -> r = P).
Proof.
  induction 1 as [|a p r P Ha F IH]; intros Hp; cbn [prod]; [auto|]. apply pos_cons in Hp. destruct Hp as [H0 H1].
  destruct (IH H1) as [I1 I2]. pose proof (prod_pos _ H1) as Z. destruct Ha as [->| ->].
  - split; [nia|]. intros E. f_equal. apply I2. nia.
  - split; [nia|]. intros E. assert (p = 1) as -> by nia. f_equal. apply I2. lia.
Qed.
(** leading ones *)
Definition full (n : nat) (s : list nat) : list nat := repeat 1 (n - length s) ++ s.
Lemma align_plain P N m s : walk P N 0 0 m -> simple_pairs P N = m -> pos P -> length s <= length N -> Forall2 le1 (full (length N) s) N ->
  exists r, align P N s = Some r /\ walk r (full (length N) s) 0 0 m /\ length r = length P /\ prod r = prod s /\
    (forall p q, valid P p -> valid N q -> ravel P p = ravel N q -> ravel r (bidx r p) = ravel (full (length N) s) (bidx (full (length N) s) q)).
Proof.
  intros W Em Hp Ls F. destruct (walk_stretch _ _ _ _ _ W _ F) as (r & Wr & Fr & R).
  pose proof (Forall2_length' _ _ _ Fr) as Lr. pose proof (walk_prod _ _ _ _ _ Wr) as Er. unfold full in Er at 1. rewrite prod_ones in Er.
  exists r. split; [|repeat split; auto]. unfold align. destruct (Nat.eqb_spec (prod s) (prod P)) as [E|_].
  - f_equal. symmetry. apply (le1_prod _ _ Fr Hp). congruence.
  - rewrite Em. assert ((if length s <? length N then repeat 1 (length N - length s) ++ s else s) = full (length N) s) as ->.
    { unfold full. destruct (Nat.ltb_spec (length s) (length N)); [reflexivity|]. replace (length N - length s) with 0 by lia. reflexivity. }
    destruct (walk_pairs _ _ _ _ _ Wr) as (A1 & A2 & A3 & _).
    destruct (fill_spec m (full (length N) s) (repeat 1 (length P))) as (r' & -> & L' & R1 & R2).
    + apply sorted_fst, A2.
    + apply Forall_forall. intros [x y] Hxy. apply A1 in Hxy. cbn. rewrite repeat_length. lia.
    + f_equal. rewrite repeat_length in L'. apply list_eq_nth; [congruence|]. intros k Hk. rewrite L' in Hk.
      destruct (in_dec Nat.eq_dec k (map fst m)) as [Hin|Hout].
      * apply in_map_iff in Hin. destruct Hin as ([k' y] & Ek & Hin). cbn in Ek. subst k'. rewrite (R1 _ _ Hin).
        apply A1 in Hin. rewrite !Nat.sub_0_r in Hin. symmetry. apply Hin.
      * rewrite R2 by exact Hout. rewrite nth_rep by exact Hk. destruct (Nat.eq_dec (nth k r 0) 1) as [E|n]; [auto|].
        exfalso. apply Hout. apply (A3 k); [lia|exact n].
Qed.
Lemma walk_nth r s m k : walk r s 0 0 m -> k < length r ->
  (exists y, In (k, y) m /\ nth k r 0 = nth y s 0) \/ (~ In k (map fst m) /\ nth k r 0 = 1).
Proof.
  intros W Hk. destruct (walk_pairs _ _ _ _ _ W) as (A1 & A2 & A3 & _).
  destruct (in_dec Nat.eq_dec k (map fst m)) as [Hin|Hout].
  - left. apply in_map_iff in Hin. destruct Hin as ([k' y] & Ek & Hin). cbn in Ek. subst k'. exists y. split; auto.
    apply A1 in Hin. rewrite !Nat.sub_0_r in Hin. apply Hin.
  - right. split; auto. destruct (Nat.eq_dec (nth k r 0) 1) as [E|n]; [auto|]. exfalso. apply Hout. apply (A3 k); [lia|exact n].
Qed.
Lemma pair_unique m k y y' : StronglySorted (fun p q : nat * nat => fst p < fst q /\ snd p < snd q) m -> In (k, y) m -> In (k, y') m -> y = y'.
Proof.
  induction 1 as [|p m H IH F]; [intros []|]. rewrite Forall_forall in F. intros [->|H1] [E|H2].
  - inversion E; auto.
  - apply F in H2. cbn in H2. lia.
  - subst p. apply F in H1. cbn in H1. lia.
  - auto.
Qed.
Lemma bdim_le1 a b n : bdim a b = Some n -> le1 a n /\ le1 b n.
Proof. unfold bdim, le1. destruct (Nat.eqb_spec a b); [intros H; inversion H; subst; auto|]. destruct (Nat.eqb_spec a 1); [intros H; inversion H; subst; auto|]. destruct (Nat.eqb_spec b 1); [intros H; inversion H; subst; auto|discriminate]. Qed.
Lemma full_bshape a b s : bshape a b = Some s -> bshape (full (length s) a) (full (length s) b) = Some s.
Proof.
  intros E. destruct (bshape_length _ _ _ E) as [La Lb]. unfold full, bshape in *. rewrite !rev_app_distr, !rev_repeat.
  destruct (bshape_rev (rev a) (rev b)) as [r|] eqn:Er; [|discriminate]. injection E as <-. rewrite rev_length in *.
  rewrite (bshape_rev_ext _ _ _ _ _ Er) by (rewrite rev_length; lia). reflexivity.
Qed.
Lemma full_length n s : length s <= n -> length (full n s) = n.
Proof. intros H. unfold full. rewrite app_length, repeat_length. lia. Qed.
Lemma full_le1 a b s : bshape a b = Some s -> Forall2 le1 (full (length s) a) s /\ Forall2 le1 (full (length s) b) s.
Proof.
  intros E. destruct (bshape_length _ _ _ E) as [La Lb]. apply full_bshape in E.
  destruct (bshape_eqlen _ _ _ (eq_trans (full_length _ _ La) (eq_sym (full_length _ _ Lb))) E) as [Ls H]. rewrite full_length in H by exact La.
  assert (forall l, length l = length s -> (forall k, k < length s -> le1 (nth k l 0) (nth k s 0)) -> Forall2 le1 l s) as G.
  { clear. intros l. revert s. induction l as [|x l IH]; intros [|y s] L G; cbn in L; try lia; constructor; [apply (G 0); cbn; lia|]. apply IH; [lia|]. intros k Hk. apply (G (S k)). cbn. lia. }
  split; apply G; try (apply full_length; auto); intros k Hk; apply (bdim_le1 _ _ _ (H k Hk)).
Qed.

Section Binary.
  Context {A B C : Type} (f : A -> B -> C) (x : tensor A) (y : tensor B) (z : tensor C) (P : list nat) (m : list (nat * nat)).
  Hypothesis Hz : binop f x y = Some z.
  Hypothesis Hp : pos P.
  Hypothesis W : walk P (tshape z) 0 0 m.
  Hypothesis Em : simple_pairs P (tshape z) = m.

  Lemma bin_bshape : bshape (tshape x) (tshape y) = Some (tshape z).
  Proof using Hz. unfold binop in Hz. destruct (bshape (tshape x) (tshape y)); [|discriminate]. inversion Hz. reflexivity. Qed.
  Lemma bin_get q : tget z q = f (tget x (bidx (tshape x) q)) (tget y (bidx (tshape y) q)).
  Proof using Hz. unfold binop in Hz. destruct (bshape (tshape x) (tshape y)); [|discriminate]. inversion Hz. reflexivity. Qed.

  Lemma bin_read {T} (t : tensor T) r : prod r = prod (tshape t) -> length (tshape t) <= length (tshape z) ->
    (forall q, valid (tshape z) q -> valid (tshape t) (bidx (tshape t) q)) ->
    (forall p q, valid P p -> valid (tshape z) q -> ravel P p = ravel (tshape z) q ->
       ravel r (bidx r p) = ravel (full (length (tshape z)) (tshape t)) (bidx (full (length (tshape z)) (tshape t)) q)) ->
    forall p q, valid P p -> valid (tshape z) q -> ravel P p = ravel (tshape z) q -> tget (reshape r t) (bidx r p) = tget t (bidx (tshape t) q).
  Proof using.
    intros Er Lt HV H p q V1 V2 E. cbn [tget reshape]. f_equal. rewrite (H p q V1 V2 E). unfold full.
    rewrite bidx_ones by (rewrite (valid_length _ _ V2); lia). rewrite ravel_ones by (apply HV; exact V2). apply unravel_ravel, HV, V2.
  Qed.

  Lemma bin_operands : exists rx ry, rp_operand KOther P (tshape z) x = Some (reshape rx x) /\ rp_operand KOther P (tshape z) y = Some (reshape ry y) /\
    bshape rx ry = Some P /\ length rx = length P /\ length ry = length P /\
    walk ry (full (length (tshape z)) (tshape y)) 0 0 m /\ walk rx (full (length (tshape z)) (tshape x)) 0 0 m /\
    (forall p q, valid P p -> valid (tshape z) q -> ravel P p = ravel (tshape z) q ->
       tget (reshape rx x) (bidx rx p) = tget x (bidx (tshape x) q) /\ tget (reshape ry y) (bidx ry p) = tget y (bidx (tshape y) q)).
  Proof using Hz Hp W Em.
    pose proof bin_bshape as E. destruct (bshape_length _ _ _ E) as [Lx Ly]. destruct (full_le1 _ _ _ E) as [Fx Fy].
    destruct (align_plain P (tshape z) m (tshape x) W Em Hp Lx Fx) as (rx & Ax & Wx & Lrx & Px & Rx).
    destruct (align_plain P (tshape z) m (tshape y) W Em Hp Ly Fy) as (ry & Ay & Wy & Lry & Py & Ry).
    exists rx, ry. split; [unfold rp_operand; rewrite Ax; cbn [obind]; unfold np_reshape; rewrite Px, Nat.eqb_refl; reflexivity|].
    split; [unfold rp_operand; rewrite Ay; cbn [obind]; unfold np_reshape; rewrite Py, Nat.eqb_refl; reflexivity|].
    split; [|split; [exact Lrx|split; [exact Lry|split; [exact Wy|split; [exact Wx|]]]]].
    - apply bshape_intro; try congruence. intros k Hk. pose proof (full_bshape _ _ _ E) as E'.
      destruct (bshape_eqlen _ _ _ (eq_trans (full_length _ _ Lx) (eq_sym (full_length _ _ Ly))) E') as [_ H]. rewrite full_length in H by exact Lx.
      destruct (walk_pairs _ _ _ _ _ W) as (A1 & A2 & _).
      destruct (walk_nth rx _ _ k Wx Hk) as [(v & I1 & E1)|(I1 & E1)]; destruct (walk_nth ry _ _ k Wy ltac:(lia)) as [(v2 & I2 & E2)|(I2 & E2)];
      destruct (walk_nth P _ _ k W ltac:(lia)) as [(v3 & I3 & E3)|(I3 & E3)];
      try (exfalso; match goal with | H1 : In (k, ?v) m, H2 : ~ In k (map fst m) |- _ => apply H2; apply (in_map fst) in H1; exact H1 end).
      + pose proof (pair_unique _ _ _ _ A2 I1 I2). pose proof (pair_unique _ _ _ _ A2 I1 I3). subst v2 v3. rewrite E1, E2, E3. apply H.
        apply A1 in I1. lia.
      + rewrite E1, E2, E3. reflexivity.
    - intros p q V1 V2 Er. split.
      + apply bin_read; auto. intros q' V'. apply (bidx_valid _ _ _ _ E V').
      + apply bin_read; auto. intros q' V'. apply (bidx_valid _ _ _ _ E V').
  Qed.

  Lemma bin_moved : P <> [] -> forall whole, exists x' y' z', rp_binary whole P (tshape z) (tshape z) x y = Some (x', y') /\ binop f x' y' = Some z' /\ restored P z' z.
  Proof using Hz Hp W Em.
    intros HP whole. destruct bin_operands as (rx & ry & Ox & Oy & Es & Lrx & Lry & Wy & Wx & R).
    pose proof (walk_prod _ _ _ _ _ W) as Ep. unfold rp_binary. rewrite (recorded_plain _ _ Hp Ep). cbn [obind]. rewrite Ox, Oy. cbn [obind].
    assert (forall (r : list nat) (s : list nat), s = [1] -> walk r (full (length (tshape z)) s) 0 0 m -> length r = length P -> forall k, k < length P -> nth k r 0 = 1) as Hones.
    { intros r s -> Wr Lr k Hk. destruct (walk_nth _ _ _ k Wr ltac:(lia)) as [(v & I1 & E1)|(I1 & E1)]; [|exact E1].
      rewrite E1. destruct (walk_pairs _ _ _ _ _ Wr) as (A1 & _). apply A1 in I1. unfold full in *. rewrite app_length, repeat_length in I1. cbn [length] in *.
      destruct (lt_dec v (length (tshape z) - 1)) as [L|L]; [rewrite app_nth1 by (rewrite repeat_length; lia); apply nth_rep; lia|].
      rewrite app_nth2 by (rewrite repeat_length; lia). rewrite repeat_length. replace (v - (length (tshape z) - 1)) with 0 by lia. reflexivity. }
    destruct (negb whole && is_one (tshape y)) eqn:Oney; [|destruct (negb whole && is_one (tshape x)) eqn:Onex].
    - apply andb_true_iff in Oney. destruct Oney as [_ Oney]. apply is_one_spec in Oney.
      assert (rx = P) as Erx.
      { apply list_eq_nth; [auto|]. intros k Hk. destruct (bshape_eqlen _ _ _ (eq_trans Lrx (eq_sym Lry)) Es) as [_ H]. specialize (H k Hk).
        rewrite (Hones ry (tshape y) Oney Wy Lry k) in H by lia. rewrite bdim_1r in H. inversion H. reflexivity. }
      rewrite Erx in *. exists (reshape P x), y. unfold binop. rewrite Oney. change (tshape (reshape P x)) with P. rewrite (bshape_one P HP). eexists. split; [reflexivity|]. split; [reflexivity|].
      split; [apply recorded_plain; auto|]. apply (back_gen P); [exact Ep|reflexivity|]. intros p q V1 V2 E. cbn [tget]. rewrite bin_get.
      destruct (R p q V1 V2 E) as [Rx _]. rewrite Rx. f_equal. rewrite Oney.
      assert (p <> []) as Np by (apply valid_length in V1; intros ->; destruct P; [congruence|discriminate]).
      pose proof bin_bshape as Eb. rewrite Oney in Eb. destruct (bshape_length _ _ _ Eb) as [_ Lb].
      assert (q <> []) as Nq by (apply valid_length in V2; intros ->; cbn in *; lia).
      rewrite !bidx_one by auto. reflexivity.
    - apply andb_true_iff in Onex. destruct Onex as [_ Onex]. apply is_one_spec in Onex.
      assert (ry = P) as Ery.
      { apply list_eq_nth; [auto|]. intros k Hk. destruct (bshape_eqlen _ _ _ (eq_trans Lrx (eq_sym Lry)) Es) as [_ H]. specialize (H k ltac:(lia)).
        rewrite (Hones rx (tshape x) Onex Wx Lrx k) in H by lia. rewrite bdim_1l in H. inversion H. reflexivity. }
      rewrite Ery in *. exists x, (reshape P y). unfold binop. rewrite Onex. change (tshape (reshape P y)) with P. rewrite bshape_comm, (bshape_one P HP). eexists. split; [reflexivity|]. split; [reflexivity|].
      split; [apply recorded_plain; auto|]. apply (back_gen P); [exact Ep|reflexivity|]. intros p q V1 V2 E. cbn [tget]. rewrite bin_get.
      destruct (R p q V1 V2 E) as [_ Ry]. rewrite Ry. f_equal. rewrite Onex.
      assert (p <> []) as Np by (apply valid_length in V1; intros ->; destruct P; [congruence|discriminate]).
      pose proof bin_bshape as Eb. rewrite Onex in Eb. destruct (bshape_length _ _ _ Eb) as [Lb _].
      assert (q <> []) as Nq by (apply valid_length in V2; intros ->; cbn in *; lia).
      rewrite !bidx_one by auto. reflexivity.
    - exists (reshape rx x), (reshape ry y). unfold binop. cbn [tshape reshape]. rewrite Es. eexists. split; [reflexivity|]. split; [reflexivity|].
      split; [apply recorded_plain; auto|]. apply (back_gen P); [exact Ep|reflexivity|]. intros p q V1 V2 E. cbn [tget]. rewrite bin_get.
      destruct (R p q V1 V2 E) as [Rx Ry]. rewrite Rx, Ry. reflexivity.
  Qed.
End Binary.
Lemma binary_moved {A B C} (f : A -> B -> C) whole x y z P : binop f x y = Some z -> pos (tshape z) -> P <> [] ->
  offered KOther None [tshape x; tshape y] [tshape z] P (tshape z) ->
  exists x' y' z', rp_binary whole P (tshape z) (tshape z) x y = Some (x', y') /\ binop f x' y' = Some z' /\ restored P z' z.
Proof.
  intros Hz Hp HP Hof. destruct (offered_None _ _ _ _ _ Hof) as [EF _].
  destruct (proj2 (proj1 (simple_reshape_correct _ _)) EF) as [m Em].
  apply (bin_moved f x y z P m Hz (filter_pos _ _ EF Hp) (is_simple_walk _ _ _ Em) (simple_pairs_spec _ _ _ Em) HP).
Qed.
