(** Proofs about the numbers that are recorded along a path. *)
From Coq Require Import List Arith Bool ZArith Lia.
From Verif Require Import Tensor PruneModel PruneIdxModel PruneTrackSpec PruneTrackModel PruneTrackPathSpec
  PruneTrackDetectProofs.
Import ListNotations.
Local Open Scope nat_scope.

(** * Lists *)
Lemma nth_map_seq {B} (f : nat -> B) b : forall n a k, k < n -> nth k (map f (seq a n)) b = f (a + k).
Proof.
  induction n as [|n IH]; intros a k H; [lia|]. destruct k as [|k]; simpl; [f_equal; lia|].
  rewrite IH by lia. f_equal. lia.
Qed.
Lemma dget_dims {B} (f : nat -> B) d : forall l, In d l -> dget d (map (fun d => (d, f d)) l) = Some (f d).
Proof.
  induction l as [|e l IH]; simpl; intros H; [contradiction|].
  destruct (Nat.eqb_spec d e) as [->|N]; [reflexivity|]. apply IH. destruct H; [congruence|assumption].
Qed.
Lemma dget_map {B C} (f : B -> C) d : forall l, dget d (map (fun e => (fst e, f (snd e))) l) = option_map f (dget d l).
Proof.
  induction l as [|[e v] l IH]; simpl; [reflexivity|]. destruct (d =? e); [reflexivity|exact IH].
Qed.
Lemma remove1_in x y : forall l, In y (remove1 x l) -> In y l.
Proof.
  induction l as [|a l IH]; simpl; [tauto|]. destruct (a =? x); simpl; tauto.
Qed.
Lemma zget_seq : forall l a k, k < length l ->
  zget (Z.of_nat (a + k)) (combine (map Z.of_nat (seq a (length l))) l) = Some (nth k l []).
Proof.
  induction l as [|v l IH]; intros a k H; simpl in *; [lia|].
  destruct (Z.eqb_spec (Z.of_nat (a + k)) (Z.of_nat a)) as [E|E].
  - assert (k = 0) by lia. subst. reflexivity.
  - destruct k as [|k]; [exfalso; apply E; f_equal; lia|].
    replace (a + S k) with (S a + k) by lia. apply IH. lia.
Qed.
Lemma zget_seq_in : forall l a z v, zget z (combine (map Z.of_nat (seq a (length l))) l) = Some v ->
  exists k, k < length l /\ z = Z.of_nat (a + k) /\ v = nth k l [].
Proof.
  induction l as [|u l IH]; intros a z v H; simpl in H; [discriminate|].
  destruct (Z.eqb_spec z (Z.of_nat a)) as [E|E].
  - inversion H; subst. exists 0. simpl. split; [lia|]. split; [f_equal; lia|reflexivity].
  - destruct (IH _ _ _ H) as [k [K [E1 E2]]]. exists (S k). simpl. split; [lia|]. split; [rewrite E1; f_equal; lia|exact E2].
Qed.

(** * The recorded sets *)
Definition lookup (tr : option transform) (z : Z) : pset :=
  match tr with None => [z] | Some tr => match zget z tr with Some v => v | None => [z] end end.
Record Inv (st : track) (D : depend) : Prop := {
  i_dims : forall d, In d (tk_dims st) -> d < length (tshape (tk_t st));
  i_con : forall c, tk_con st = Some c -> forall d, In d (tk_dims st) ->
          exists l, dget d c = Some l /\ says_all (tshape (tk_t st)) D d l;
  i_lab : forall i c, valid (tshape (tk_t st)) i -> D i c ->
          match tk_tr st with
          | None => tget (tk_t st) i = Z.of_nat c
          | Some tr => exists v, zget (tget (tk_t st) i) tr = Some v /\ In (Z.of_nat c) v
          end }.
Record XInv (st : track) (D : depend) : Prop := {
  x_pos : positive (tshape (tk_t st));
  x_neg : forall tr, tk_tr st = Some tr -> zget (-1)%Z tr = None;
  x_ne : forall tr z v, tk_tr st = Some tr -> zget z tr = Some v -> v <> [];
  x_con : forall c, tk_con st = Some c -> forall d, In d (tk_dims st) -> forall l, dget d c = Some l ->
          says_only (tshape (tk_t st)) D d l /\ forall k, k < nth d (tshape (tk_t st)) 0 -> nth k l [] <> [];
  x_lab : forall i z, valid (tshape (tk_t st)) i -> In z (lookup (tk_tr st) (tget (tk_t st) i)) ->
          z = (-1)%Z \/ exists c, z = Z.of_nat c /\ D i c }.

Definition the_tr (st : track) : transform := match tk_tr st with Some tr => tr | None => [] end.
Definition row (st : track) (d : nat) : list pset := map (redirect (the_tr st)) (dim_constraint (tk_t st) d).
Lemma update_row st d : tk_con st = None -> In d (tk_dims st) -> dget d (update_i st) = Some (row st d).
Proof.
  intros N H. unfold update_i. rewrite N, dget_map. unfold dim_constraints. rewrite dget_dims by exact H. reflexivity.
Qed.
Lemma row_nth st d k : k < nth d (tshape (tk_t st)) 0 ->
  nth k (row st d) [] = redirect (the_tr st) (nodup Z.eq_dec (map (tget (tk_t st)) (slice_of (tshape (tk_t st)) d k))).
Proof.
  intros H. unfold row, dim_constraint. rewrite map_map. rewrite nth_map_seq by exact H. reflexivity.
Qed.
Lemma row_length st d : length (row st d) = nth d (tshape (tk_t st)) 0.
Proof. unfold row, dim_constraint. rewrite !map_length, seq_length. reflexivity. Qed.
Lemma redirect_hit tr s z v x : In z s -> zget z tr = Some v -> In x v -> In x (redirect tr s).
Proof.
  intros H G X. unfold redirect.
  assert (Q : In x (flat_map (fun c => match zget c tr with Some v => v | None => [] end) s)).
  { apply in_flat_map. exists z. split; [exact H|]. rewrite G. exact X. }
  destruct (flat_map _ s); [contradiction|exact Q].
Qed.
Lemma redirect_from tr s x : In x (redirect tr s) ->
  (exists z v, In z s /\ zget z tr = Some v /\ In x v) \/
  (In x s /\ forall z v, In z s -> zget z tr = Some v -> v = []).
Proof.
  unfold redirect. destruct (flat_map (fun c => match zget c tr with Some v => v | None => [] end) s) as [|a r] eqn:E.
  - intros H. right. split; [exact H|]. intros z v Hz G. destruct v as [|y v]; [reflexivity|]. exfalso.
    assert (Q : In y (flat_map (fun c => match zget c tr with Some v => v | None => [] end) s)).
    { apply in_flat_map. exists z. split; [exact Hz|]. rewrite G. left. reflexivity. }
    rewrite E in Q. exact Q.
  - rewrite <- E. intros H. left. apply in_flat_map in H. destruct H as [z [Hz X]].
    destruct (zget z tr) as [v|] eqn:G; [|contradiction]. exists z, v. repeat split; assumption.
Qed.
Lemma redirect_nil tr s : s <> [] -> redirect tr s <> [].
Proof. unfold redirect. intros N. destruct (flat_map _ s); [exact N|discriminate]. Qed.

Lemma update_sound st D d : Inv st D -> In d (tk_dims st) ->
  exists l, dget d (update_i st) = Some l /\ says_all (tshape (tk_t st)) D d l.
Proof.
  intros I H. destruct (tk_con st) as [c|] eqn:C.
  - unfold update_i. rewrite C. exact (i_con _ _ I c C d H).
  - exists (row st d). split; [apply update_row; assumption|]. split; [apply row_length|].
    intros k c [i [V [E P]]].
    assert (Hk : k < nth d (tshape (tk_t st)) 0) by (rewrite <- E; apply valid_nth; [exact V|apply (i_dims _ _ I); exact H]).
    rewrite row_nth by exact Hk.
    assert (Q : In (tget (tk_t st) i) (nodup Z.eq_dec (map (tget (tk_t st)) (slice_of (tshape (tk_t st)) d k)))).
    { apply nodup_In. apply in_map. apply in_slice_iff. split; assumption. }
    pose proof (i_lab _ _ I i c V P) as L. unfold the_tr. destruct (tk_tr st) as [tr|].
    + destruct L as [v [G X]]. exact (redirect_hit _ _ _ _ _ Q G X).
    + unfold redirect.
      assert (F : forall s : pset, flat_map (fun c => match zget c [] with Some v => v | None => [] end) s = [])
        by (induction s; simpl; auto).
      rewrite F. rewrite <- L. exact Q.
Qed.
Lemma slice_ne s d k : positive s -> d < length s -> k < nth d s 0 -> slice_of s d k <> [].
Proof.
  intros P Hd Hk E.
  assert (Q : In (upd (map (fun _ => 0) s) d k) (slice_of s d k)).
  { apply in_slice_iff. split; [apply valid_upd_same; [apply zeros_valid; exact P|exact Hk]|].
    apply upd_nth_eq. rewrite map_length. exact Hd. }
  rewrite E in Q. exact Q.
Qed.
Lemma update_exact st D d l : Inv st D -> XInv st D -> In d (tk_dims st) -> dget d (update_i st) = Some l ->
  says_only (tshape (tk_t st)) D d l /\ forall k, k < nth d (tshape (tk_t st)) 0 -> nth k l [] <> [].
Proof.
  intros I X H G. destruct (tk_con st) as [c|] eqn:C.
  - unfold update_i in G. rewrite C in G. exact (x_con _ _ X c C d H l G).
  - rewrite update_row in G by assumption. inversion G; subst l; clear G.
    assert (Hd := i_dims _ _ I d H). split.
    + intros k z Hk Hz. rewrite row_nth in Hz by exact Hk. apply redirect_from in Hz.
      assert (A : forall i, In i (slice_of (tshape (tk_t st)) d k) -> In z (lookup (tk_tr st) (tget (tk_t st) i)) ->
                  z = (-1)%Z \/ exists c, z = Z.of_nat c /\ reaches (tshape (tk_t st)) D d k c).
      { intros i Hi L. apply in_slice_iff in Hi. destruct Hi as [V E].
        destruct (x_lab _ _ X i z V L) as [->|[c [-> P]]]; [left; reflexivity|].
        right. exists c. split; [reflexivity|]. exists i. repeat split; assumption. }
      destruct Hz as [[y [v [Hy [Gy Z]]]]|[Hy Ny]]; apply nodup_In in Hy; apply in_map_iff in Hy;
        destruct Hy as [i [<- Hi]]; apply (A i Hi); unfold lookup, the_tr in *; destruct (tk_tr st) as [tr|] eqn:T.
      * rewrite Gy. exact Z.
      * simpl in Gy. discriminate.
      * assert (B : In (tget (tk_t st) i) (nodup Z.eq_dec (map (tget (tk_t st)) (slice_of (tshape (tk_t st)) d k))))
          by (apply nodup_In; apply in_map; exact Hi).
        destruct (zget (tget (tk_t st) i) tr) as [v|] eqn:Gz; [|left; reflexivity].
        pose proof (Ny _ _ B Gz) as E. subst v. exfalso. exact (x_ne _ _ X tr _ _ T Gz eq_refl).
      * left. reflexivity.
    + intros k Hk. rewrite row_nth by exact Hk. apply redirect_nil. intros E.
      pose proof (slice_ne _ _ _ (x_pos _ _ X) Hd Hk) as N.
      destruct (slice_of (tshape (tk_t st)) d k) as [|i r]; [apply N; reflexivity|].
      assert (Q : In (tget (tk_t st) i) (nodup Z.eq_dec (map (tget (tk_t st)) (i :: r)))) by (apply nodup_In; left; reflexivity).
      rewrite E in Q. exact Q.
Qed.

(** * One node *)
Lemma refill_sound st D out d w (con : list (nat * list pset)) (l : list pset) keep st' :
  d < length (tshape (tk_t st)) -> dget d con = Some l -> says_all (tshape (tk_t st)) D d l ->
  in_slice (tshape (tk_t st)) out d w ->
  (keep = None \/ keep = Some con /\ nth d out 0 = nth d (tshape (tk_t st)) 0) ->
  refill out [d] con keep = Some st' -> Inv st' (through w D).
Proof.
  intros Hd G [L A] [R W] K E. change (@length pset l = nth d (tshape (tk_t st)) 0) in L. unfold refill, transform_of in E. rewrite G in E. simpl in E. inversion E; subst st'; clear E.
  constructor; simpl.
  - intros e [<-|[]]. lia.
  - intros c Hc e [<-|[]]. destruct K as [K|[K K2]]; [congruence|]. rewrite K in Hc. inversion Hc; subst c.
    exists l. split; [exact G|]. split; [rewrite K2; exact L|].
    intros k c [i [V [Ei [j [Wj Dj]]]]]. destruct (W i j V Wj) as [Vj Ej].
    apply A. exists j. split; [exact Vj|]. split; [congruence|exact Dj].
  - intros i c V [j [Wj Dj]]. destruct (W i j V Wj) as [Vj Ej].
    exists (nth (nth d i 0) l []). split.
    + rewrite Z.add_0_r. apply (zget_seq l 0). rewrite <- Ej, L. apply valid_nth; assumption.
    + apply A. exists j. repeat split; assumption.
Qed.
Lemma nth_combine (s l : list nat) : forall a, a < length s -> a < length l -> nth a (combine s l) (0, 0) = (nth a s 0, nth a l 0).
Proof.
  revert l. induction s as [|x s IH]; intros [|y l] [|a] H1 H2; simpl in *; try lia; [reflexivity|apply IH; lia].
Qed.
Lemma nth_skipn_add (i : list nat) : forall n a, nth a (skipn n i) 0 = nth (n + a) i 0.
Proof.
  induction i as [|x i IH]; intros [|n] a; simpl; try reflexivity; [destruct a; reflexivity|apply IH].
Qed.
Lemma bidx_aligned s out i j : length s <= length out -> length i = length out -> aligned s out i j -> bidx s i = j.
Proof.
  intros Hl Li [V A].
  assert (Lb : length (bidx s i) = length s).
  { unfold bidx. rewrite map_length, combine_length, skipn_length. lia. }
  apply list_eq_nth; [rewrite Lb; symmetry; apply valid_length; exact V|].
  intros a Ha. rewrite Lb in Ha. unfold bidx.
  rewrite nth_indep with (d' := (fun e : nat * nat => if fst e =? 1 then 0 else snd e) (0, 0))
    by (rewrite map_length, combine_length, skipn_length; lia).
  rewrite (map_nth (fun e : nat * nat => if fst e =? 1 then 0 else snd e)).
  rewrite nth_combine by (rewrite ?skipn_length; lia). simpl. rewrite nth_skipn_add, Li.
  destruct (Nat.eqb_spec (nth a s 0) 1) as [E|E].
  - pose proof (valid_nth _ _ a V Ha). lia.
  - destruct (A a Ha) as [B|B]; [contradiction|]. symmetry. exact B.
Qed.
Lemma bidx_is_aligned s out i : bcast_ok s out = true -> positive s -> valid out i -> aligned s out i (bidx s i).
Proof.
  intros B P V. unfold bcast_ok in B. apply andb_prop in B. destruct B as [B1 B2]. apply Nat.leb_le in B1.
  assert (Li := valid_length _ _ V).
  assert (Lb : length (bidx s i) = length s).
  { unfold bidx. rewrite map_length, combine_length, skipn_length. lia. }
  assert (N : forall a, a < length s -> nth a (bidx s i) 0 = if nth a s 0 =? 1 then 0 else nth (length out - length s + a) i 0).
  { intros a Ha. unfold bidx.
    rewrite nth_indep with (d' := (fun e : nat * nat => if fst e =? 1 then 0 else snd e) (0, 0))
      by (rewrite map_length, combine_length, skipn_length; lia).
    rewrite (map_nth (fun e : nat * nat => if fst e =? 1 then 0 else snd e)).
    rewrite nth_combine by (rewrite ?skipn_length; lia). simpl. rewrite nth_skipn_add, Li. reflexivity. }
  split.
  - apply valid_intro; [exact Lb|]. intros a Ha. rewrite N by exact Ha.
    destruct (Nat.eqb_spec (nth a s 0) 1) as [E|E]; [lia|].
    rewrite forallb_forall in B2.
    assert (Q : In (nth a s 0, nth a (skipn (length out - length s) out) 0) (combine s (skipn (length out - length s) out))).
    { rewrite <- nth_combine by (rewrite ?skipn_length; lia). apply nth_In. rewrite combine_length, skipn_length. lia. }
    apply B2 in Q. simpl in Q. apply orb_prop in Q. destruct Q as [Q|Q]; apply Nat.eqb_eq in Q; [contradiction|].
    rewrite Q, nth_skipn_add. apply valid_nth; [exact V|lia].
  - intros a Ha. rewrite N by exact Ha. destruct (Nat.eqb_spec (nth a s 0) 1); [left; assumption|right; reflexivity].
Qed.
Lemma bcast_len s out : bcast_ok s out = true -> length s <= length out.
Proof. intros B. apply andb_prop in B. apply Nat.leb_le. tauto. Qed.

Lemma same_sound st D out w st' : Inv st D -> pstep (NSame out) st = Some (Some st') -> wired (NSame out) w st ->
  Inv st' (through w D).
Proof.
  intros I E [W C]. cbn [pstep] in E. destruct (bcast_ok (tshape (tk_t st)) out) eqn:B; [|discriminate].
  cbn [negb] in E. apply bcast_len in B.
  assert (LAB : forall i c, valid out i -> through w D i c ->
            match tk_tr st with
            | None => tget (tk_t st) (bidx (tshape (tk_t st)) i) = Z.of_nat c
            | Some tr => exists v, zget (tget (tk_t st) (bidx (tshape (tk_t st)) i)) tr = Some v /\ In (Z.of_nat c) v
            end).
  { intros i c V [j [Wj Dj]]. pose proof (W i j V Wj) as A.
    rewrite (bidx_aligned _ _ _ _ B (valid_length _ _ V) A). apply (i_lab _ _ I); [apply A|exact Dj]. }
  destruct C as [[L S]|[L [H1 [d [Ed S]]]]].
  - replace (length (tshape (tk_t st)) <? length out) with false in E by (symmetry; apply Nat.ltb_ge; lia).
    cbn [andb] in E. inversion E; subst st'; clear E. constructor; simpl.
    + intros d Hd. rewrite L. apply (i_dims _ _ I); exact Hd.
    + intros c Ec d Hd. inversion Ec; subst c; clear Ec.
      destruct (update_sound _ _ d I Hd) as [l [G [Ll A]]]. exists l. split; [exact G|].
      split; [rewrite S by exact Hd; exact Ll|].
      intros k c [i [V [Ei [j [Wj Dj]]]]]. apply A. exists j. destruct (W i j V Wj) as [Vj Aj].
      split; [exact Vj|]. split; [|exact Dj]. assert (Q := i_dims _ _ I d Hd).
      destruct (Aj d Q) as [Q1|Q1].
      * pose proof (valid_nth _ _ d Vj Q). pose proof (valid_nth _ _ d V ltac:(lia)) as Y.
        rewrite (S d Hd) in Y. lia.
      * rewrite Q1, <- Ei. f_equal. lia.
    + exact LAB.
  - replace (length (tshape (tk_t st)) <? length out) with true in E by (symmetry; apply Nat.ltb_lt; lia).
    rewrite H1 in E. cbn [Nat.eqb andb] in E. inversion E; subst st'; clear E. rewrite Ed.
    assert (Hd : In d (tk_dims st)) by (rewrite Ed; left; reflexivity).
    assert (Q := i_dims _ _ I d Hd).
    destruct (update_sound _ _ d I Hd) as [l [G [Ll A]]].
    constructor; simpl.
    + intros e [<-|[]]. lia.
    + intros c Ec e [<-|[]]. inversion Ec; subst c; clear Ec. rewrite G. exists l. simpl. rewrite Nat.eqb_refl.
      split; [reflexivity|]. split; [rewrite S; exact Ll|].
      intros k c [i [V [Ei [j [Wj Dj]]]]]. apply A. exists j. destruct (W i j V Wj) as [Vj Aj].
      split; [exact Vj|]. split; [|exact Dj].
      destruct (Aj d Q) as [Q1|Q1].
      * pose proof (valid_nth _ _ d Vj Q). pose proof (valid_nth _ _ (Datatypes.S d) V ltac:(lia)) as Y. lia.
      * rewrite Q1, <- Ei. f_equal. lia.
    + exact LAB.
Qed.
Lemma index_sound st D f w st' : Inv st D -> pstep (NIndex f) st = Some (Some st') -> wired (NIndex f) w st ->
  Inv st' (through w D).
Proof.
  intros I E W. cbn [pstep] in E. destruct (dim_changes (f (tk_t st))) as [|d ds] eqn:C; [discriminate|].
  inversion E; subst st'; clear E. constructor; cbn [tk_t tk_dims tk_tr tk_con].
  - intros e He. rewrite <- C in He. apply in_dim_changes in He. apply He.
  - discriminate.
  - intros i c V [j [Wj Dj]]. destruct (W (tk_t st) i j eq_refl V Wj) as [Vj Ej]. rewrite Ej.
    apply (i_lab _ _ I); assumption.
Qed.
Lemma cat_sound st D dim fr ba w st' : Inv st D -> pstep (NCat dim fr ba) st = Some (Some st') ->
  wired (NCat dim fr ba) w st -> Inv st' (through w D).
Proof.
  intros I E [W T]. cbn [pstep] in E. destruct (existsb (Nat.eqb dim) (tk_dims st)) eqn:X; [|discriminate].
  apply existsb_exists in X. destruct X as [e [He X]]. apply Nat.eqb_eq in X. subst e.
  assert (Hd := i_dims _ _ I dim He).
  inversion E; subst st'; clear E. constructor; cbn [tk_t tk_dims tk_tr tk_con].
  - intros e H. apply in_dim_changes in H. apply H.
  - discriminate.
  - intros i c V [j [Wj Dj]]. destruct (W i j V Wj) as [Vj Ej].
    assert (K : nth dim i 0 = axis_sum dim fr + nth dim j 0).
    { rewrite Ej. apply upd_nth_eq. rewrite (valid_length _ _ Vj). exact Hd. }
    assert (B := valid_nth _ _ dim Vj Hd).
    assert (L : tget (cat_labels dim fr ba (tk_t st)) i = tget (tk_t st) j).
    { unfold cat_labels; cbn [tget]. rewrite K.
      replace (axis_sum dim fr <=? axis_sum dim fr + nth dim j 0) with true by (symmetry; apply Nat.leb_le; lia).
      replace (axis_sum dim fr + nth dim j 0 <? axis_sum dim fr + nth dim (tshape (tk_t st)) 0) with true
        by (symmetry; apply Nat.ltb_lt; lia).
      cbn [andb]. f_equal. rewrite Ej, upd_upd.
      replace (axis_sum dim fr + nth dim j 0 - axis_sum dim fr) with (nth dim j 0) by lia.
      apply upd_same. rewrite (valid_length _ _ Vj). exact Hd. }
    rewrite L. pose proof (i_lab _ _ I j c Vj Dj) as Q. destruct T as [T|T].
    + rewrite T in *. exact Q.
    + subst fr. destruct (tk_tr st); exact Q.
Qed.
Lemma step_sound n st D w st' : Inv st D -> pstep n st = Some (Some st') -> wired n w st -> Inv st' (through w D).
Proof.
  intros I E W. destruct n as [out|f|out|out|out|dim_c out|dim fr ba].
  - eapply same_sound; eassumption.
  - eapply index_sound; eassumption.
  - destruct W as [d [Ed W]]. cbn [left_dims] in Ed. cbn [pstep] in E. rewrite Ed in E.
    destruct (refill out [d] (update_i st) None) as [s1|] eqn:R; [|discriminate]. inversion E; subst s1; clear E.
    assert (Hd : In d (tk_dims st)) by (rewrite Ed; left; reflexivity).
    destruct (update_sound _ _ d I Hd) as [l [G A]].
    exact (refill_sound _ _ _ _ _ _ _ _ _ (i_dims _ _ I d Hd) G A W (or_introl eq_refl) R).
  - destruct W as [d [Ed W]]. cbn [left_dims] in Ed. cbn [pstep] in E. rewrite Ed in E.
    destruct d as [|[|d]]; try discriminate.
    destruct (refill out [1] (update_i st) None) as [s1|] eqn:R; [|discriminate]. inversion E; subst s1; clear E.
    assert (Hd : In 1 (tk_dims st)) by (rewrite Ed; left; reflexivity).
    destruct (update_sound _ _ 1 I Hd) as [l [G A]].
    exact (refill_sound _ _ _ _ _ _ _ _ _ (i_dims _ _ I 1 Hd) G A W (or_introl eq_refl) R).
  - destruct W as [d [Ed [W O]]]. cbn [left_dims] in Ed. cbn [pstep] in E. rewrite Ed in E.
    set (st1 := mkTrack (tk_t st) [d] (tk_tr st) (tk_con st)) in *.
    destruct (refill out [d] (update_i st1) (Some (update_i st1))) as [s1|] eqn:R; [|discriminate].
    inversion E; subst s1; clear E.
    assert (Hd : In d (tk_dims st)).
    { apply (remove1_in 2). apply (remove1_in 3). rewrite Ed. left. reflexivity. }
    assert (I1 : Inv st1 D).
    { constructor; simpl.
      - intros e [<-|[]]. exact (i_dims _ _ I d Hd).
      - intros c C e [<-|[]]. exact (i_con _ _ I c C d Hd).
      - exact (i_lab _ _ I). }
    destruct (update_sound st1 D d I1 (or_introl eq_refl)) as [l [G A]].
    exact (refill_sound st1 D _ _ _ _ _ _ _ (i_dims _ _ I d Hd) G A W (or_intror (conj eq_refl O)) R).
  - destruct W as [d [Ed W]]. cbn [left_dims] in Ed. cbn [pstep] in E. rewrite Ed in E.
    destruct (refill out [d] (update_i st) None) as [s1|] eqn:R; [|discriminate]. inversion E; subst s1; clear E.
    assert (Hd : In d (tk_dims st)) by (apply (remove1_in dim_c); rewrite Ed; left; reflexivity).
    destruct (update_sound _ _ d I Hd) as [l [G A]].
    exact (refill_sound _ _ _ _ _ _ _ _ _ (i_dims _ _ I d Hd) G A W (or_introl eq_refl) R).
  - eapply cat_sound; eassumption.
Qed.

(** * Nothing too much *)
Lemma refill_exact st D out d w (con : list (nat * list pset)) (l : list pset) keep st' :
  d < length (tshape (tk_t st)) -> dget d con = Some l -> says_all (tshape (tk_t st)) D d l ->
  says_only (tshape (tk_t st)) D d l -> (forall k, k < nth d (tshape (tk_t st)) 0 -> nth k l [] <> []) ->
  in_slice (tshape (tk_t st)) out d w -> positive out -> nth d out 0 = nth d (tshape (tk_t st)) 0 ->
  (forall i j c, valid out i -> valid (tshape (tk_t st)) j -> nth d i 0 = nth d j 0 -> D j c -> through w D i c) ->
  (keep = None \/ keep = Some con) ->
  refill out [d] con keep = Some st' -> XInv st' (through w D).
Proof.
  intros Hd G [L _] O N [R W] P S F K E. change (@length pset l = nth d (tshape (tk_t st)) 0) in L.
  unfold refill, transform_of in E. rewrite G in E. simpl in E. inversion E; subst st'; clear E.
  assert (Hd' : d < length out) by lia.
  constructor; simpl.
  - exact P.
  - intros tr E. inversion E; subst tr.
    destruct (zget (-1)%Z (combine (map Z.of_nat (seq 0 (length l))) l)) eqn:Q; [|reflexivity].
    apply zget_seq_in in Q. destruct Q as [k [_ [Q _]]]. lia.
  - intros tr z v E Q. inversion E; subst tr. apply zget_seq_in in Q. destruct Q as [k [Hk [_ ->]]].
    apply N. rewrite <- L. exact Hk.
  - intros c Hc e [<-|[]] l' G'. destruct K as [K|K]; [congruence|]. rewrite K in Hc. inversion Hc; subst c.
    rewrite G in G'. inversion G'; subst l'; clear G'. rewrite S. split; [|exact N].
    intros k z Hk Hz. rewrite S in Hk. destruct (O k z Hk Hz) as [->|[c [-> [j [Vj [Ej Dj]]]]]]; [left; reflexivity|].
    right. exists c. split; [reflexivity|].
    set (i := upd (map (fun _ => 0) out) d k).
    assert (V : valid out i) by (apply valid_upd_same; [apply zeros_valid; exact P|lia]).
    assert (Ei : nth d i 0 = k) by (apply upd_nth_eq; rewrite map_length; exact Hd').
    exists i. split; [exact V|]. split; [exact Ei|]. apply (F i j); [exact V|exact Vj|congruence|exact Dj].
  - intros i z V Hz. assert (B := valid_nth _ _ d V Hd'). rewrite S in B.
    rewrite Z.add_0_r in Hz. pose proof (zget_seq l 0 (nth d i 0) ltac:(lia)) as ZG. cbn [Nat.add] in ZG. rewrite ZG in Hz.
    destruct (O _ _ B Hz) as [->|[c [-> [j [Vj [Ej Dj]]]]]]; [left; reflexivity|].
    right. exists c. split; [reflexivity|]. apply (F i j); [exact V|exact Vj|congruence|exact Dj].
Qed.
Lemma same_exact st D out w st' : Inv st D -> XInv st D -> pstep (NSame out) st = Some (Some st') ->
  wired (NSame out) w st -> lossless (NSame out) w st D -> XInv st' (through w D).
Proof.
  intros I X E [W C] [P [F R]]. cbn [pstep] in E. destruct (bcast_ok (tshape (tk_t st)) out) eqn:B; [|discriminate].
  cbn [negb] in E.
  assert (LAB : forall i z, valid out i -> In z (lookup (tk_tr st) (tget (tk_t st) (bidx (tshape (tk_t st)) i))) ->
            z = (-1)%Z \/ exists c, z = Z.of_nat c /\ through w D i c).
  { intros i z V Hz. pose proof (bidx_is_aligned _ _ _ B (x_pos _ _ X) V) as A.
    destruct (x_lab _ _ X _ z (proj1 A) Hz) as [->|[c [-> Dj]]]; [left; reflexivity|]. right. exists c.
    split; [reflexivity|]. exists (bidx (tshape (tk_t st)) i). split; [apply F; assumption|exact Dj]. }
  apply bcast_len in B.
  destruct C as [[L S]|[L [H1 [d [Ed S]]]]].
  - replace (length (tshape (tk_t st)) <? length out) with false in E by (symmetry; apply Nat.ltb_ge; lia).
    cbn [andb] in E. inversion E; subst st'; clear E. constructor; cbn [tk_t tk_dims tk_tr tk_con tshape tget].
    + exact P.
    + exact (x_neg _ _ X).
    + exact (x_ne _ _ X).
    + intros c Ec d Hd l G. inversion Ec; subst c; clear Ec.
      destruct (update_exact _ _ d l I X Hd G) as [O N]. rewrite (S d Hd). split; [|exact N].
      assert (Q := i_dims _ _ I d Hd).
      intros k z Hk Hz. rewrite (S d Hd) in Hk. destruct (O k z Hk Hz) as [->|[c [-> [j [Vj [Ej Dj]]]]]]; [left; reflexivity|].
      right. exists c. split; [reflexivity|]. destruct (R j Vj) as [i [V Wj]]. exists i. split; [exact V|].
      split; [|exists j; split; assumption]. destruct (W i j V Wj) as [_ Aj].
      destruct (Aj d Q) as [Q1|Q1].
      * pose proof (valid_nth _ _ d Vj Q). pose proof (valid_nth _ _ d V ltac:(lia)) as Y. rewrite (S d Hd) in Y. lia.
      * rewrite <- Ej, Q1. f_equal. lia.
    + exact LAB.
  - replace (length (tshape (tk_t st)) <? length out) with true in E by (symmetry; apply Nat.ltb_lt; lia).
    rewrite H1 in E. cbn [Nat.eqb andb] in E. inversion E; subst st'; clear E. rewrite Ed.
    assert (Hd : In d (tk_dims st)) by (rewrite Ed; left; reflexivity).
    assert (Q := i_dims _ _ I d Hd).
    destruct (update_sound _ _ d I Hd) as [l [G A]].
    destruct (update_exact _ _ d l I X Hd G) as [O N].
    constructor; cbn [tk_t tk_dims tk_tr tk_con tshape tget map].
    + exact P.
    + exact (x_neg _ _ X).
    + exact (x_ne _ _ X).
    + intros c Ec e [<-|[]] l' G'. inversion Ec; subst c; clear Ec. cbn [shift_con fold_left] in G'. rewrite G in G'.
      simpl in G'. rewrite Nat.eqb_refl in G'. inversion G'; subst l'; clear G'. rewrite S. split; [|exact N].
      intros k z Hk Hz. rewrite S in Hk. destruct (O k z Hk Hz) as [->|[c [-> [j [Vj [Ej Dj]]]]]]; [left; reflexivity|].
      right. exists c. split; [reflexivity|]. destruct (R j Vj) as [i [V Wj]]. exists i. split; [exact V|].
      split; [|exists j; split; assumption]. destruct (W i j V Wj) as [_ Aj].
      destruct (Aj d Q) as [Q1|Q1].
      * pose proof (valid_nth _ _ d Vj Q). pose proof (valid_nth _ _ (Datatypes.S d) V ltac:(lia)) as Y. lia.
      * rewrite <- Ej, Q1. f_equal. lia.
    + exact LAB.
Qed.
Lemma index_exact st D f w st' : XInv st D -> pstep (NIndex f) st = Some (Some st') -> wired (NIndex f) w st ->
  lossless (NIndex f) w st D -> XInv st' (through w D).
Proof.
  intros X E W [P F]. cbn [pstep] in E. destruct (dim_changes (f (tk_t st))) as [|d ds] eqn:C; [discriminate|].
  inversion E; subst st'; clear E. constructor; cbn [tk_t tk_dims tk_tr tk_con].
  - exact P.
  - exact (x_neg _ _ X).
  - exact (x_ne _ _ X).
  - discriminate.
  - intros i z V Hz. destruct (F i V) as [j Wj]. destruct (W (tk_t st) i j eq_refl V Wj) as [Vj Ej]. rewrite Ej in Hz.
    destruct (x_lab _ _ X j z Vj Hz) as [->|[c [-> Dj]]]; [left; reflexivity|].
    right. exists c. split; [reflexivity|]. exists j. split; assumption.
Qed.
Lemma cat_exact st D dim fr ba w st' : Inv st D -> XInv st D -> pstep (NCat dim fr ba) st = Some (Some st') ->
  wired (NCat dim fr ba) w st -> lossless (NCat dim fr ba) w st D -> XInv st' (through w D).
Proof.
  intros I X E [W T] F. cbn [lossless] in F. cbn [pstep] in E. destruct (existsb (Nat.eqb dim) (tk_dims st)) eqn:Y; [|discriminate].
  apply existsb_exists in Y. destruct Y as [e [He Y]]. apply Nat.eqb_eq in Y. subst e.
  assert (Hd := i_dims _ _ I dim He).
  assert (TR : match tk_tr st with
               | Some tr => Some (if axis_sum (hd 0 (tk_dims st)) fr =? 0 then tr
                                  else map (fun e => ((fst e + Z.of_nat (axis_sum (hd 0%nat (tk_dims st)) fr))%Z, snd e)) tr)
               | None => None end = tk_tr st).
  { destruct T as [->| ->]; [reflexivity|]. destruct (tk_tr st); reflexivity. }
  rewrite TR in E. inversion E; subst st'; clear E TR. constructor; cbn [tk_t tk_dims tk_tr tk_con].
  - cbn [cat_labels tshape]. assert (P := x_pos _ _ X). unfold positive in *. apply Forall_nth. intros a e Ha.
    rewrite upd_length in Ha. rewrite (nth_indep _ e 0) by (rewrite upd_length; exact Ha). rewrite upd_nth.
    pose proof (proj1 (Forall_nth _ _) P) as P'.
    destruct (Nat.eqb_spec a dim) as [->|_]; simpl.
    + apply Nat.ltb_lt in Hd. rewrite Hd. apply Nat.ltb_lt in Hd. pose proof (P' dim 0 Hd). lia.
    + apply P'. exact Ha.
  - exact (x_neg _ _ X).
  - exact (x_ne _ _ X).
  - discriminate.
  - intros i z V Hz. cbn [cat_labels tshape] in V. cbn [cat_labels tget] in Hz.
    assert (Li := valid_length _ _ V). rewrite upd_length in Li.
    destruct ((axis_sum dim fr <=? nth dim i 0) && (nth dim i 0 <? axis_sum dim fr + nth dim (tshape (tk_t st)) 0)) eqn:R.
    + apply andb_prop in R. destruct R as [R1 R2]. apply Nat.leb_le in R1. apply Nat.ltb_lt in R2.
      set (j := upd i dim (nth dim i 0 - axis_sum dim fr)) in *.
      assert (Vj : valid (tshape (tk_t st)) j) by (eapply valid_upd; [exact V|exact Hd|lia]).
      destruct (x_lab _ _ X j z Vj Hz) as [->|[c [-> Dj]]]; [left; reflexivity|].
      right. exists c. split; [reflexivity|]. exists j. split; [|exact Dj]. apply F. split; [exact Vj|].
      unfold j. rewrite upd_upd, upd_nth_eq by lia. rewrite <- (upd_same i dim) at 1 by lia. f_equal. lia.
    + left. unfold lookup in Hz. destruct (tk_tr st) as [tr|] eqn:Q.
      * rewrite (x_neg _ _ X tr Q) in Hz. destruct Hz as [<-|[]]. reflexivity.
      * destruct Hz as [<-|[]]. reflexivity.
Qed.
Lemma step_exact n st D w st' : Inv st D -> XInv st D -> pstep n st = Some (Some st') -> wired n w st ->
  lossless n w st D -> XInv st' (through w D).
Proof.
  intros I X E W F. destruct n as [out|f|out|out|out|dim_c out|dim fr ba].
  - eapply same_exact; eassumption.
  - eapply index_exact; eassumption.
  - destruct W as [d [Ed W]], F as [P F]. destruct (F d Ed) as [S F']. cbn [left_dims] in Ed. cbn [pstep] in E. rewrite Ed in E.
    destruct (refill out [d] (update_i st) None) as [s1|] eqn:R; [|discriminate]. inversion E; subst s1; clear E.
    assert (Hd : In d (tk_dims st)) by (rewrite Ed; left; reflexivity).
    destruct (update_sound _ _ d I Hd) as [l [G A]]. destruct (update_exact _ _ d l I X Hd G) as [O N].
    exact (refill_exact _ _ _ _ _ _ _ _ _ (i_dims _ _ I d Hd) G A O N W P S F' (or_introl eq_refl) R).
  - destruct W as [d [Ed W]], F as [P F]. destruct (F d Ed) as [S F']. cbn [left_dims] in Ed. cbn [pstep] in E. rewrite Ed in E.
    destruct d as [|[|d]]; try discriminate.
    destruct (refill out [1] (update_i st) None) as [s1|] eqn:R; [|discriminate]. inversion E; subst s1; clear E.
    assert (Hd : In 1 (tk_dims st)) by (rewrite Ed; left; reflexivity).
    destruct (update_sound _ _ 1 I Hd) as [l [G A]]. destruct (update_exact _ _ 1 l I X Hd G) as [O N].
    exact (refill_exact _ _ _ _ _ _ _ _ _ (i_dims _ _ I 1 Hd) G A O N W P S F' (or_introl eq_refl) R).
  - destruct W as [d [Ed [W _]]], F as [P F]. destruct (F d Ed) as [S F']. cbn [left_dims] in Ed. cbn [pstep] in E. rewrite Ed in E.
    set (st1 := mkTrack (tk_t st) [d] (tk_tr st) (tk_con st)) in *.
    destruct (refill out [d] (update_i st1) (Some (update_i st1))) as [s1|] eqn:R; [|discriminate].
    inversion E; subst s1; clear E.
    assert (Hd : In d (tk_dims st)).
    { apply (remove1_in 2). apply (remove1_in 3). rewrite Ed. left. reflexivity. }
    assert (I1 : Inv st1 D).
    { constructor; simpl.
      - intros e [<-|[]]. exact (i_dims _ _ I d Hd).
      - intros c C e [<-|[]]. exact (i_con _ _ I c C d Hd).
      - exact (i_lab _ _ I). }
    assert (X1 : XInv st1 D).
    { constructor; simpl.
      - exact (x_pos _ _ X).
      - exact (x_neg _ _ X).
      - exact (x_ne _ _ X).
      - intros c C e [<-|[]]. exact (x_con _ _ X c C d Hd).
      - exact (x_lab _ _ X). }
    destruct (update_sound st1 D d I1 (or_introl eq_refl)) as [l [G A]].
    destruct (update_exact st1 D d l I1 X1 (or_introl eq_refl) G) as [O N].
    exact (refill_exact st1 D _ _ _ _ _ _ _ (i_dims _ _ I d Hd) G A O N W P S F' (or_intror eq_refl) R).
  - destruct W as [d [Ed W]], F as [P F]. destruct (F d Ed) as [S F']. cbn [left_dims] in Ed. cbn [pstep] in E. rewrite Ed in E.
    destruct (refill out [d] (update_i st) None) as [s1|] eqn:R; [|discriminate]. inversion E; subst s1; clear E.
    assert (Hd : In d (tk_dims st)) by (apply (remove1_in dim_c); rewrite Ed; left; reflexivity).
    destruct (update_sound _ _ d I Hd) as [l [G A]]. destruct (update_exact _ _ d l I X Hd G) as [O N].
    exact (refill_exact _ _ _ _ _ _ _ _ _ (i_dims _ _ I d Hd) G A O N W P S F' (or_introl eq_refl) R).
  - eapply cat_exact; eassumption.
Qed.

(** * Paths *)
Lemma path_sound : forall ns st D st', Inv st D -> ptrack (map fst ns) st = Some (Some st') -> carried ns st ->
  Inv st' (along (map snd ns) D).
Proof.
  induction ns as [|[n w] r IH]; intros st D st' I E C; simpl in *.
  - inversion E; subst. exact I.
  - destruct (pstep n st) as [[s1|]|] eqn:S; try discriminate. destruct C as [W C].
    exact (IH s1 (through w D) st' (step_sound _ _ _ _ _ I S W) E C).
Qed.
Lemma path_exact : forall ns st D st', Inv st D -> XInv st D -> ptrack (map fst ns) st = Some (Some st') ->
  carried ns st -> kept ns st D -> XInv st' (along (map snd ns) D).
Proof.
  induction ns as [|[n w] r IH]; intros st D st' I X E C K; simpl in *.
  - inversion E; subst. exact X.
  - destruct (pstep n st) as [[s1|]|] eqn:S; try discriminate. destruct C as [W C], K as [L K].
    exact (IH s1 (through w D) st' (step_sound _ _ _ _ _ I S W) (step_exact _ _ _ _ _ I X S W L) E C K).
Qed.
Lemma fill_lab s a i : tget (fill s [a]) i = Z.of_nat (nth a i 0).
Proof. simpl. lia. Qed.
Lemma start_con s a d (l : list pset) : dget d (dim_constraints (fill s [a]) [a]) = Some l -> d = a /\ l = dim_constraint (fill s [a]) a.
Proof.
  unfold dim_constraints. cbn [map dget]. destruct (Nat.eqb_spec d a) as [->|_]; [|discriminate].
  intros E. injection E as <-. split; reflexivity.
Qed.
Lemma start_row s a k : k < nth a s 0 ->
  nth k (dim_constraint (fill s [a]) a) [] = nodup Z.eq_dec (map (tget (fill s [a])) (slice_of s a k)).
Proof. intros H. unfold dim_constraint. rewrite nth_map_seq by exact H. reflexivity. Qed.
Lemma start_sound s a : a < length s -> Inv (pstart s a) (own a).
Proof.
  intros Ha. constructor; cbn [pstart tk_t tk_dims tk_tr tk_con].
  - intros d [<-|[]]. exact Ha.
  - intros c E d [<-|[]]. injection E as <-. exists (dim_constraint (fill s [a]) a). split.
    + unfold dim_constraints. cbn [map dget]. rewrite Nat.eqb_refl. reflexivity.
    + split; [unfold dim_constraint; rewrite map_length, seq_length; reflexivity|].
      intros k c [i [V [E P]]]. change (tshape (fill s [a])) with s in V.
      assert (Hk : k < nth a s 0) by (rewrite <- E; apply valid_nth; assumption).
      rewrite start_row by exact Hk. apply nodup_In. apply in_map_iff. exists i.
      split; [rewrite fill_lab; unfold own in P; congruence|apply in_slice_iff; split; assumption].
  - intros i c V P. rewrite fill_lab. unfold own in P. congruence.
Qed.
Lemma start_exact s a : a < length s -> positive s -> XInv (pstart s a) (own a).
Proof.
  intros Ha P. constructor; cbn [pstart tk_t tk_dims tk_tr tk_con].
  - exact P.
  - discriminate.
  - discriminate.
  - intros c E d [<-|[]] l G. injection E as <-. apply start_con in G. destruct G as [_ ->].
    change (tshape (fill s [a])) with s. split.
    + intros k z Hk Hz. rewrite start_row in Hz by exact Hk. apply nodup_In in Hz. apply in_map_iff in Hz.
      destruct Hz as [i [<- Hi]]. apply in_slice_iff in Hi. destruct Hi as [V E]. right. exists (nth a i 0).
      split; [apply fill_lab|]. exists i. repeat split; [exact V|exact E].
    + intros k Hk. rewrite start_row by exact Hk. intros E. pose proof (slice_ne s a k P Ha Hk) as N.
      destruct (slice_of s a k) as [|i r]; [apply N; reflexivity|].
      assert (Q : In (tget (fill s [a]) i) (nodup Z.eq_dec (map (tget (fill s [a])) (i :: r)))) by (apply nodup_In; left; reflexivity).
      rewrite E in Q. exact Q.
  - intros i z V Hz. right. exists (nth a i 0). cbn [lookup] in Hz. destruct Hz as [<-|[]].
    split; [apply fill_lab|reflexivity].
Qed.

Lemma tracked_all_lemma ns s a st d : a < length s ->
  ptrack (map fst ns) (pstart s a) = Some (Some st) -> carried ns (pstart s a) -> In d (tk_dims st) ->
  exists row, dget d (update_i st) = Some row /\ says_all (tshape (tk_t st)) (along (map snd ns) (own a)) d row.
Proof. intros Ha E C H. exact (update_sound _ _ d (path_sound _ _ _ _ (start_sound s a Ha) E C) H). Qed.
Lemma tracked_only_lemma ns s a st d row : a < length s -> positive s ->
  ptrack (map fst ns) (pstart s a) = Some (Some st) -> carried ns (pstart s a) -> kept ns (pstart s a) (own a) ->
  In d (tk_dims st) -> dget d (update_i st) = Some row ->
  says_only (tshape (tk_t st)) (along (map snd ns) (own a)) d row.
Proof.
  intros Ha P E C K H G.
  exact (proj1 (update_exact _ _ d row (path_sound _ _ _ _ (start_sound s a Ha) E C)
                  (path_exact _ _ _ _ (start_sound s a Ha) (start_exact s a Ha P) E C K) H G)).
Qed.

(** [get_pruned_idx] of one center and one recorded tensor *)
Lemma nonempty_inter a b : nonempty (inter a b) = true <-> exists z, In z a /\ In z b.
Proof.
  split.
  - intros H. destruct (inter a b) as [|z r] eqn:Q; [discriminate|].
    assert (Hz : In z (inter a b)) by (rewrite Q; left; reflexivity).
    apply filter_In in Hz. destruct Hz as [Z1 Z2]. exists z. split; [exact Z1|].
    apply existsb_exists in Z2. destruct Z2 as [y [Y1 Y2]]. apply Z.eqb_eq in Y2. subst y. exact Y1.
  - intros [z [Z1 Z2]]. assert (Hz : In z (inter a b)).
    { apply filter_In. split; [exact Z1|]. apply existsb_exists. exists z. split; [exact Z2|apply Z.eqb_refl]. }
    destruct (inter a b); [contradiction|reflexivity].
Qed.
Lemma pruned_iff (row : list pset) (removed : pset) k :
  In (Z.of_nat k) (get_pruned_idx [(0, removed)] [(0, [row])]) <->
  k < length row /\ exists z, In z (nth k row []) /\ In z removed.
Proof.
  unfold get_pruned_idx. simpl. rewrite !app_nil_r. rewrite in_map_iff. split.
  - intros [x [E H]]. apply Nat2Z.inj in E. subst x. apply filter_In in H. destruct H as [H1 H2].
    apply in_seq in H1. split; [exact (proj2 H1)|]. apply nonempty_inter in H2. exact H2.
  - intros [H Z]. exists k. split; [reflexivity|]. apply filter_In. split; [apply in_seq; split; [apply Nat.le_0_l|exact H]|].
    apply nonempty_inter. exact Z.
Qed.
Lemma tracked_pruned_lemma ns s a st d row removed k : a < length s -> positive s ->
  ptrack (map fst ns) (pstart s a) = Some (Some st) -> carried ns (pstart s a) -> kept ns (pstart s a) (own a) ->
  In d (tk_dims st) -> dget d (update_i st) = Some row ->
  (In (Z.of_nat k) (get_pruned_idx [(0, map Z.of_nat removed)] [(0, [row])]) <->
   exists c, In c removed /\ reaches (tshape (tk_t st)) (along (map snd ns) (own a)) d k c).
Proof.
  intros Ha P E C K H G. rewrite pruned_iff.
  destruct (tracked_all_lemma _ _ _ _ _ Ha E C H) as [row' [G' [L A]]]. rewrite G in G'. injection G' as <-.
  change (@length pset row = nth d (tshape (tk_t st)) 0) in L.
  pose proof (tracked_only_lemma _ _ _ _ _ _ Ha P E C K H G) as O. split.
  - intros [Hk [z [Z1 Z2]]]. apply in_map_iff in Z2. destruct Z2 as [c [<- Hc]].
    rewrite L in Hk. destruct (O k _ Hk Z1) as [Q|[c' [Q R]]]; [lia|]. apply Nat2Z.inj in Q. subst c'.
    exists c. split; assumption.
  - intros [c [Hc R]]. split.
    + rewrite L. destruct R as [i [V [Ei _]]]. rewrite <- Ei. apply valid_nth; [exact V|].
      exact (i_dims _ _ (path_sound _ _ _ _ (start_sound s a Ha) E C) d H).
    + exists (Z.of_nat c). split; [apply A; exact R|apply in_map; exact Hc].
Qed.
