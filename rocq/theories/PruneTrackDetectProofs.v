(** Proofs about the axes that [calc_dim_changes] reports. *)
From Coq Require Import List Arith Bool ZArith Lia Permutation.
From Verif Require Import Tensor PruneModel PruneTrackSpec PruneTrackModel.
Import ListNotations.
Local Open Scope nat_scope.

Lemma in_indices s i : In i (indices s) <-> valid s i.
Proof.
  unfold indices. rewrite in_map_iff. split.
  - intros [n [E H]]. apply in_seq in H. subst i. apply unravel_valid. lia.
  - intros V. exists (ravel s i). split; [apply unravel_ravel; exact V|].
    apply in_seq. pose proof (ravel_lt _ _ V). lia.
Qed.
Lemma in_slice_iff s d k i : In i (slice_of s d k) <-> valid s i /\ nth d i 0 = k.
Proof. unfold slice_of. rewrite filter_In, in_indices, Nat.eqb_eq. reflexivity. Qed.
Lemma NoDup_map_on {A B} (f : A -> B) l :
  NoDup l -> (forall x y, In x l -> In y l -> f x = f y -> x = y) -> NoDup (map f l).
Proof.
  induction 1 as [|x l Hx Hl IH]; intros I; simpl; constructor.
  - rewrite in_map_iff. intros [y [E Hy]]. apply Hx.
    rewrite (I x y); [exact Hy|left; reflexivity|right; exact Hy|symmetry; exact E].
  - apply IH. intros a b Ha Hb. apply I; right; assumption.
Qed.
Lemma NoDup_indices s : NoDup (indices s).
Proof.
  apply NoDup_map_on; [apply seq_NoDup|].
  intros x y Hx Hy E. apply in_seq in Hx. apply in_seq in Hy.
  rewrite <- (ravel_unravel s x) by lia. rewrite <- (ravel_unravel s y) by lia. rewrite E. reflexivity.
Qed.
Lemma valid_upd_same s i d k : valid s i -> k < nth d s 0 -> valid s (upd i d k).
Proof.
  intros V H. apply valid_intro; [rewrite upd_length; apply valid_length; exact V|].
  intros a Ha. destruct (Nat.eq_dec a d) as [->|N].
  - rewrite upd_nth_eq; [exact H|]. rewrite (valid_length _ _ V). exact Ha.
  - rewrite upd_nth. destruct (Nat.eq_dec d a); [congruence|].
    destruct (a =? d) eqn:E; [apply Nat.eqb_eq in E; congruence|].
    simpl. apply valid_nth; assumption.
Qed.
Lemma slice_perm s d k : d < length s -> k < nth d s 0 ->
  Permutation (slice_of s d k) (map (fun i => upd i d k) (slice_of s d 0)).
Proof.
  intros Hd Hk. apply NoDup_Permutation.
  - apply NoDup_filter. apply NoDup_indices.
  - apply NoDup_map_on; [apply NoDup_filter; apply NoDup_indices|].
    intros x y Hx Hy E. apply in_slice_iff in Hx. apply in_slice_iff in Hy.
    destruct Hx as [Vx Ex], Hy as [Vy Ey].
    assert (Lx := valid_length _ _ Vx). assert (Ly := valid_length _ _ Vy).
    rewrite <- (upd_same x d) by lia. rewrite <- (upd_same y d) by lia. rewrite Ex, Ey.
    rewrite <- (upd_upd x d k 0), <- (upd_upd y d k 0), E. reflexivity.
  - intros i. rewrite in_slice_iff, in_map_iff. split.
    + intros [V E]. exists (upd i d 0). assert (L := valid_length _ _ V). split.
      * rewrite upd_upd, <- E. apply upd_same. lia.
      * apply in_slice_iff. split; [apply valid_upd_same; [exact V|lia]|apply upd_nth_eq; lia].
    + intros [j [E H]]. apply in_slice_iff in H. destruct H as [V Ej]. subst i.
      split; [apply valid_upd_same; assumption|apply upd_nth_eq; rewrite (valid_length _ _ V); exact Hd].
Qed.
Definition zsum (l : list Z) : Z := fold_right Z.add 0%Z l.
Lemma zsum_perm l m : Permutation l m -> zsum l = zsum m.
Proof. unfold zsum. induction 1; simpl; lia. Qed.
Lemma slice_sum_eq t d k : d < length (tshape t) -> k < nth d (tshape t) 0 ->
  slice_sum t d k = zsum (map (fun i => tget t (upd i d k)) (slice_of (tshape t) d 0)).
Proof.
  intros Hd Hk. change (slice_sum t d k) with (zsum (map (tget t) (slice_of (tshape t) d k))).
  rewrite (zsum_perm _ _ (Permutation_map (tget t) (slice_perm _ _ _ Hd Hk))). rewrite map_map. reflexivity.
Qed.
Lemma zsum_differ {A} (f g : A -> Z) l : zsum (map f l) <> zsum (map g l) -> exists x, In x l /\ f x <> g x.
Proof.
  unfold zsum. induction l as [|x l IH]; simpl; intros H; [congruence|].
  destruct (Z.eq_dec (f x) (g x)) as [E|E].
  - destruct IH as [y [Hy Ny]]; [lia|]. exists y. split; [right; exact Hy|exact Ny].
  - exists x. split; [left; reflexivity|exact E].
Qed.
Lemma zsum_le {A} (f g : A -> Z) l : (forall x, In x l -> (f x <= g x)%Z) -> (zsum (map f l) <= zsum (map g l))%Z.
Proof.
  unfold zsum. induction l as [|x l IH]; simpl; intros H; [lia|].
  assert (f x <= g x)%Z by (apply H; left; reflexivity).
  assert (fold_right Z.add 0 (map f l) <= fold_right Z.add 0 (map g l))%Z by (apply IH; intros y Hy; apply H; right; exact Hy).
  lia.
Qed.
Lemma zsum_lt {A} (f g : A -> Z) l a :
  (forall x, In x l -> (f x <= g x)%Z) -> In a l -> (f a < g a)%Z -> (zsum (map f l) < zsum (map g l))%Z.
Proof.
  induction l as [|x l IH]; intros H Ha L; [contradiction|].
  assert (Hx : (f x <= g x)%Z) by (apply H; left; reflexivity).
  assert (Hl : forall y, In y l -> (f y <= g y)%Z) by (intros y Hy; apply H; right; exact Hy).
  pose proof (zsum_le f g l Hl) as Q. unfold zsum in *. simpl.
  destruct Ha as [->|Ha]; [lia|]. specialize (IH Hl Ha L). lia.
Qed.
Lemma nodup_two l : 1 < length (nodup Z.eq_dec l) <-> exists x y, In x l /\ In y l /\ x <> y.
Proof.
  split.
  - intros H. assert (N := NoDup_nodup Z.eq_dec l).
    destruct (nodup Z.eq_dec l) as [|x [|y r]] eqn:E; simpl in H; try lia.
    exists x, y. repeat split.
    + apply (nodup_In Z.eq_dec). rewrite E. left. reflexivity.
    + apply (nodup_In Z.eq_dec). rewrite E. right. left. reflexivity.
    + intros ->. inversion N; subst. apply H2. left. reflexivity.
  - intros [x [y [Hx [Hy N]]]]. apply (nodup_In Z.eq_dec) in Hx. apply (nodup_In Z.eq_dec) in Hy.
    destruct (nodup Z.eq_dec l) as [|a [|b r]]; simpl in *; [contradiction| |lia].
    destruct Hx as [<-|[]], Hy as [<-|[]]. congruence.
Qed.
Lemma changed_iff t d : changed t d = true <->
  exists k k', k < nth d (tshape t) 0 /\ k' < nth d (tshape t) 0 /\ slice_sum t d k <> slice_sum t d k'.
Proof.
  unfold changed. rewrite Nat.ltb_lt, nodup_two. split.
  - intros [x [y [Hx [Hy N]]]]. apply in_map_iff in Hx. apply in_map_iff in Hy.
    destruct Hx as [k [Ek Hk]], Hy as [k' [Ek' Hk']]. apply in_seq in Hk. apply in_seq in Hk'.
    exists k, k'. subst. split; [lia|]. split; [lia|exact N].
  - intros [k [k' [Hk [Hk' N]]]]. exists (slice_sum t d k), (slice_sum t d k').
    repeat split; [apply in_map|apply in_map|exact N]; apply in_seq; lia.
Qed.
Lemma in_dim_changes t d : In d (dim_changes t) <-> d < length (tshape t) /\ changed t d = true.
Proof. unfold dim_changes. rewrite filter_In, in_seq. intuition lia. Qed.

Lemma reported_varies_lemma t d : In d (dim_changes t) -> varies t d.
Proof.
  rewrite in_dim_changes, changed_iff. intros [Hd [k [k' [Hk [Hk' N]]]]].
  rewrite !slice_sum_eq in N by assumption. apply zsum_differ in N. destruct N as [i [Hi N]].
  apply in_slice_iff in Hi. destruct Hi as [V _].
  exists (upd i d k), k'. split; [apply valid_upd_same; assumption|]. split; [exact Hk'|].
  rewrite upd_upd. exact N.
Qed.
Lemma monotone_reported_lemma t d : d < length (tshape t) -> grows t d -> varies t d -> In d (dim_changes t).
Proof.
  intros Hd G [i [k [V [Hk N]]]]. rewrite in_dim_changes, changed_iff. split; [exact Hd|].
  assert (L := valid_length _ _ V). set (k0 := nth d i 0) in *.
  assert (Hk0 : k0 < nth d (tshape t) 0) by (apply valid_nth; assumption).
  assert (Z0 : In (upd i d 0) (slice_of (tshape t) d 0)).
  { apply in_slice_iff. split; [apply valid_upd_same; [exact V|lia]|apply upd_nth_eq; lia]. }
  assert (M : forall a b, a <= b -> b < nth d (tshape t) 0 -> forall x, In x (slice_of (tshape t) d 0) ->
              (tget t (upd x d a) <= tget t (upd x d b))%Z).
  { intros a b Hab Hb x Hx. apply in_slice_iff in Hx. destruct Hx as [Vx _].
    rewrite <- (upd_upd x d a b). apply G; [apply valid_upd_same; [exact Vx|lia]| |exact Hb].
    rewrite upd_nth_eq by (rewrite (valid_length _ _ Vx); exact Hd). exact Hab. }
  assert (Ei : upd (upd i d 0) d k0 = i) by (rewrite upd_upd; apply upd_same; lia).
  exists k0, k. split; [exact Hk0|]. split; [exact Hk|]. rewrite !slice_sum_eq by assumption.
  destruct (Nat.le_ge_cases k0 k) as [C|C].
  - pose proof (M k0 k C Hk _ Z0) as Q. rewrite Ei, upd_upd in Q.
    assert (S := zsum_lt (fun x => tget t (upd x d k0)) (fun x => tget t (upd x d k)) _ (upd i d 0) (M k0 k C Hk) Z0).
    cbv beta in S. rewrite Ei, upd_upd in S. specialize (S ltac:(lia)). lia.
  - pose proof (M k k0 C Hk0 _ Z0) as Q. rewrite Ei, upd_upd in Q.
    assert (S := zsum_lt (fun x => tget t (upd x d k)) (fun x => tget t (upd x d k0)) _ (upd i d 0) (M k k0 C Hk0) Z0).
    cbv beta in S. rewrite Ei, upd_upd in S. specialize (S ltac:(lia)). lia.
Qed.

Definition lab (ds i : list nat) : Z := fold_right (fun d a => (Z.of_nat (nth d i 0%nat) + a)%Z) 0%Z ds.
Lemma lab_upd_out ds i d k : ~ In d ds -> lab ds (upd i d k) = lab ds i.
Proof.
  unfold lab. induction ds as [|e ds IH]; simpl; intros N; [reflexivity|].
  rewrite IH by tauto. rewrite upd_nth. destruct (Nat.eqb_spec e d); [subst; tauto|]. reflexivity.
Qed.
Lemma lab_upd_le ds i d k : d < length i -> nth d i 0 <= k -> (lab ds i <= lab ds (upd i d k))%Z.
Proof.
  intros Hd H. unfold lab. induction ds as [|e ds IH]; simpl; [lia|].
  rewrite upd_nth. destruct (Nat.eqb_spec e d) as [->|_]; simpl; [|lia].
  assert (E : (d <? length i) = true) by (apply Nat.ltb_lt; exact Hd). rewrite E. lia.
Qed.
Lemma lab_upd_lt ds i d k : In d ds -> d < length i -> nth d i 0 < k -> (lab ds i < lab ds (upd i d k))%Z.
Proof.
  intros I Hd H. induction ds as [|e ds IH]; [contradiction|].
  pose proof (lab_upd_le ds i d k Hd ltac:(lia)) as Q. unfold lab in *. simpl. rewrite upd_nth.
  destruct (Nat.eqb_spec e d) as [->|N]; simpl.
  - assert (E : (d <? length i) = true) by (apply Nat.ltb_lt; exact Hd). rewrite E. lia.
  - destruct I as [I|I]; [congruence|]. specialize (IH I). lia.
Qed.
Lemma zeros_valid s : Forall (lt 0) s -> valid s (map (fun _ => 0) s).
Proof. unfold valid. induction 1; simpl; constructor; assumption. Qed.
Lemma filled_reported_lemma s ds d : Forall (lt 0) s ->
  (In d (dim_changes (fill s ds)) <-> In d ds /\ 1 < nth d s 0).
Proof.
  intros P. split.
  - intros H. destruct (reported_varies_lemma _ _ H) as [i [k [V [Hk N]]]].
    change (tshape (fill s ds)) with s in *. change (tget (fill s ds)) with (lab ds) in N.
    destruct (in_dec Nat.eq_dec d ds) as [I|I]; [|rewrite lab_upd_out in N by exact I; congruence].
    split; [exact I|]. apply in_dim_changes in H. destruct H as [Hd _]. change (tshape (fill s ds)) with s in Hd.
    pose proof (valid_nth _ _ d V Hd). destruct (Nat.eq_dec (nth d i 0) k) as [E|E]; [|lia].
    rewrite <- E in N. rewrite upd_same in N by (rewrite (valid_length _ _ V); exact Hd). congruence.
  - intros [I H].
    assert (Hd : d < length s). { destruct (Nat.lt_ge_cases d (length s)) as [C|C]; [exact C|]. rewrite nth_overflow in H by exact C. lia. }
    apply monotone_reported_lemma; [exact Hd| |].
    + intros i k V L Hk. apply lab_upd_le; [rewrite (valid_length _ _ V); exact Hd|exact L].
    + exists (upd (map (fun _ => 0) s) d 0), 1. change (tshape (fill s ds)) with s.
      assert (V : valid s (upd (map (fun _ => 0) s) d 0)) by (apply valid_upd_same; [apply zeros_valid; exact P|lia]).
      split; [exact V|]. split; [exact H|]. change (tget (fill s ds)) with (lab ds).
      assert (Q := lab_upd_lt ds (upd (map (fun _ => 0) s) d 0) d 1 I).
      rewrite (valid_length _ _ V) in Q. specialize (Q Hd). rewrite upd_nth_eq in Q by (rewrite map_length; exact Hd).
      specialize (Q ltac:(lia)). lia.
Qed.
Lemma missed_lemma : exists t d, d < length (tshape t) /\ varies t d /\ ~ In d (dim_changes t).
Proof.
  exists (reshape [3; 2] (fill [2; 3] [1])), 1. split; [simpl; lia|]. split.
  - exists [0; 0], 1. split; [repeat constructor|]. split; [simpl; lia|]. vm_compute. discriminate.
  - vm_compute. intros [H|[]]. discriminate.
Qed.
