(** Proofs about the lowering of reductions and normalisations (model: AtenNormModel.v). *)
From Coq Require Import List Arith Bool Reals Lia Lra ZArith Permutation.
From Verif Require Import LowerProofs PassProofs PassAxesProofs FuseMiscProofs Tensor ConvSpec CatSpec LayoutSpec FuseModel PassModel AtenPoolModel
  PoolSpec MoveSpec NormSpec AtenNormModel AtenMoveProofs AtenConvProofs.
Import ListNotations.

Notation mem k axes := (existsb (Nat.eqb k) axes).

Lemma forallb_ext_in {T} (f g : T -> bool) l : (forall a, In a l -> f a = g a) -> forallb f l = forallb g l.
Proof. induction l as [|x l IH]; intro H; [reflexivity|]. cbn. rewrite H, IH; simpl; auto. intros; apply H; simpl; auto. Qed.

(** * fibres *)
Fixpoint agree_from (k : nat) (axes i j : list nat) : bool :=
  match i, j with
  | a :: i', b :: j' => (mem k axes || (a =? b)) && agree_from (S k) axes i' j'
  | _, _ => true
  end.
Lemma agree_from_spec axes : forall i j k, length i = length j ->
  agree_from k axes i j = forallb (fun q => mem q axes || (nth (q - k) i 0 =? nth (q - k) j 0)) (seq k (length i)).
Proof.
  induction i as [|a i IH]; intros [|b j] k L; cbn [length] in L; try discriminate; [reflexivity|].
  cbn [agree_from length seq forallb]. rewrite Nat.sub_diag. cbn [nth]. f_equal. rewrite (IH j (S k)) by lia.
  apply forallb_ext_in. intros q Hq. apply in_seq in Hq. destruct (q - k) as [|m] eqn:E; [lia|]. replace (q - S k) with m by lia. reflexivity.
Qed.
Lemma agree_off_from axes i j : length i = length j -> agree_off axes i j = agree_from 0 axes i j.
Proof.
  intro L. rewrite agree_from_spec by auto. unfold agree_off. apply forallb_ext_in. intros q _. now rewrite Nat.sub_0_r.
Qed.
Lemma agree_kept axes : forall i j k, length i = length j ->
  agree_from k axes i j = list_eqb (drop_from k axes i) (drop_from k axes j).
Proof.
  induction i as [|a i IH]; intros [|b j] k L; cbn [length] in L; try discriminate; [reflexivity|].
  cbn [agree_from drop_from]. rewrite IH by lia. destruct (mem k axes); [reflexivity|]. cbn [orb].
  destruct (list_eqb_spec (drop_from (S k) axes i) (drop_from (S k) axes j)) as [E|N], (list_eqb_spec (a :: drop_from (S k) axes i) (b :: drop_from (S k) axes j)) as [E'|N'];
    destruct (Nat.eqb_spec a b); cbn; auto; try congruence; exfalso; try (injection E' as -> E'; congruence); apply N'; congruence.
Qed.

Lemma filter_flat_map {S T} (f : S -> list T) P l : filter P (flat_map f l) = flat_map (fun a => filter P (f a)) l.
Proof. induction l; [reflexivity|]. cbn [flat_map]. now rewrite filter_app, IHl. Qed.
Lemma flat_map_single {T} (f : nat -> list T) a : forall m b, b <= a < b + m -> flat_map (fun i => if i =? a then f i else []) (seq b m) = f a.
Proof.
  assert (Z : forall m b, a < b -> flat_map (fun i => if i =? a then f i else []) (seq b m) = []).
  { induction m; intros b H; [reflexivity|]. cbn [seq flat_map]. destruct (Nat.eqb_spec b a); [lia|]. apply IHm; lia. }
  induction m as [|m IH]; intros b H; [lia|]. cbn [seq flat_map]. destruct (Nat.eqb_spec b a) as [->|N].
  - rewrite Z by lia. apply app_nil_r.
  - cbn [app]. apply IH. lia.
Qed.
Lemma filter_false {T} (P : T -> bool) l : (forall a, In a l -> P a = false) -> filter P l = [].
Proof. induction l as [|x l IH]; intro H; [reflexivity|]. cbn. rewrite H by (simpl; auto). apply IH. intros; apply H; simpl; auto. Qed.
(** one axis more *)
Lemma filter_agree_cons k axes a i d s : a < d ->
  filter (agree_from k axes (a :: i)) (indices (d :: s)) =
  if mem k axes then flat_map (fun b => map (cons b) (filter (agree_from (S k) axes i) (indices s))) (seq 0 d)
  else map (cons a) (filter (agree_from (S k) axes i) (indices s)).
Proof.
  intro Ha. cbn [indices]. rewrite filter_flat_map. destruct (mem k axes) eqn:E.
  - apply flat_map_ext. intro b. rewrite filter_map_comm. f_equal. apply filter_ext. intro j. cbn [agree_from]. rewrite E. reflexivity.
  - rewrite <- (flat_map_single (fun b => map (cons b) (filter (agree_from (S k) axes i) (indices s))) a d 0) by lia.
    apply flat_map_ext. intro b. rewrite filter_map_comm. destruct (Nat.eqb_spec b a) as [->|N].
    + f_equal. apply filter_ext. intro j. cbn [agree_from]. rewrite E, Nat.eqb_refl. reflexivity.
    + rewrite filter_false; [reflexivity|]. intros j _. cbn [agree_from]. rewrite E. destruct (Nat.eqb_spec a b); [congruence|reflexivity].
Qed.

(** the trailing axes *)
Lemma mem_seq k p m : mem k (seq p m) = (p <=? k) && (k <? p + m).
Proof.
  destruct (mem k (seq p m)) eqn:E.
  - apply existsb_exists in E. destruct E as (q & Hq & E). apply Nat.eqb_eq in E. subst q. apply in_seq in Hq.
    destruct (Nat.leb_spec p k), (Nat.ltb_spec k (p + m)); try lia; reflexivity.
  - destruct (Nat.leb_spec p k), (Nat.ltb_spec k (p + m)); try reflexivity. exfalso.
    assert (mem k (seq p m) = true); [|congruence]. apply existsb_exists. exists k. rewrite Nat.eqb_refl. split; auto. apply in_seq. lia.
Qed.
Lemma agree_all k axes i : forall j, (forall q, k <= q < k + length i -> mem q axes = true) -> agree_from k axes i j = true.
Proof.
  revert k. induction i as [|a i IH]; intros k [|b j] H; try reflexivity. cbn [agree_from]. rewrite H by (cbn [length]; lia).
  cbn [orb andb]. apply IH. intros q Hq. apply H. cbn [length]. lia.
Qed.
Lemma filter_true {T} (P : T -> bool) l : (forall a, P a = true) -> filter P l = l.
Proof. intro H. induction l; [reflexivity|]. cbn. rewrite H. congruence. Qed.
Lemma filter_trailing s2 i2 : forall s1 i1 k, valid s1 i1 -> length i2 = length s2 ->
  filter (agree_from k (seq (k + length s1) (length s2)) (i1 ++ i2)) (indices (s1 ++ s2)) = map (app i1) (indices s2).
Proof.
  induction s1 as [|d s1 IH]; intros i1 k V L; inversion V as [|a ? r ? Ha V1]; subst.
  - cbn [app]. rewrite filter_true.
    + rewrite <- (map_id (indices s2)) at 1. apply map_ext. reflexivity.
    + intro j. apply agree_all. intros q Hq. rewrite mem_seq. cbn [length]. destruct (Nat.leb_spec (k + 0) q), (Nat.ltb_spec q (k + 0 + length s2)); try lia; reflexivity.
  - cbn [app length]. rewrite filter_agree_cons by auto. rewrite mem_seq. destruct (Nat.leb_spec (k + S (length s1)) k); [lia|]. cbn [andb].
    replace (k + S (length s1)) with (S k + length s1) by lia. rewrite IH by auto. rewrite map_map. reflexivity.
Qed.

(** the number of elements *)
Fixpoint size_from (k : nat) (axes s : list nat) : nat :=
  match s with [] => 1 | d :: s' => (if mem k axes then d else 1) * size_from (S k) axes s' end.
Lemma filter_length_from axes : forall s i k, valid s i -> length (filter (agree_from k axes i) (indices s)) = size_from k axes s.
Proof.
  induction s as [|d s IH]; intros i k V; inversion V as [|a ? r ? Ha V1]; subst; [reflexivity|].
  rewrite filter_agree_cons by auto. cbn [size_from]. destruct (mem k axes).
  - rewrite <- (IH r (S k) V1). generalize (filter (agree_from (S k) axes r) (indices s)). intro l. clear. generalize 0.
    induction d; intro b; [reflexivity|]. cbn [seq flat_map]. rewrite app_length, map_length, IHd. lia.
  - rewrite map_length, (IH r (S k) V1). lia.
Qed.
Lemma samples_from axes s : samples axes s = size_from 0 axes s.
Proof.
  unfold samples. assert (H : forall s k (g : nat -> nat), (forall q, q < length s -> g (k + q) = nth q s 0) ->
    prod (map g (filter (fun i => mem i axes) (seq k (length s)))) = size_from k axes s).
  { clear s. induction s as [|d s IH]; intros k g H; [reflexivity|]. cbn [length seq filter size_from].
    pose proof (H 0 ltac:(cbn; lia)) as H0. rewrite Nat.add_0_r in H0. cbn [nth] in H0.
    assert (I : prod (map g (filter (fun i => mem i axes) (seq (S k) (length s)))) = size_from (S k) axes s).
    { apply IH. intros q Hq. replace (S k + q) with (k + S q) by lia. rewrite H by (cbn; lia). reflexivity. }
    destruct (mem k axes); cbn [map prod]; rewrite I; [rewrite H0|]; lia. }
  apply H. reflexivity.
Qed.

(** elements that differ from [idx] only on [axes] *)
Definition fiber {A} (axes : list nat) (t : tensor A) (idx : list nat) : list A :=
  map (tget t) (filter (agree_off axes idx) (indices (tshape t))).
Definition rshape (axes s : list nat) : list nat := fold_left (fun s k => upd s k 1) axes s.
Lemma rshape_length axes s : length (rshape axes s) = length s.
Proof. apply fold_upd_length. Qed.
Lemma rshape_nth axes : forall s k, k < length s -> nth k (rshape axes s) 0 = if mem k axes then 1 else nth k s 0.
Proof.
  unfold rshape. induction axes as [|a axes IH]; intros s k Hk; [reflexivity|]. cbn [fold_left existsb]. rewrite IH by (rewrite upd_length; auto).
  rewrite upd_nth. destruct (Nat.eqb_spec k a) as [->|N]; cbn [orb].
  - rewrite ?Nat.eqb_refl. destruct (Nat.ltb_spec a (length s)); [|lia]. destruct (mem a axes); reflexivity.
  - destruct (Nat.eqb_spec a k); [congruence|]. reflexivity.
Qed.

(** * reductions *)
Lemma rshape_map axes s : rshape axes s = map (fun k => if mem k axes then 1 else nth k s 0) (seq 0 (length s)).
Proof.
  apply list_eq_nth; [rewrite rshape_length, map_length, seq_length; reflexivity|]. intros k Hk. rewrite rshape_length in Hk.
  rewrite rshape_nth by auto. symmetry. apply (nth_map_seq (fun k => if mem k axes then 1 else nth k s 0)); auto.
Qed.
Lemma drop_rshape axes s : kept axes (rshape axes s) = kept axes s.
Proof.
  rewrite rshape_map. unfold kept. assert (H : forall s k (g : nat -> nat), (forall q, q < length s -> mem (k + q) axes = false -> g (k + q) = nth q s 0) ->
    drop_from k axes (map g (seq k (length s))) = drop_from k axes s).
  { clear s. induction s as [|d s IH]; intros k g H; [reflexivity|]. cbn [length seq map drop_from].
    rewrite (IH (S k) g).
    - destruct (mem k axes) eqn:E; [reflexivity|]. pose proof (H 0 ltac:(cbn; lia)) as H0. rewrite Nat.add_0_r in H0. rewrite H0; auto.
    - intros q Hq E. replace (S k + q) with (k + S q) in * by lia. apply H; [cbn; lia|auto]. }
  apply H. intros q Hq E. cbn [Nat.add] in *. rewrite E. reflexivity.
Qed.
Lemma fill_length axes : forall n k idx, length (fill_from k n axes idx) = n.
Proof. induction n as [|n IH]; intros k idx; [reflexivity|]. cbn [fill_from]. destruct (mem k axes); [|destruct idx]; cbn [length]; now rewrite IH. Qed.
Lemma kept_fill axes : forall n k idx (l : list nat), length l = n -> length idx = length (drop_from k axes l) ->
  drop_from k axes (fill_from k n axes idx) = idx.
Proof.
  induction n as [|n IH]; intros k idx [|a l] L H; cbn [length] in L; try discriminate.
  - destruct idx; [reflexivity|discriminate].
  - cbn [fill_from drop_from] in *. destruct (mem k axes) eqn:E.
    + cbn [drop_from]. rewrite E. apply (IH _ _ l); auto.
    + destruct idx as [|i idx]; [discriminate|]. cbn [drop_from]. rewrite E. f_equal. apply (IH _ _ l); auto.
Qed.

Lemma line_fiber {A} axes (t : tensor A) idx : length idx = length (tshape t) -> fiber axes t idx = line axes t (kept axes idx).
Proof.
  intro L. unfold fiber, line. f_equal. apply filter_ext_in. intros j Hj. apply indices_valid, valid_length in Hj.
  rewrite agree_off_from by lia. rewrite agree_kept by lia. fold (kept axes idx) (kept axes j).
  destruct (list_eqb_spec (kept axes idx) (kept axes j)), (list_eqb_spec (kept axes j) (kept axes idx)); congruence.
Qed.
Lemma reduce_op_torch {A B} (red : list A -> B) axes keep (t : tensor A) : teq (reduce_op red axes keep t) (torch_reduce red axes keep t).
Proof.
  unfold reduce_op, torch_reduce. destruct keep.
  - split; cbn [tshape]; [apply rshape_map|]. intros idx V. cbn [reduce tget]. f_equal.
    apply valid_length in V. cbn [reduce tshape] in V. fold (rshape axes (tshape t)) in V. rewrite rshape_length in V. apply line_fiber; auto.
  - split; cbn [tshape squeeze reduce tget]; fold (rshape axes (tshape t)).
    + apply drop_rshape.
    + intros idx V. rewrite drop_rshape in V. apply valid_length in V. rewrite rshape_length.
      change (red (fiber axes t (fill_from 0 (length (tshape t)) axes idx)) = red (line axes t idx)).
      rewrite line_fiber by apply fill_length. unfold kept at 1. rewrite (kept_fill axes _ 0 idx (tshape t)); auto.
Qed.
Lemma reduce_dims_spec n arg dims keep : reduce_dims n arg = (dims, keep) ->
  dims = match arg with None => seq 0 n | Some (l, _) => red_axes n l end /\ keep = match arg with None => false | Some (_, k) => k end.
Proof. destruct arg as [[l k]|]; cbn [reduce_dims]; intros [= <- <-]; split; auto. destruct l; reflexivity. Qed.

Lemma handle_reduce_correct {A B} (red : list A -> B) opt arg (x : tensor A) :
  (forall l m, Permutation l m -> red l = red m) \/ opt = false ->
  let n := length (tshape x) in
  teq (handle_reduce red opt arg x)
      (match arg with None => torch_reduce red (seq 0 n) false x
                    | Some (dims, keep) => torch_reduce red (red_axes n dims) keep x end).
Proof.
  intros Hr n. unfold handle_reduce. fold n. destruct (reduce_dims n arg) as [dims keep] eqn:E. apply reduce_dims_spec in E. destruct E as [Ed Ek].
  replace (match arg with None => torch_reduce red (seq 0 n) false x | Some (dims, keep) => torch_reduce red (red_axes n dims) keep x end)
    with (torch_reduce red dims keep x) by (subst dims keep; destruct arg as [[? ?]|]; reflexivity).
  destruct (opt && (n =? 4) && keep) eqn:O; cbn [andb]; [|apply reduce_op_torch].
  apply andb_true_iff in O. destruct O as [O K]. apply andb_true_iff in O. destruct O as [O N]. apply Nat.eqb_eq in N. clear Ed Ek. subst keep n.
  destruct Hr as [Hr|]; [|congruence].
  assert (P : is_perm (length (tshape x)) [0; 3; 1; 2]).
  { rewrite N. unfold is_perm. cbn [seq]. apply perm_skip. eapply perm_trans; [apply perm_swap|]. apply perm_skip. apply perm_swap. }
  assert (W : forall axes axes', Forall (fun a => a < 4) axes -> pt_axes [0; 3; 1; 2] axes = Some axes' ->
    teq (wrap_nhwc (reduce_op red axes' true) x) (torch_reduce red axes true x)).
  { intros axes axes' F Ea. eapply teq_trans; [|apply reduce_op_torch]. unfold wrap_nhwc, reduce_op.
    rewrite <- N in F. destruct (pt_reduce_ok red [0; 3; 1; 2] axes x Hr P F) as (ax & E1 & E2). rewrite Ea in E1. injection E1 as <-.
    change [0; 2; 3; 1] with (pt_inv [0; 3; 1; 2]). exact E2. }
  destruct (list_eqb_spec dims [2; 3]) as [->|N1]; [apply W; [repeat constructor|reflexivity]|].
  destruct (list_eqb_spec dims [3; 2]) as [->|N2]; [apply W; [repeat constructor|reflexivity]|].
  apply reduce_op_torch.
Qed.

Lemma upd_insert_remove ax idx : ax < length idx -> nth ax idx 0 = 0 -> insert_at ax 0 (remove_at ax idx) = idx.
Proof.
  intros H E. unfold insert_at, remove_at. revert ax H E. induction idx as [|a idx IH]; intros [|ax] H E; cbn in *; try lia.
  - subst a. reflexivity.
  - f_equal. apply IH; auto. lia.
Qed.

Lemma handle_arg_correct {A B} (f : list A -> B) dim keep (x : tensor A) :
  axis_ok (length (tshape x)) dim ->
  let ref := along f (axis_of (length (tshape x)) dim) keep x in
  teq (handle_arg f dim keep (tshape ref) x) ref.
Proof.
  intros H ref. pose proof (axis_of_lt _ _ H) as Hax. unfold handle_arg.
  change (nth 0 (fix_dims (length (tshape x)) [dim]) 0) with (axis_of (length (tshape x)) dim).
  set (ax := axis_of (length (tshape x)) dim) in *. clearbody ax. unfold ref, along. destruct keep; [|apply teq_refl].
  split; [reflexivity|]. cbn [tshape reshape]. intros idx V.
  assert (L : length idx = length (tshape x)) by (apply valid_length in V; rewrite V; apply upd_length).
  assert (Z : nth ax idx 0 = 0).
  { pose proof (valid_nth _ _ ax V) as Q. rewrite upd_length in Q. specialize (Q Hax). rewrite upd_nth, Nat.eqb_refl in Q.
    destruct (Nat.ltb_spec ax (length (tshape x))); [|lia]. cbn in Q. lia. }
  pose proof (upd_insert_remove ax idx ltac:(lia) Z) as R.
  assert (V' : valid (tshape (arg_op f ax x)) (remove_at ax idx)).
  { cbn [arg_op tshape]. replace (remove_at ax (tshape x)) with (remove_at ax (upd (tshape x) ax 1)).
    - apply valid_remove; [auto|rewrite upd_length; auto].
    - clear -Hax. unfold remove_at. revert ax Hax. generalize (tshape x). induction l as [|d l IH]; intros [|ax] H; cbn in *; try lia; auto. f_equal. apply IH. lia. }
  assert (U : upd (tshape x) ax 1 = insert_at ax 1 (tshape (arg_op f ax x))).
  { cbn [arg_op tshape]. unfold insert_at, remove_at. clear -Hax. revert ax Hax. generalize (tshape x). induction l as [|d l IH]; intros [|ax] H; cbn in *; try lia; auto. f_equal. apply IH. lia. }
  rewrite U. change (tget (reshape (insert_at ax 1 (tshape (arg_op f ax x))) (arg_op f ax x)) idx = f (map (fun i => tget x (upd idx ax i)) (seq 0 (nth ax (tshape x) 0)))).
  rewrite <- R at 1. rewrite reshape_up by exact V'. cbn [arg_op tget]. f_equal. apply map_ext. intro i. f_equal. rewrite <- R at 2.
  symmetry. apply upd_insert. rewrite remove_at_length; lia.
Qed.

(** * statistics *)
Local Open Scope R_scope.
Lemma agree_refl_axes axes i : agree_off axes i i = true.
Proof. unfold agree_off. apply forallb_forall. intros k _. rewrite Nat.eqb_refl. apply orb_true_r. Qed.
Lemma agree_same axes i j : length i = length j -> agree_off axes i j = true -> forall q, agree_off axes j q = agree_off axes i q.
Proof.
  intros L H q. unfold agree_off in *. rewrite <- L. apply forallb_ext_in. intros k Hk.
  pose proof (proj1 (forallb_forall _ _) H k Hk) as Hk'. cbv beta in Hk'. destruct (mem k axes); [reflexivity|]. cbn [orb] in *. apply Nat.eqb_eq in Hk'. now rewrite Hk'.
Qed.
Lemma fiber_same {A} axes (t : tensor A) i j : length i = length j -> agree_off axes i j = true -> fiber axes t j = fiber axes t i.
Proof. intros L H. unfold fiber. f_equal. apply filter_ext. intro q. apply agree_same; auto. Qed.
Lemma agree_bidx axes s idx : valid s idx -> agree_off axes idx (bidx (rshape axes s) idx) = true.
Proof.
  intro V. pose proof (valid_length _ _ V) as L. unfold agree_off. apply forallb_forall. intros k Hk. apply in_seq in Hk.
  rewrite bidx_nth by (rewrite rshape_length; lia). rewrite rshape_nth by lia. destruct (mem k axes); [reflexivity|]. cbn [orb].
  pose proof (valid_nth _ _ k V ltac:(lia)). destruct (Nat.eqb_spec (nth k s 0%nat) 1); apply Nat.eqb_eq; lia.
Qed.
Lemma bidx_rshape_length axes s idx : valid s idx -> length (bidx (rshape axes s) idx) = length s.
Proof. intro V. apply valid_length in V. rewrite bidx_length_eq; rewrite rshape_length; lia. Qed.
Lemma bshape_rshape axes s : bshape s (rshape axes s) = Some s.
Proof.
  apply bshape_intro; [rewrite rshape_length; auto|auto|]. intros k Hk. rewrite rshape_nth by auto. unfold bdim.
  destruct (mem k axes); [|rewrite Nat.eqb_refl; reflexivity]. destruct (Nat.eqb_spec (nth k s 0%nat) 1) as [->|]; reflexivity.
Qed.
(** an operand and something with the shape of its reduction *)
Lemma binop_reduced {B C} (f : R -> B -> C) axes (x : tensor R) (r : tensor B) : tshape r = rshape axes (tshape x) ->
  exists y, binop f x r = Some y /\ tshape y = tshape x /\
    forall idx, valid (tshape x) idx -> tget y idx = f (tget x idx) (tget r (bidx (rshape axes (tshape x)) idx)).
Proof.
  intro E. unfold binop. rewrite E, bshape_rshape. eexists. split; [reflexivity|]. split; [reflexivity|]. intros idx V. cbn [tget].
  now rewrite bidx_self.
Qed.
Lemma binop_fiber {B C} (f : R -> B -> C) (red : list R -> B) axes (x : tensor R) :
  exists y, binop f x (reduce red axes x) = Some y /\ tshape y = tshape x /\
    forall idx, valid (tshape x) idx -> tget y idx = f (tget x idx) (red (fiber axes x idx)).
Proof.
  destruct (binop_reduced f axes x (reduce red axes x) eq_refl) as (y & E & S1 & G). exists y. split; [auto|]. split; [auto|].
  intros idx V. rewrite G by auto. cbn [reduce tget]. do 2 f_equal. apply fiber_same; [|apply agree_bidx; auto].
  rewrite bidx_rshape_length by auto. apply valid_length; auto.
Qed.
(** the squared differences, reduced *)
Lemma fiber_sqdiff axes (x sd : tensor R) idx : valid (tshape x) idx -> tshape sd = tshape x ->
  (forall i, valid (tshape x) i -> tget sd i = sqdiff (tget x i) (mean (fiber axes x i))) ->
  fiber axes sd idx = map (fun v => sq (v - mean (fiber axes x idx))) (fiber axes x idx).
Proof.
  intros V E G. unfold fiber at 1. rewrite E. unfold fiber at 2. rewrite map_map. apply map_ext_in. intros i Hi. apply filter_In in Hi.
  destruct Hi as [Hi Ha]. apply indices_valid in Hi. rewrite G by auto. unfold sqdiff, sq.
  rewrite (fiber_same axes x idx i) by (auto; apply valid_length in V, Hi; lia). reflexivity.
Qed.
Lemma fiber_length {A} axes (x : tensor A) idx : valid (tshape x) idx -> length (fiber axes x idx) = samples axes (tshape x).
Proof.
  intro V. unfold fiber. rewrite map_length, samples_from, <- (filter_length_from axes (tshape x) idx 0 V).
  f_equal. apply filter_ext_in. intros j Hj. apply indices_valid, valid_length in Hj. apply valid_length in V. apply agree_off_from. lia.
Qed.
Lemma mean_total l : mean l = total l / INR (length l).
Proof. reflexivity. Qed.

Lemma variance_0 l : variance 0 l = mean (map (fun v => sq (v - mean l)) l).
Proof. unfold variance. rewrite (mean_total (map _ l)), map_length. f_equal. f_equal. rewrite Rminus_0_r, Rmax_right; [reflexivity|apply pos_INR]. Qed.

Lemma rshape_valid axes s idx : valid (rshape axes s) idx -> Forall (lt 0) s -> valid s idx.
Proof.
  intros V P. pose proof (valid_length _ _ V) as L. rewrite rshape_length in L. apply valid_intro; [auto|]. intros k Hk.
  pose proof (valid_nth _ _ k V) as Q. rewrite rshape_length in Q. specialize (Q Hk). rewrite rshape_nth in Q by auto.
  destruct (mem k axes); [|auto]. rewrite Forall_forall in P. specialize (P (nth k s 0%nat) (nth_In s 0%nat Hk)). lia.
Qed.
(** a value that only depends on the fibre, with and without keeping the axes *)
Lemma reduce_op_congr {A B C} (red : list A -> C) (red' : list B -> C) axes keep (t : tensor A) (u : tensor B) : tshape t = tshape u ->
  Forall (lt 0) (tshape t) ->
  (forall idx, valid (tshape t) idx -> red (fiber axes t idx) = red' (fiber axes u idx)) ->
  teq (reduce_op red axes keep t) (reduce_op red' axes keep u).
Proof.
  intros E P H. assert (T : teq (reduce red axes t) (reduce red' axes u)).
  { split; [cbn [reduce tshape]; now rewrite E|]. intros idx V. cbn [reduce tshape] in V. fold (rshape axes (tshape t)) in V.
    apply rshape_valid in V; auto. apply (H idx V). }
  unfold reduce_op. destruct keep; [exact T|]. destruct T as [T1 T2]. split; [cbn [squeeze tshape]; now rewrite T1|].
  intros idx V. cbn [squeeze tget tshape] in *. rewrite <- T1. apply T2. clear -V. cbn [reduce tshape] in *. fold (rshape axes (tshape t)) in *.
  unfold kept in V. revert V.
  assert (G : forall s k idx, (forall q, (q < length s)%nat -> mem (k + q) axes = true -> nth q s 0%nat = 1%nat) ->
     valid (drop_from k axes s) idx -> valid s (fill_from k (length s) axes idx)).
  { induction s as [|d s IH]; intros k i Q W; [constructor|]. cbn [drop_from length fill_from] in *. destruct (mem k axes) eqn:E.
    - pose proof (Q 0%nat ltac:(lia)) as Q0. rewrite Nat.add_0_r in Q0. specialize (Q0 E). cbn in Q0. constructor; [lia|]. apply IH; auto.
      intros q Hq Em. specialize (Q (S q) ltac:(lia)). replace (k + S q)%nat with (S k + q)%nat in Q by lia. apply Q; auto.
    - inversion W as [|a ? r ? Ha W1]; subst. constructor; auto. apply IH; auto.
      intros q Hq Em. specialize (Q (S q) ltac:(lia)). replace (k + S q)%nat with (S k + q)%nat in Q by lia. apply Q; auto. }
  apply G. intros q Hq Em. rewrite rshape_length in Hq. cbn [Nat.add] in Em. rewrite rshape_nth by auto. now rewrite Em.
Qed.
Lemma reduce_op_tmap {A B C D} (g : C -> D) (red : list A -> C) (red' : list B -> D) axes keep (t : tensor A) (u : tensor B) : tshape t = tshape u ->
  Forall (lt 0) (tshape t) ->
  (forall idx, valid (tshape t) idx -> g (red (fiber axes t idx)) = red' (fiber axes u idx)) ->
  teq (tmap g (reduce_op red axes keep t)) (reduce_op red' axes keep u).
Proof.
  intros E P H. eapply teq_trans; [|apply (reduce_op_congr (fun l => g (red l)) red' axes keep t u); auto].
  unfold reduce_op. destruct keep; apply teq_refl.
Qed.

Lemma binop_scalar (f : R -> R -> R) (x : tensor R) v : exists y, binop f x (scalar v) = Some y /\ teq y (tmap (fun a => f a v) x).
Proof.
  unfold binop, scalar. cbn [tshape]. assert (E : bshape (tshape x) [] = Some (tshape x)).
  { unfold bshape. cbn [rev]. replace (bshape_rev (rev (tshape x)) []) with (Some (rev (tshape x))) by (destruct (rev (tshape x)); reflexivity).
    cbn. now rewrite rev_involutive. }
  rewrite E. eexists. split; [reflexivity|]. split; [reflexivity|]. intros idx V. cbn [tget tmap tshape] in *. now rewrite bidx_self.
Qed.
Lemma prod_perm l m : Permutation l m -> prod l = prod m.
Proof. induction 1; cbn [prod]; lia. Qed.
Lemma samples_prod axes s : NoDup axes -> Forall (fun a => (a < length s)%nat) axes -> samples axes s = prod (map (fun a => nth a s 0%nat) axes).
Proof.
  intros N F. unfold samples. apply prod_perm, Permutation_map. apply NoDup_Permutation; [apply NoDup_filter, seq_NoDup|auto|].
  intro a. rewrite filter_In, in_seq, existsb_exists. rewrite Forall_forall in F. split.
  - intros (_ & b & Hb & E). apply Nat.eqb_eq in E. now subst.
  - intro H. split; [specialize (F a H); lia|]. exists a. rewrite Nat.eqb_refl. auto.
Qed.

Definition var_axes (n : nat) (arg : option (list Z)) : list nat := match arg with None => seq 0 n | Some d => map (axis_of n) d end.
Lemma fix_dims_seq n : fix_dims n (map Z.of_nat (seq 0 n)) = seq 0 n.
Proof. unfold fix_dims. rewrite map_map. rewrite <- (map_id (seq 0 n)) at 2. apply map_ext. intro a. destruct (Z.ltb_spec (Z.of_nat a) 0); lia. Qed.
Lemma var_dims n arg : fix_dims n (match arg with Some d => d | None => map Z.of_nat (seq 0 n) end) = var_axes n arg.
Proof. destruct arg; [reflexivity|apply fix_dims_seq]. Qed.

Lemma aten_var_correct (arg : option (list Z)) keep (unbiased : bool) (correction : nat) (x : tensor R) :
  let axes := var_axes (length (tshape x)) arg in
  let c := if unbiased then correction else 0%nat in
  Forall (lt 0) (tshape x) -> NoDup axes -> Forall (fun a : nat => (a < length (tshape x))%nat) axes ->
  (c <= prod (map (fun a : nat => nth a (tshape x) 0) axes))%nat ->
  exists y, aten_var arg keep unbiased correction x = Some y /\ teq y (torch_reduce (variance c) axes keep x).
Proof.
  intros axes c P N F Hc. unfold aten_var. rewrite var_dims. fold axes.
  destruct (binop_fiber sqdiff mean axes x) as (sd & E & Sd & G). rewrite E. cbn [obind].
  assert (P' : Forall (lt 0) (tshape sd)) by (rewrite Sd; auto).
  destruct (unbiased && negb (correction =? 0)%nat) eqn:U.
  - apply andb_true_iff in U. destruct U as [-> U]. subst c.
    destruct (binop_scalar Rdiv (reduce_op total axes keep sd) (INR (samples axes (tshape x)) - INR correction)) as (y & Ey & Ty).
    exists y. split; [exact Ey|]. eapply teq_trans; [exact Ty|]. eapply teq_trans; [|apply reduce_op_torch].
    apply (reduce_op_tmap (fun a => a / (INR (samples axes (tshape x)) - INR correction))); auto.
    intros idx V. rewrite Sd in V. rewrite (fiber_sqdiff axes x sd idx V Sd G). unfold variance. rewrite fiber_length by auto. rewrite Rmax_right; [reflexivity|].
    rewrite samples_prod by auto. apply le_INR in Hc. lra.
  - assert (c = 0%nat) as ->.
    { subst c. destruct unbiased; [|reflexivity]. cbn in U. apply negb_false_iff, Nat.eqb_eq in U. auto. }
    eexists. split; [reflexivity|]. eapply teq_trans; [|apply reduce_op_torch]. apply reduce_op_congr; auto.
    intros idx V. rewrite Sd in V. rewrite (fiber_sqdiff axes x sd idx V Sd G). symmetry. apply variance_0.
Qed.
Lemma tmap_torch_reduce {A B C} (g : B -> C) (red : list A -> B) axes keep (t : tensor A) :
  teq (tmap g (torch_reduce red axes keep t)) (torch_reduce (fun l => g (red l)) axes keep t).
Proof. unfold torch_reduce. destruct keep; apply teq_refl. Qed.
Lemma tmap_congr {A B} (g : A -> B) t u : teq t u -> teq (tmap g t) (tmap g u).
Proof. intros [H1 H2]. split; [exact H1|]. intros idx V. cbn [tmap tget]. now rewrite H2. Qed.
Lemma aten_std_correct (arg : option (list Z)) keep (unbiased : bool) (correction : nat) (x : tensor R) :
  let axes := var_axes (length (tshape x)) arg in
  let c := if unbiased then correction else 0%nat in
  Forall (lt 0) (tshape x) -> NoDup axes -> Forall (fun a : nat => (a < length (tshape x))%nat) axes ->
  (c <= prod (map (fun a : nat => nth a (tshape x) 0) axes))%nat ->
  exists y, aten_std arg keep unbiased correction x = Some y /\ teq y (torch_reduce (fun l => sqrt (variance c l)) axes keep x).
Proof.
  intros axes c P N F Hc. destruct (aten_var_correct arg keep unbiased correction x P N F Hc) as (y & E & T).
  unfold aten_std. rewrite E. eexists. split; [reflexivity|]. eapply teq_trans; [apply tmap_congr, T|apply tmap_torch_reduce].
Qed.

Lemma aten_var_std_correct (arg : option (list Z)) keep (unbiased : bool) (correction : nat) (x : tensor R) : arg <> Some [] ->
  let axes := torch_axes (length (tshape x)) arg in
  let c := if unbiased then correction else 0%nat in
  Forall (lt 0) (tshape x) -> NoDup axes -> Forall (fun a : nat => (a < length (tshape x))%nat) axes ->
  (c <= prod (map (fun a : nat => nth a (tshape x) 0) axes))%nat ->
  (exists y, aten_var arg keep unbiased correction x = Some y /\ teq y (torch_reduce (variance c) axes keep x)) /\
  (exists y, aten_std arg keep unbiased correction x = Some y /\ teq y (torch_reduce (fun l => sqrt (variance c l)) axes keep x)).
Proof.
  intros NE axes c. assert (E : axes = var_axes (length (tshape x)) arg).
  { unfold axes, torch_axes, var_axes. destruct arg as [[|]|]; auto; congruence. }
  clearbody axes. subst axes. intros. split; [apply aten_var_correct|apply aten_std_correct]; auto.
Qed.
Lemma fiber_tmap {A B} (g : A -> B) axes (t : tensor A) idx : fiber axes (tmap g t) idx = map g (fiber axes t idx).
Proof. unfold fiber. cbn [tmap tshape]. rewrite map_map. reflexivity. Qed.
Lemma aten_norm_correct arg (x : tensor R) : Forall (lt 0) (tshape x) ->
  let n := length (tshape x) in
  let axes := match arg with None => seq 0 n | Some (d, _) => red_axes n d end in
  let keep := match arg with None => false | Some (_, k) => k end in
  (exists y, aten_norm 1 arg x = Some y /\ teq y (torch_reduce norm1 axes keep x)) /\
  (exists y, aten_norm 2 arg x = Some y /\ teq y (torch_reduce norm2 axes keep x)).
Proof.
  intros P n axes keep. unfold aten_norm. fold n. destruct (reduce_dims n arg) as [d k] eqn:E. apply reduce_dims_spec in E. destruct E as [-> ->].
  fold axes keep. split; (eexists; split; [reflexivity|]); (eapply teq_trans; [|apply reduce_op_torch]).
  - apply reduce_op_congr; auto. intros idx V. rewrite fiber_tmap. reflexivity.
  - apply reduce_op_tmap; auto. intros idx V. rewrite fiber_tmap. reflexivity.
Qed.

(** * normalisations *)
Lemma bidx_rshape_valid axes s idx : valid s idx -> valid (rshape axes s) (bidx (rshape axes s) idx).
Proof. intro V. eapply bidx_valid; eauto. apply bshape_rshape. Qed.
Lemma normalize_correct axes eps (x : tensor R) : tshape x <> [] ->
  exists y, normalize axes eps x = Some y /\ tshape y = tshape x /\
    forall idx, valid (tshape x) idx -> tget y idx = normal eps (fiber axes x idx) (tget x idx).
Proof.
  intro NE. unfold normalize. destruct (binop_fiber sqdiff mean axes x) as (sd & E & Sd & G). rewrite E. cbn [obind].
  destruct (binop_fiber Rminus mean axes x) as (num & En & Sn & Gn). rewrite En. cbn [obind].
  assert (NE' : rshape axes (tshape x) <> []).
  { intro Q. apply (f_equal (@length nat)) in Q. rewrite rshape_length in Q. destruct (tshape x); [congruence|discriminate]. }
  unfold binop at 1. cbn [reduce tshape vec length]. fold (rshape axes (tshape sd)). rewrite Sd. rewrite bshape_one by auto. cbn [obind].
  match goal with |- context [binop Rdiv num ?r] => destruct (binop_reduced Rdiv axes num r) as (y & Ey & Sy & Gy) end.
  { cbn [tmap tshape]. now rewrite Sn. }
  exists y. split; [exact Ey|]. split; [congruence|]. intros idx V. rewrite Gy by (rewrite Sn; auto). rewrite Gn by auto. rewrite Sn.
  unfold normal. f_equal. f_equal. cbn [tmap tget reduce]. set (b := bidx (rshape axes (tshape x)) idx).
  assert (Vb : valid (rshape axes (tshape x)) b) by (apply bidx_rshape_valid; auto).
  rewrite bidx_self by auto. rewrite bidx_one.
  2: { intro Q. apply valid_length in Vb. rewrite Q in Vb. rewrite rshape_length in Vb. destruct (tshape x); [congruence|discriminate]. }
  cbn [nth]. f_equal. f_equal. rewrite Sd.
  change (mean (map (tget sd) (filter (agree_off axes b) (indices (tshape x))))) with (mean (map (tget sd) (filter (agree_off axes b) (indices (tshape x))))).
  rewrite <- Sd. fold (fiber axes sd b). rewrite (fiber_same axes sd idx b).
  - rewrite (fiber_sqdiff axes x sd idx V Sd G). symmetry. apply variance_0.
  - apply valid_length in V, Vb. rewrite rshape_length in Vb. lia.
  - apply agree_bidx; auto.
Qed.
Lemma nth_firstn' p : forall (l : list nat) k, (k < p)%nat -> nth k (firstn p l) 0%nat = nth k l 0%nat.
Proof. induction p as [|p IH]; intros [|a l] [|k] H; cbn; auto; try lia. apply IH. lia. Qed.
Lemma nth_skipn' p : forall (l : list nat) k, nth k (skipn p l) 0%nat = nth (p + k) l 0%nat.
Proof. induction p as [|p IH]; intros [|a l] k; cbn; auto. destruct k; reflexivity. Qed.
Lemma fiber_trailing (x : tensor R) p idx : valid (tshape x) idx -> (p <= length (tshape x))%nat ->
  fiber (seq p (length (tshape x) - p)) x idx = map (fun k => tget x (firstn p idx ++ k)) (indices (skipn p (tshape x))).
Proof.
  intros V Hp. pose proof (valid_length _ _ V) as L. unfold fiber. rewrite (filter_ext_in _ (agree_from 0 (seq p (length (tshape x) - p)) idx)).
  2: { intros j Hj. apply indices_valid, valid_length in Hj. apply agree_off_from. lia. }
  pose proof (filter_trailing (skipn p (tshape x)) (skipn p idx) (firstn p (tshape x)) (firstn p idx) 0) as H.
  rewrite !firstn_skipn in H. rewrite firstn_length, !skipn_length, Nat.min_l, Nat.add_0_l in H by lia.
  rewrite H, map_map; [reflexivity| |lia].
  apply valid_intro; [rewrite !firstn_length; lia|]. intros k Hk. rewrite firstn_length, Nat.min_l in Hk by lia.
  rewrite !nth_firstn' by lia. apply valid_nth; [auto|lia].
Qed.

(** an operand with fewer axes *)
Lemma bidx_rev_app s : forall i a, length s = length i -> bidx_rev s (i ++ a) = bidx_rev s i.
Proof. induction s as [|d s IH]; intros [|b i] a L; cbn [length] in L; try discriminate; [destruct a; reflexivity|]. cbn. now rewrite IH by lia. Qed.
Lemma bidx_app s a i : length s = length i -> bidx s (a ++ i) = bidx s i.
Proof. intro L. unfold bidx. rewrite rev_app_distr, bidx_rev_app by (rewrite !rev_length; auto). reflexivity. Qed.
Lemma bshape_rev_app s : forall u a r, length s = length u -> bshape_rev s u = Some r -> bshape_rev (s ++ a) u = Some (r ++ a).
Proof.
  induction s as [|d s IH]; intros [|b u] a r L H; cbn [length] in L; try discriminate.
  - injection H as <-. destruct a; reflexivity.
  - cbn in *. destruct (bdim d b); [|destruct (bshape_rev s u); discriminate]. destruct (bshape_rev s u) as [q|] eqn:E; [|discriminate]. injection H as <-.
    now rewrite (IH u a q) by (auto; lia).
Qed.
Lemma bshape_app a s u r : length s = length u -> bshape s u = Some r -> bshape (a ++ s) u = Some (a ++ r).
Proof.
  intros L H. unfold bshape in *. destruct (bshape_rev (rev s) (rev u)) as [q|] eqn:E; [|discriminate]. injection H as <-.
  rewrite rev_app_distr, (bshape_rev_app _ _ _ q) by (auto; rewrite !rev_length; auto). cbn. now rewrite rev_app_distr, rev_involutive.
Qed.
Lemma bshape_ones_tail s : forall c, bshape (c :: s) (c :: repeat 1%nat (length s)) = Some (c :: s).
Proof.
  intro c. rewrite bshape_cons by (rewrite repeat_length; auto). unfold bdim. rewrite Nat.eqb_refl.
  assert (H : bshape s (repeat 1%nat (length s)) = Some s); [|now rewrite H].
  induction s as [|d s IH]; [reflexivity|]. cbn [length repeat]. rewrite bshape_cons by (rewrite repeat_length; auto). rewrite IH.
  unfold bdim. destruct (Nat.eqb_spec d 1) as [->|]; reflexivity.
Qed.

Lemma aten_layer_norm_correct eps ns (w b x : tensor R) :
  ns <> [] -> (length ns <= length (tshape x))%nat -> skipn (length (tshape x) - length ns) (tshape x) = ns -> tshape w = ns -> tshape b = ns ->
  exists y, aten_layer_norm eps ns w b x = Some y /\ teq y (layer_norm eps ns w b x).
Proof.
  intros NE L Hn Hw Hb. unfold aten_layer_norm. set (p := (length (tshape x) - length ns)%nat) in *.
  assert (A : map (fun i => (length (tshape x) - i)%nat) (rev (seq 1 (length ns))) = seq p (length (tshape x) - p)).
  { apply list_eq_nth.
    - rewrite map_length, rev_length, !seq_length. unfold p. lia.
    - intros k Hk. rewrite map_length, rev_length, seq_length in Hk.
      rewrite (nth_indep _ 0%nat ((fun i => (length (tshape x) - i)%nat) 0%nat)) by (rewrite map_length, rev_length, seq_length; auto).
      rewrite (map_nth (fun i => (length (tshape x) - i)%nat)), rev_nth by (rewrite seq_length; auto). rewrite seq_length, !seq_nth by (unfold p; lia). unfold p. lia. }
  rewrite A. destruct (normalize_correct (seq p (length (tshape x) - p)) eps x) as (nm & En & Sn & Gn).
  { intro Q. rewrite Q in L. destruct ns; [congruence|cbn in L; lia]. }
  rewrite En. cbn [obind].
  assert (Bs : bshape (tshape x) ns = Some (tshape x)).
  { rewrite <- (firstn_skipn p (tshape x)), Hn. apply bshape_app; [auto|apply bshape_self]. }
  unfold binop at 1. rewrite Sn, Hw, Bs. cbn [obind]. unfold binop. cbn [tshape]. rewrite Hb, Bs. eexists. split; [reflexivity|].
  split; [reflexivity|]. cbn [tshape tget]. intros idx V. rewrite !(bidx_self (tshape x) idx V). rewrite Gn by auto.
  rewrite fiber_trailing by (auto; unfold p; lia). rewrite Hn. unfold layer_norm. cbn [tget]. fold p.
  assert (B : bidx ns idx = skipn p idx).
  { rewrite <- (firstn_skipn p idx) at 1. pose proof (valid_length _ _ V) as Lv. rewrite bidx_app by (rewrite skipn_length; unfold p; lia).
    apply bidx_self. rewrite <- Hn at 1. apply valid_intro; [rewrite !skipn_length; lia|]. intros k Hk. rewrite skipn_length in Hk.
    rewrite !nth_skipn'. apply valid_nth; [auto|lia]. }
  rewrite B. reflexivity.
Qed.

Lemma bidx_ones_any m : forall idx, length idx = m -> bidx (repeat 1%nat m) idx = repeat 0%nat m.
Proof. induction m as [|m IH]; intros [|i idx] L; cbn [length] in L; try discriminate; [reflexivity|]. cbn [repeat]. rewrite bidx_cons by (rewrite repeat_length; lia). cbn [Nat.eqb]. now rewrite IH by lia. Qed.
Lemma ravel_ones m : ravel (repeat 1%nat m) (repeat 0%nat m) = 0%nat.
Proof. induction m; cbn; auto. Qed.
Lemma prod_repeat1 m : prod (repeat 1%nat m) = 1%nat.
Proof. induction m; cbn; lia. Qed.
Lemma channel_operand l n c pos N dims : valid (N :: length l :: dims) (n :: c :: pos) ->
  tget (reshape (length l :: repeat 1%nat (length dims)) (vec l)) (bidx (length l :: repeat 1%nat (length dims)) (n :: c :: pos)) = nth c l 0.
Proof.
  intro V. inversion V as [|? ? ? ? Hn V1]; subst. inversion V1 as [|? ? ? ? Hc V2]; subst. apply valid_length in V2.
  change (n :: c :: pos) with ([n] ++ c :: pos). rewrite bidx_app by (cbn [length]; rewrite repeat_length; lia).
  rewrite bidx_cons by (rewrite repeat_length; lia). rewrite bidx_ones_any by lia.
  replace (if (length l =? 1)%nat then 0%nat else c) with c by (destruct (Nat.eqb_spec (length l) 1); lia).
  unfold reshape. cbn [tget vec tshape ravel]. rewrite prod_repeat1, ravel_ones. cbn [unravel prod nth]. rewrite Nat.div_1_r. f_equal. lia.
Qed.
Lemma affine_correct w b (y : tensor R) N C dims : (w = None <-> b = None) ->
  (forall l, w = Some l -> length l = C) -> (forall l, b = Some l -> length l = C) -> tshape y = N :: C :: dims ->
  exists z, apply_affine w b (length (tshape y)) y = Some z /\ tshape z = tshape y /\
    forall idx, valid (tshape y) idx -> tget z idx = affine w b (nth 1 idx 0%nat) (tget y idx).
Proof.
  intros I Hw Hb E. destruct w as [w|], b as [b|]; try (destruct I as [I1 I2]; (discriminate (I1 eq_refl) || discriminate (I2 eq_refl))).
  - specialize (Hw w eq_refl). specialize (Hb b eq_refl). cbn [apply_affine]. rewrite E. cbn [length]. replace (S (S (length dims)) - 2)%nat with (length dims) by lia.
    rewrite Hw, Hb. assert (Bs : bshape (N :: C :: dims) (C :: repeat 1%nat (length dims)) = Some (N :: C :: dims)).
    { change (N :: C :: dims) with ([N] ++ C :: dims). apply bshape_app; [cbn; rewrite repeat_length; auto|apply bshape_ones_tail]. }
    unfold binop at 1. cbn [reshape tshape]. rewrite E, Bs. cbn [obind]. unfold binop. cbn [reshape tshape]. rewrite Bs.
    eexists. split; [reflexivity|]. split; [cbn; auto|]. intros idx V. cbn [tget]. rewrite !(bidx_self (N :: C :: dims) idx V).
    destruct idx as [|n [|c pos]]; try (apply valid_length in V; discriminate). cbn [nth]. unfold affine.
    change (fun idx => tget (vec w) (unravel (tshape (vec w)) (ravel (C :: repeat 1%nat (length dims)) idx))) with (tget (reshape (C :: repeat 1%nat (length dims)) (vec w))).
    f_equal; [f_equal|].
    + rewrite <- Hw in V |- *. apply (channel_operand w n c pos N dims V).
    + rewrite <- Hb in V |- *. apply (channel_operand b n c pos N dims V).
  - exists y. split; [reflexivity|]. split; [reflexivity|]. intros idx V. unfold affine. ring.
Qed.

Lemma aten_instance_norm_correct use eps w b rm rv (x : tensor R) N C dims :
  tshape x = N :: C :: dims -> (w = None <-> b = None) -> (rm = None <-> rv = None) ->
  (forall l, w = Some l -> length l = C) -> (forall l, b = Some l -> length l = C) ->
  (rm <> None -> w <> None) -> use = match rm with None => true | _ => false end ->
  exists y, aten_instance_norm eps w b rm rv x = Some y /\
    teq y (torch_instance_norm use eps w b (match rm with Some l => l | None => [] end) (match rv with Some l => l | None => [] end) x).
Proof.
  intros E I I' Hw Hb A ->. unfold aten_instance_norm, torch_instance_norm. destruct rm as [rm|].
  - destruct rv as [rv|]; [|destruct I' as [_ I']; discriminate (I' eq_refl)].
    destruct w as [w|]; [|exfalso; apply A; congruence]. destruct b as [b|]; [|destruct I as [_ I]; discriminate (I eq_refl)].
    eexists. split; [reflexivity|]. split; [reflexivity|]. intros idx V. unfold batch_norm, bn_affine, affine. cbn [tget]. reflexivity.
  - destruct (normalize_correct (seq 2 (length (tshape x) - 2)) eps x) as (y & Ey & Sy & Gy); [rewrite E; discriminate|].
    rewrite Ey. cbn [obind]. rewrite <- Sy. destruct (affine_correct w b y N C dims I Hw Hb) as (z & Ez & Sz & Gz); [congruence|].
    exists z. split; [exact Ez|]. split; [cbn; congruence|]. intros idx V. rewrite Sz in V. rewrite Gz by auto. cbn [instance_norm tget]. cbv zeta.
    f_equal. rewrite Gy by congruence. f_equal. rewrite Sy in V. rewrite fiber_trailing by (auto; rewrite E; cbn; lia).
    destruct idx as [|n [|c pos]]; try (apply valid_length in V; rewrite E in V; discriminate). reflexivity.
Qed.

Lemma valid_cons_inv d s i r : valid (d :: s) (i :: r) -> (i < d)%nat /\ valid s r.
Proof. intro V. inversion V; auto. Qed.
Lemma omap_uniform {A B} (f : A -> option B) (g : A -> B) l : (forall a, In a l -> f a = Some (g a)) -> omap f l = Some (map g l).
Proof. induction l as [|a l IH]; intro H; [reflexivity|]. cbn [omap map]. rewrite H by (simpl; auto). cbn [obind]. rewrite IH by (intros; apply H; simpl; auto). reflexivity. Qed.
Lemma indices_flat d s : indices (d :: s) = flat_map (fun i => map (cons i) (indices s)) (seq 0 d).
Proof. reflexivity. Qed.
Lemma map_flat_map {A B C} (f : B -> C) (g : A -> list B) l : map f (flat_map g l) = flat_map (fun a => map f (g a)) l.
Proof. induction l; [reflexivity|]. cbn [flat_map]. now rewrite map_app, IHl. Qed.

Lemma aten_group_norm_correct eps groups w b (x : tensor R) N C dims :
  tshape x = N :: C :: dims -> (w = None <-> b = None) -> (0 < groups)%nat -> (0 < C)%nat -> (C mod groups = 0)%nat ->
  (forall l, w = Some l -> length l = C) -> (forall l, b = Some l -> length l = C) ->
  exists y, aten_group_norm eps groups w b x = Some y /\ teq y (group_norm eps groups w b x).
Proof.
  intros E I Hg HC Hm Hw Hb. assert (Dv : (groups * (C / groups) = C)%nat) by (pose proof (Nat.div_mod C groups ltac:(lia)); lia).
  set (cpg := (C / groups)%nat) in *. assert (Hc : (0 < cpg)%nat) by (destruct cpg; lia).
  assert (NE : tshape x <> []) by (rewrite E; discriminate).
  (* all branches give the normalised tensor *)
  assert (K : exists y, (if (C =? groups)%nat && (1 <? groups)%nat then normalize (seq 2 (length (tshape x) - 2)) eps x
         else if (groups =? 1)%nat then normalize (seq 1 (length (tshape x) - 1)) eps x
         else if (groups =? 0)%nat || negb (C mod groups =? 0)%nat then None
         else obind (omap (normalize (seq 1 (length (tshape x) - 1)) eps)
                          (map (fun g => chunk 1 (g * cpg) cpg x) (seq 0 groups)))
                    (fun ns => Some (concatenation 0 1 ns))) = Some y /\ tshape y = tshape x /\
     forall n c pos, valid (tshape x) (n :: c :: pos) -> tget y (n :: c :: pos) =
       normal eps (flat_map (fun j => map (fun k => tget x (n :: (c / cpg * cpg + j)%nat :: k)) (indices dims)) (seq 0 cpg)) (tget x (n :: c :: pos))).
  { destruct ((C =? groups)%nat && (1 <? groups)%nat) eqn:B1.
    - apply andb_true_iff in B1. destruct B1 as [B1 B2]. apply Nat.eqb_eq in B1. subst groups.
      destruct (normalize_correct (seq 2 (length (tshape x) - 2)) eps x NE) as (y & Ey & Sy & Gy). exists y. split; [auto|]. split; [auto|].
      intros n c pos V. rewrite Gy by auto. f_equal. rewrite fiber_trailing by (auto; rewrite E; cbn; lia).
      assert (cpg = 1%nat) as -> by nia. rewrite E. cbn [seq flat_map skipn firstn app]. rewrite app_nil_r, Nat.div_1_r, Nat.mul_1_r, Nat.add_0_r. reflexivity.
    - destruct (Nat.eqb_spec groups 1) as [->|G1].
      + destruct (normalize_correct (seq 1 (length (tshape x) - 1)) eps x NE) as (y & Ey & Sy & Gy). exists y. split; [auto|]. split; [auto|].
        intros n c pos V. rewrite Gy by auto. f_equal. rewrite fiber_trailing by (auto; rewrite E; cbn; lia).
        rewrite E. cbn [skipn firstn]. rewrite indices_flat, map_flat_map. assert (cpg = C) as -> by lia.
        rewrite E in V. apply valid_cons_inv in V. destruct V as [Hn V1]. apply valid_cons_inv in V1. destruct V1 as [Hcc V2]. rewrite Nat.div_small by auto.
        apply flat_map_ext. intro j. rewrite map_map. reflexivity.
      + destruct (Nat.eqb_spec groups 0) as [|G0]; [lia|]. rewrite Hm. cbn [orb negb Nat.eqb].
        set (part := fun g => chunk 1 (g * cpg) cpg x).
        assert (Pc : forall g, tshape (part g) = N :: cpg :: dims) by (intro g; unfold part, chunk; cbn [tshape]; rewrite E; reflexivity).
        set (nrm := fun g => match normalize (seq 1 (length (tshape x) - 1)) eps (part g) with Some t => t | None => part g end).
        assert (Nr : forall g, normalize (seq 1 (length (tshape x) - 1)) eps (part g) = Some (nrm g) /\ tshape (nrm g) = N :: cpg :: dims /\
           forall idx, valid (N :: cpg :: dims) idx -> tget (nrm g) idx = normal eps (map (fun k => tget (part g) (firstn 1 idx ++ k)) (indices (cpg :: dims))) (tget (part g) idx)).
        { intro g. destruct (normalize_correct (seq 1 (length (tshape x) - 1)) eps (part g)) as (y & Ey & Sy & Gy); [rewrite Pc; discriminate|].
          unfold nrm. rewrite Ey. split; [reflexivity|]. split; [rewrite Sy; apply Pc|]. intros idx V. rewrite <- (Pc g) in V. rewrite Gy by auto. f_equal.
          replace (length (tshape x)) with (length (tshape (part g))) by (rewrite Pc, E; reflexivity). rewrite fiber_trailing by (auto; rewrite Pc; cbn; lia).
          rewrite Pc. reflexivity. }
        rewrite (omap_uniform _ (fun t => match normalize (seq 1 (length (tshape x) - 1)) eps t with Some t => t | None => t end)).
        2: { intros a Ha. apply in_map_iff in Ha. destruct Ha as (g & <- & _). fold (part g). destruct (Nr g) as [N1 _]. rewrite N1. reflexivity. }
        rewrite map_map. cbn [obind].
        change (map (fun g => match normalize (seq 1 (length (tshape x) - 1)) eps (chunk 1 (g * cpg) cpg x) with Some t => t | None => chunk 1 (g * cpg) cpg x end) (seq 0 groups))
          with (map nrm (seq 0 groups)).
        assert (Ax : forall g, axis_size 1 (nrm g) = cpg) by (intro g; unfold axis_size; destruct (Nr g) as (_ & Q & _); rewrite Q; reflexivity).
        exists (concatenation 0 1 (map nrm (seq 0 groups))). split; [reflexivity|]. split.
        * unfold concatenation. cbn [tshape]. rewrite (sizes_sum_uniform 1 cpg) by auto. rewrite Dv, E. destruct groups as [|m]; [lia|]. cbn [seq map].
          destruct (Nr 0%nat) as (_ & Q & _). rewrite Q. reflexivity.
        * intros n c pos V. unfold concatenation. cbn [tget nth]. rewrite E in V. apply valid_cons_inv in V. destruct V as [Hn V1]. apply valid_cons_inv in V1. destruct V1 as [Hcc V2].
          rewrite (cat_at_uniform 0 1 cpg nrm) by (auto; lia). rewrite Nat.add_0_l. cbn [upd]. destruct (Nr (c / cpg)%nat) as (_ & _ & Q).
          rewrite Q.
          2: { constructor; [auto|]. constructor; [apply Nat.mod_upper_bound; lia|auto]. }
          unfold part. f_equal.
          -- rewrite indices_flat, map_flat_map. apply flat_map_ext. intro j. rewrite map_map. reflexivity.
          -- cbn [chunk tget nth upd]. do 3 f_equal. rewrite (Nat.div_mod c cpg) at 3 by lia. lia. }
  destruct K as (y & Ey & Sy & Gy). unfold aten_group_norm. replace (nth 1 (tshape x) 0%nat) with C by (rewrite E; reflexivity). fold cpg. rewrite Ey. cbn [obind]. rewrite <- Sy.
  destruct (affine_correct w b y N C dims I Hw Hb) as (z & Ez & Sz & Gz); [congruence|].
  exists z. split; [exact Ez|]. split; [cbn; congruence|]. intros idx V. rewrite Sz in V. rewrite Gz by auto. rewrite Sy in V.
  destruct idx as [|n [|c pos]]; try (apply valid_length in V; rewrite E in V; discriminate). rewrite Gy by auto. unfold group_norm. cbn [tget]. rewrite E. reflexivity.
Qed.

(** * settings in which the result is wrong *)
Definition two_points : tensor R := mkT [1; 1; 2]%nat (fun idx => INR (nth 2 idx 0%nat)).
Lemma two_points_normal eps i : (i < 2)%nat -> 0 < eps -> normal eps [0; 1] (INR i) = (INR i - / 2) / sqrt (/ 4 + eps).
Proof.
  intros Hi He. unfold normal, variance, mean, total, sq. cbn -[INR Rmax lsum]. rewrite !lsum_cons, !lsum_nil. unfold lsum. cbn [map fold_right length].
  rewrite Rmax_right; [|cbn; lra]. cbn [INR]. replace ((0 + (1 + 0)) / (1 + 1)) with (/ 2) by field.
  replace (((0 - / 2) * (0 - / 2) + ((1 - / 2) * (1 - / 2) + 0)) / (1 + 1 - 0)) with (/ 4) by field. reflexivity.
Qed.
Lemma group_norm_weight_refuted : forall eps, 0 < eps -> exists y,
  aten_group_norm eps 1 (Some [2]) None two_points = Some y /\ ~ teq y (group_norm eps 1 (Some [2]) None two_points).
Proof.
  intros eps He. destruct (aten_group_norm_correct eps 1 None None two_points 1 1 [2]%nat) as (y & Ey & Ty); try reflexivity; try lia; try (intros; discriminate).
  exists y. split; [exact Ey|]. intros [_ T]. destruct Ty as [Sy Ty]. specialize (T [0; 0; 1]%nat). specialize (Ty [0; 0; 1]%nat).
  assert (V : valid (tshape y) [0; 0; 1]%nat) by (rewrite Sy; repeat constructor; lia). specialize (T V). specialize (Ty V). rewrite T in Ty. revert Ty.
  unfold group_norm, affine. cbn [tget tshape two_points nth Nat.div Nat.divmod fst skipn indices seq flat_map map app Nat.mul Nat.add].
  change [INR 0; INR 1] with [0; 1]. rewrite (two_points_normal eps 1) by (auto; lia). cbn [INR].
  assert (S1 : 0 < sqrt (/ 4 + eps)) by (apply sqrt_lt_R0; lra). intro Q.
  assert (0 < (1 - / 2) / sqrt (/ 4 + eps)) by (apply Rdiv_lt_0_compat; lra). lra.
Qed.
Lemma instance_norm_train_refuted : forall eps, 0 < eps -> exists y,
  aten_instance_norm eps (Some [1]) (Some [0]) (Some [0]) (Some [1]) two_points = Some y /\
  ~ teq y (torch_instance_norm true eps (Some [1]) (Some [0]) [0] [1] two_points).
Proof.
  intros eps He. eexists. split; [reflexivity|]. intros [_ T]. specialize (T [0; 0; 0]%nat). cbn [tshape batch_norm two_points] in T.
  specialize (T ltac:(repeat constructor; lia)). revert T. unfold torch_instance_norm, instance_norm, batch_norm, bn_affine, affine.
  cbn [tget tshape two_points nth skipn indices seq flat_map map app]. change [INR 0; INR 1] with [0; 1].
  rewrite (two_points_normal eps 0) by (auto; lia). cbn [INR]. intro Q.
  assert (S1 : 0 < sqrt (/ 4 + eps)) by (apply sqrt_lt_R0; lra).
  assert (0 < / 2 / sqrt (/ 4 + eps)) by (apply Rdiv_lt_0_compat; lra).
  replace ((0 - / 2) / sqrt (/ 4 + eps)) with (- (/ 2 / sqrt (/ 4 + eps))) in Q by (field; lra).
  replace ((0 - 0) / sqrt (1 + eps) * 1 + 0) with 0 in Q; [lra|]. unfold Rdiv. ring.
Qed.
Lemma var_empty_refuted : exists (x y : tensor R), aten_var (Some []) false true 1 x = Some y /\
  ~ teq y (torch_reduce (variance 1) (red_axes (length (tshape x)) []) false x).
Proof. exists two_points. eexists. split; [reflexivity|]. intros [T _]. discriminate T. Qed.
Lemma norm_recorded_refuted : exists (x y : tensor R) arg,
  aten_norm 2 arg x = Some y /\ teq y (torch_reduce norm2 (seq 0 3) true x) /\ norm_recorded 3 arg (tshape y) <> tshape y.
Proof.
  exists two_points. destruct (aten_norm_correct (Some ([0; 1; 2]%Z, true)) two_points) as [_ (y & Ey & Ty)]; [repeat constructor|].
  exists y, (Some ([0; 1; 2]%Z, true)). split; [exact Ey|]. split; [exact Ty|]. destruct Ty as [Sy _]. rewrite Sy. discriminate.
Qed.
