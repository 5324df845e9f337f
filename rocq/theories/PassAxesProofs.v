(** Transpose passthrough for operators that add or drop an axis and for broadcasting operators. *)
From Coq Require Import List Arith Bool Lia Permutation Reals.
From Verif Require Import Tensor ChainModel ChainProofs ReshapeProofs LowerProofs FuseMiscProofs PassModel.
From Verif Require Import ConvSpec CatSpec LayoutSpec CatProofs PassProofs.
Import ListNotations.
Local Open Scope nat_scope.

(* ------------------------------------------------------------------ *)
(** * Adding and dropping an axis *)

Definition dec (ax k : nat) : nat := if ax <? k then k - 1 else k.

Lemma find_pos_split ax q : In ax q -> exists a b, q = a ++ ax :: b /\ length a = find_pos ax q /\ ~ In ax a.
Proof.
  induction q as [|x q IH]; [intros []|]. intro H. cbn [find_pos]. destruct (Nat.eqb_spec ax x) as [->|N].
  - exists [], q. split; [reflexivity|]. split; [now rewrite ?Nat.eqb_refl|intros []].
  - destruct H as [H|H]; [congruence|]. destruct (IH H) as (a & b & -> & L & Ha). exists (x :: a), b.
    split; [reflexivity|]. split; [cbn [length]; destruct (Nat.eqb_spec x ax); [congruence|]; now rewrite L|].
    intros [E|E]; [congruence|auto].
Qed.
Lemma filter_notin ax l : ~ In ax l -> filter (fun k => negb (k =? ax)) l = l.
Proof.
  induction l as [|x l IH]; intro H; [reflexivity|]. cbn [filter]. destruct (Nat.eqb_spec x ax) as [->|]; [exfalso; apply H; simpl; auto|].
  cbn [negb]. f_equal. apply IH. intro. apply H. simpl; auto.
Qed.
Lemma drop_axis_split ax a b : ~ In ax a -> ~ In ax b -> drop_axis ax (a ++ ax :: b) = map (dec ax) a ++ map (dec ax) b.
Proof.
  intros Ha Hb. unfold drop_axis. rewrite filter_app. cbn [filter]. rewrite Nat.eqb_refl. cbn [negb].
  rewrite !filter_notin by auto. apply map_app.
Qed.
Lemma insert_at_nth ax v l k : ax <= length l -> k <> ax -> nth k (insert_at ax v l) 0 = nth (dec ax k) l 0.
Proof.
  intros H N. unfold insert_at, dec. destruct (Nat.ltb_spec ax k) as [L|L].
  - rewrite app_nth2 by (rewrite firstn_length; lia). rewrite firstn_length, Nat.min_l by lia.
    destruct (k - ax) as [|m] eqn:E; [lia|]. cbn [nth].
    rewrite <- (firstn_skipn ax l) at 2. rewrite app_nth2 by (rewrite firstn_length; lia). rewrite firstn_length, Nat.min_l by lia. f_equal; lia.
  - rewrite app_nth1 by (rewrite firstn_length; lia). rewrite <- (firstn_skipn ax l) at 2.
    rewrite app_nth1 by (rewrite firstn_length; lia). reflexivity.
Qed.
Lemma insert_at_eq ax v l : ax <= length l -> nth ax (insert_at ax v l) 0 = v.
Proof.
  intro H. unfold insert_at. rewrite app_nth2 by (rewrite firstn_length; lia). rewrite firstn_length, Nat.min_l by lia. now rewrite Nat.sub_diag.
Qed.
Lemma insert_at_length ax v l : length (insert_at ax v l) = S (length l).
Proof. unfold insert_at. rewrite app_length. cbn [length]. rewrite <- (firstn_skipn ax l) at 3. rewrite app_length. lia. Qed.
Lemma remove_insert ax v l : ax <= length l -> remove_at ax (insert_at ax v l) = l.
Proof.
  intro H. unfold remove_at, insert_at. rewrite firstn_app, firstn_firstn, firstn_length, !Nat.min_l by lia.
  rewrite Nat.sub_diag. cbn [firstn]. rewrite app_nil_r. rewrite skipn_app, firstn_length, Nat.min_l by lia.
  rewrite (skipn_all2 (firstn ax l)) by (rewrite firstn_length; lia). replace (S ax - ax) with 1 by lia. cbn [app skipn]. apply firstn_skipn.
Qed.
Lemma insert_remove ax l : ax < length l -> insert_at ax (nth ax l 0) (remove_at ax l) = l.
Proof.
  intro H. unfold remove_at, insert_at.
  rewrite firstn_app, firstn_firstn, firstn_length, !Nat.min_l, Nat.sub_diag by lia. cbn [firstn]. rewrite app_nil_r.
  rewrite skipn_app, firstn_length, Nat.min_l, Nat.sub_diag by lia. cbn [skipn].
  rewrite (skipn_all2 (firstn ax l)) by (rewrite firstn_length; lia). cbn [app].
  rewrite <- (firstn_skipn ax l) at 4. f_equal.
  clear - H. revert ax H. induction l as [|x l IH]; intros [|ax] H; cbn [length] in H; try lia; [reflexivity|].
  cbn [skipn nth]. apply IH. lia.
Qed.
Lemma remove_at_length ax l : ax < length l -> length (remove_at ax l) = length l - 1.
Proof. intro H. unfold remove_at. rewrite app_length, firstn_length, skipn_length. lia. Qed.
Lemma remove_at_nth ax l k : ax < length l -> nth k (remove_at ax l) 0 = nth (if k <? ax then k else S k) l 0.
Proof.
  intro H. unfold remove_at. destruct (Nat.ltb_spec k ax).
  - rewrite app_nth1 by (rewrite firstn_length; lia). rewrite <- (firstn_skipn ax l) at 2. rewrite app_nth1 by (rewrite firstn_length; lia). reflexivity.
  - rewrite app_nth2 by (rewrite firstn_length; lia). rewrite firstn_length, Nat.min_l by lia. rewrite <- (firstn_skipn (S ax) l) at 2.
    rewrite app_nth2 by (rewrite firstn_length; lia). rewrite firstn_length, Nat.min_l by lia. f_equal; lia.
Qed.

Section Drop.
  Variable (n : nat) (q : list nat) (ax : nat).
  Hypothesis Hq : is_perm n q.
  Hypothesis Hax : ax < n.
  Lemma q_parts : exists a b, q = a ++ ax :: b /\ length a = find_pos ax q /\ ~ In ax a /\ ~ In ax b.
  Proof.
    assert (In ax q) as Hin by (apply (is_perm_in n); auto).
    destruct (find_pos_split ax q Hin) as (a & b & E & L & Ha). exists a, b. split; [auto|split; [auto|split; [auto|]]].
    pose proof (is_perm_NoDup _ _ Hq) as Hn. rewrite E in Hn. apply NoDup_remove_2 in Hn. intro. apply Hn. apply in_app_iff; auto.
  Qed.
  Lemma insert_sel v i : length i = n - 1 ->
    insert_at (find_pos ax q) v (sel i (drop_axis ax q)) = sel (insert_at ax v i) q.
  Proof.
    intro Li. destruct q_parts as (a & b & E & L & Ha & Hb). rewrite <- L, E, drop_axis_split by auto.
    unfold sel at 1. rewrite map_app, !map_map. unfold insert_at at 1.
    rewrite firstn_app, map_length, Nat.sub_diag. cbn [firstn]. rewrite app_nil_r, firstn_all2 by (rewrite map_length; auto).
    rewrite skipn_app, map_length, Nat.sub_diag. cbn [skipn]. rewrite skipn_all2 by (rewrite map_length; auto). cbn [app].
    unfold sel. rewrite map_app. cbn [map]. rewrite insert_at_eq by lia.
    f_equal; [|f_equal].
    - apply map_ext_in. intros k Hk. rewrite insert_at_nth; [reflexivity|lia|]. intros ->. auto.
    - apply map_ext_in. intros k Hk. rewrite insert_at_nth; [reflexivity|lia|]. intros ->. auto.
  Qed.
  Lemma remove_sel s : length s = n -> remove_at (find_pos ax q) (sel s q) = sel (remove_at ax s) (drop_axis ax q).
  Proof.
    intro Ls. assert (length (remove_at ax s) = n - 1) as Lr by (rewrite remove_at_length; lia).
    rewrite <- (insert_remove ax s) at 1 by lia. rewrite <- insert_sel by auto. apply remove_insert.
    rewrite sel_length. destruct q_parts as (a & b & E & L & Ha & Hb). rewrite <- L, E, drop_axis_split, app_length, map_length by auto. lia.
  Qed.
  Lemma drop_axis_perm : is_perm (n - 1) (drop_axis ax q).
  Proof.
    destruct q_parts as (a & b & E & L & Ha & Hb). pose proof (is_perm_length _ _ Hq) as Lq. pose proof (is_perm_NoDup _ _ Hq) as Hn.
    assert (forall k, In k a \/ In k b -> k < n /\ k <> ax) as Hab.
    { intros k Hk. split; [apply (is_perm_in n _ _ Hq); rewrite E; apply in_app_iff; cbn; destruct Hk; auto|].
      intros ->. destruct Hk; auto. }
    apply is_perm_intro.
    - rewrite E, drop_axis_split, app_length, !map_length by auto. rewrite E, app_length in Lq. cbn [length] in Lq. lia.
    - rewrite E, drop_axis_split, <- map_app by auto. apply NoDup_map_inj.
      + intros u v Hu Hv. apply in_app_iff in Hu, Hv. destruct (Hab u Hu), (Hab v Hv). unfold dec.
        destruct (Nat.ltb_spec ax u), (Nat.ltb_spec ax v); lia.
      + rewrite E in Hn. apply NoDup_remove_1 in Hn. exact Hn.
    - rewrite E, drop_axis_split, <- map_app by auto. apply Forall_forall. intros k Hk. apply in_map_iff in Hk. destruct Hk as (u & <- & Hu).
      apply in_app_iff in Hu. destruct (Hab u Hu). unfold dec. destruct (Nat.ltb_spec ax u); lia.
  Qed.
End Drop.

(** the same check when the permutation behind the node is the inverse of [r] *)
Lemma back_inv {A} m r (y y' : tensor A) : is_perm m r -> length (tshape y) = m ->
  tshape y' = sel (tshape y) r ->
  (forall j, length j = m -> valid (tshape y) j -> tget y' (sel j r) = tget y j) ->
  teq (transpose (argsort r) y') y.
Proof.
  intros Hr L HS HG. rewrite (argsort_inv_perm _ _ Hr). pose proof (inv_perm_is_perm _ _ Hr) as Hi.
  assert (teq y' (transpose r y)) as E.
  { apply transpose_unique; [rewrite L; auto|auto|]. intros j V. apply HG; auto. rewrite (valid_length _ _ V). auto. }
  eapply teq_trans; [apply transpose_congr; [|exact E]; rewrite HS, sel_length, (is_perm_length _ _ Hr); auto|].
  eapply teq_trans; [apply transpose_transpose; rewrite L; auto|].
  assert (sel r (inv_perm r) = seq 0 m) as ->.
  { rewrite <- (argsort_inv_perm _ _ Hr). apply argsort_inv. auto. }
  rewrite <- L. apply transpose_id.
Qed.

Theorem pt_unpack_ok {A} perm ax j (x : tensor A) : is_perm (length (tshape x)) perm -> ax < length (tshape x) ->
  exists ax', pt_axis perm ax = Some ax' /\
  teq (transpose (unpack_post perm ax) (unpack ax' j (transpose (pt_inv perm) x))) (unpack ax j x).
Proof.
  intros Hp Hax. eexists. split; [eapply pt_axis_spec; eauto|]. pose proof (pt_inv_perm _ _ Hp) as Hq.
  set (n := length (tshape x)) in *. unfold unpack_post.
  apply back_inv with (m := n - 1).
  - apply drop_axis_perm; auto.
  - cbn [unpack tshape]. rewrite remove_at_length; auto.
  - cbn [unpack tshape transpose]. apply (remove_sel n); auto.
  - intros i Li V. unfold unpack. cbn [tget]. rewrite (insert_sel n) by auto. apply (transpose_get _ x _ n Hq).
    rewrite insert_at_length. lia.
Qed.

Lemma valid_remove s idx ax : valid s idx -> ax < length s -> valid (remove_at ax s) (remove_at ax idx).
Proof.
  intros V H. pose proof (valid_length _ _ V) as L. apply valid_intro; [rewrite !remove_at_length by lia; lia|].
  intros k Hk. rewrite remove_at_length in Hk by lia. rewrite !remove_at_nth by lia.
  destruct (Nat.ltb_spec k ax); apply valid_nth; auto; lia.
Qed.
Lemma sel_map_dec ax l q : Forall (fun k => k < length l) q -> sel (map (dec ax) l) q = map (dec ax) (sel l q).
Proof.
  intro HF. unfold sel. rewrite map_map. apply map_ext_in. intros k Hk. rewrite Forall_forall in HF. specialize (HF k Hk).
  rewrite (nth_indep _ 0 (dec ax 0)) by (rewrite map_length; auto). apply map_nth.
Qed.
Lemma map_dec_remove_seq ax n : ax < n -> map (dec ax) (remove_at ax (seq 0 n)) = seq 0 (n - 1).
Proof.
  intro H. apply list_eq_nth.
  - rewrite map_length, remove_at_length, !seq_length by (rewrite seq_length; auto). reflexivity.
  - intros k Hk. rewrite map_length, remove_at_length, seq_length in Hk by (rewrite seq_length; auto).
    rewrite (nth_indep _ 0 (dec ax 0)) by (rewrite map_length, remove_at_length, seq_length by (rewrite seq_length; auto); auto).
    rewrite (map_nth (dec ax)), remove_at_nth by (rewrite seq_length; lia).
    destruct (Nat.ltb_spec k ax).
    + rewrite !seq_nth by lia. unfold dec. destruct (Nat.ltb_spec ax (0 + k)); lia.
    + rewrite !seq_nth by lia. unfold dec. destruct (Nat.ltb_spec ax (0 + S k)); lia.
Qed.
Lemma drop_axis_remove n p ax : is_perm n p -> ax < n -> nth ax p 0 = ax -> drop_axis ax p = map (dec ax) (remove_at ax p).
Proof.
  intros Hp Hax Hf. destruct (q_parts n p ax Hp Hax) as (a & b & E & L & Ha & Hb).
  assert (find_pos ax p = ax) as Ef.
  { rewrite <- Hf at 1. apply find_pos_nth; [eapply is_perm_NoDup; eauto|rewrite (is_perm_length _ _ Hp); auto]. }
  rewrite Ef in L. rewrite E, drop_axis_split by auto. unfold remove_at.
  rewrite firstn_app, L, Nat.sub_diag, firstn_all2 by lia. cbn [firstn]. rewrite app_nil_r.
  rewrite skipn_app, L, (skipn_all2 a) by lia. replace (S ax - ax) with 1 by lia. cbn [skipn app]. now rewrite map_app.
Qed.
(** a permutation that keeps the axis in place: dropping it commutes with inversion *)
Lemma drop_axis_inv n p ax : is_perm n p -> ax < n -> nth ax p 0 = ax ->
  argsort (drop_axis ax p) = drop_axis ax (pt_inv p).
Proof.
  intros Hp Hax Hf. pose proof (pt_inv_perm _ _ Hp) as Hq. pose proof (drop_axis_perm n p ax Hp Hax) as Hd.
  pose proof (drop_axis_perm n _ ax Hq Hax) as Hd'. rewrite (argsort_inv_perm _ _ Hd).
  pose proof (is_perm_length _ _ Hp) as Lp.
  assert (find_pos ax (pt_inv p) = ax) as Ef.
  { rewrite (pt_inv_inv _ _ Hp). assert (nth ax (inv_perm p) 0 = ax) as E.
    { rewrite inv_perm_nth by lia. rewrite <- Hf at 1. apply find_pos_nth; [eapply is_perm_NoDup; eauto|lia]. }
    rewrite <- E at 1. apply find_pos_nth; [eapply is_perm_NoDup, inv_perm_is_perm; eauto|rewrite inv_perm_length; lia]. }
  assert (sel (drop_axis ax p) (drop_axis ax (pt_inv p)) = seq 0 (n - 1)) as E.
  { rewrite (drop_axis_remove n p ax) by auto. rewrite sel_map_dec.
    - rewrite <- (remove_sel n _ _ Hq Hax) by auto. rewrite Ef.
      assert (sel p (pt_inv p) = seq 0 n) as -> by (apply argsort_inv; auto). apply map_dec_remove_seq; auto.
    - rewrite remove_at_length, Lp by lia. apply is_perm_Forall; auto. }
  apply list_eq_nth; [rewrite inv_perm_length, (is_perm_length _ _ Hd), (is_perm_length _ _ Hd'); auto|].
  intros k Hk. rewrite inv_perm_length, (is_perm_length _ _ Hd) in Hk. rewrite inv_perm_nth by (rewrite (is_perm_length _ _ Hd); auto).
  assert (nth (nth k (drop_axis ax (pt_inv p)) 0) (drop_axis ax p) 0 = k) as Ek.
  { rewrite <- sel_nth by (rewrite (is_perm_length _ _ Hd'); auto). rewrite E, seq_nth; auto. }
  rewrite <- Ek at 1. apply find_pos_nth; [eapply is_perm_NoDup; eauto|]. rewrite (is_perm_length _ _ Hd).
  apply (is_perm_in _ _ _ Hd'). apply nth_In. rewrite (is_perm_length _ _ Hd'). auto.
Qed.

Theorem pt_pack_ok {A} (d : A) perm ax sh (ts : list (tensor A)) : ts <> [] -> Forall (fun t => tshape t = sh) ts ->
  is_perm (S (length sh)) perm -> ax <= length sh -> nth ax perm 0 = ax ->
  exists ax', pack_axis perm ax = Some ax' /\
  teq (transpose perm (pack d ax' (map (transpose (pack_pre perm ax)) ts))) (pack d ax ts).
Proof.
  intros Hne HF Hp Hax Hf. set (n := S (length sh)) in *. eexists. split; [apply (pt_axis_spec n); auto; lia|].
  pose proof (pt_inv_perm _ _ Hp) as Hq. assert (ax < n) as Hl by lia.
  assert (pack_pre perm ax = drop_axis ax (pt_inv perm)) as -> by (apply (drop_axis_inv n); auto).
  pose proof (drop_axis_perm n _ ax Hq Hl) as Hd.
  assert (forall i, length i = n -> nth (find_pos ax (pt_inv perm)) (sel i (pt_inv perm)) 0 = nth ax i 0) as Hat by (intros; eapply sel_at; eauto).
  apply pt_back with (n := n); auto.
  - unfold pack. cbn [tshape]. destruct ts as [|t ts]; [congruence|]. inversion HF; subst. rewrite insert_at_length. reflexivity.
  - unfold pack. cbn [tshape]. rewrite map_length. destruct ts as [|t ts]; [congruence|]. inversion HF; subst.
    cbn [map transpose tshape]. apply (insert_sel n); auto. lia.
  - intros j L V. unfold pack. cbn [tget]. rewrite Hat by auto. rewrite (remove_sel n) by auto.
    assert (nth ax j 0 < length ts) as Hi.
    { pose proof (valid_nth _ _ ax V) as H. unfold pack in H. cbn [tshape] in H. destruct ts as [|t ts]; [congruence|].
      inversion HF; subst. rewrite insert_at_length, insert_at_eq in H by lia. apply H. lia. }
    rewrite (nth_indep _ _ (transpose (drop_axis ax (pt_inv perm)) (mkT [] (fun _ => d)))) by (rewrite map_length; auto).
    rewrite (map_nth (transpose (drop_axis ax (pt_inv perm)))).
    apply (transpose_get _ _ _ (n - 1) Hd). rewrite remove_at_length; lia.
Qed.

(** the candidates taken from the operands keep the axis in place *)
Lemma insert_axis_ok m ax p : is_perm m p -> ax <= m ->
  is_perm (S m) (insert_axis ax p) /\ nth ax (insert_axis ax p) 0 = ax /\ drop_axis ax (insert_axis ax p) = p.
Proof.
  intros Hp Hax. pose proof (is_perm_length _ _ Hp) as L. unfold insert_axis. set (up := fun i => if i <? ax then i else i + 1).
  fold (insert_at ax ax (map up p)).
  assert (forall k, dec ax (up k) = k /\ up k <> ax) as Hup.
  { intro k. unfold dec, up. destruct (Nat.ltb_spec k ax); [destruct (Nat.ltb_spec ax k); lia|]. destruct (Nat.ltb_spec ax (k + 1)); lia. }
  assert (forall l, ~ In ax (map up l)) as Hni.
  { intros l H. apply in_map_iff in H. destruct H as (u & E & _). now apply (proj2 (Hup u)). }
  split; [|split].
  - apply is_perm_intro.
    + rewrite insert_at_length, map_length. lia.
    + unfold insert_at. apply (Permutation_NoDup (l := ax :: map up p)).
      * rewrite <- (firstn_skipn ax (map up p)) at 1. apply Permutation_middle.
      * constructor; [apply Hni|]. apply NoDup_map_inj; [|eapply is_perm_NoDup; eauto].
        intros a b _ _ E. rewrite <- (proj1 (Hup a)), <- (proj1 (Hup b)), E. reflexivity.
    + unfold insert_at. apply Forall_forall. intros k Hk. assert (In k (ax :: map up p)) as Hk'.
      { rewrite <- (firstn_skipn ax (map up p)). apply in_app_iff in Hk. cbn [In] in *. rewrite in_app_iff. tauto. }
      destruct Hk' as [<-|Hk']; [lia|]. apply in_map_iff in Hk'. destruct Hk' as (u & <- & Hu).
      apply (is_perm_in _ _ _ Hp) in Hu. unfold up. destruct (u <? ax); lia.
  - apply insert_at_eq. rewrite map_length. lia.
  - unfold insert_at. rewrite drop_axis_split.
    + rewrite <- map_app, firstn_skipn, map_map. rewrite <- (map_id p) at 2. apply map_ext. intro. apply Hup.
    + intro H. apply (Hni p). rewrite <- (firstn_skipn ax (map up p)). apply in_app_iff; auto.
    + intro H. apply (Hni p). rewrite <- (firstn_skipn ax (map up p)). apply in_app_iff; auto.
Qed.

(* ------------------------------------------------------------------ *)
(** * Broadcasting *)

Lemma bshape_eqlen a : forall b s, length a = length b -> bshape a b = Some s ->
  length s = length a /\ forall k, k < length a -> bdim (nth k a 0) (nth k b 0) = Some (nth k s 0).
Proof.
  induction a as [|x a IH]; intros [|y b] s L H; cbn [length] in L; try lia.
  - cbv in H. injection H as <-. split; [auto|]. intros k Hk. cbn in Hk. lia.
  - rewrite bshape_cons in H by lia. destruct (bdim x y) as [d|] eqn:E; [|discriminate].
    destruct (bshape a b) as [r|] eqn:Er; [|discriminate]. injection H as <-. destruct (IH b r ltac:(lia) Er) as [L' H'].
    split; [cbn [length]; lia|]. intros [|k] Hk; [exact E|]. cbn [nth length] in *. apply H'. lia.
Qed.
Lemma bshape_intro a : forall b s, length a = length b -> length s = length a ->
  (forall k, k < length a -> bdim (nth k a 0) (nth k b 0) = Some (nth k s 0)) -> bshape a b = Some s.
Proof.
  induction a as [|x a IH]; intros [|y b] [|z s] L L' H; cbn [length] in *; try lia; [reflexivity|].
  rewrite bshape_cons by lia. pose proof (H 0 ltac:(lia)) as E. cbn [nth] in E. rewrite E.
  rewrite (IH b s); [reflexivity|lia|lia|]. intros k Hk. apply (H (S k)). lia.
Qed.
Lemma bidx_length_eq s idx : length s = length idx -> length (bidx s idx) = length s.
Proof. intro H. unfold bidx. rewrite rev_length, bidx_rev_length, rev_length by (rewrite !rev_length; lia). reflexivity. Qed.
Lemma bidx_nth s : forall idx k, length s = length idx -> k < length s ->
  nth k (bidx s idx) 0 = if nth k s 0 =? 1 then 0 else nth k idx 0.
Proof.
  induction s as [|d s IH]; intros [|i idx] k L Hk; cbn [length] in *; try lia.
  rewrite bidx_cons by lia. destruct k; cbn [nth]; [reflexivity|]. apply IH; lia.
Qed.
Lemma bshape_sel n q a b s : is_perm n q -> length a = n -> length b = n -> bshape a b = Some s ->
  bshape (sel a q) (sel b q) = Some (sel s q).
Proof.
  intros Hq La Lb H. destruct (bshape_eqlen a b s (eq_trans La (eq_sym Lb)) H) as [Ls Hs].
  apply bshape_intro; rewrite ?sel_length; auto. intros k Hk. rewrite !sel_nth by auto. apply Hs.
  rewrite La. apply (is_perm_in n _ _ Hq). apply nth_In; auto.
Qed.
Lemma bidx_sel n q s idx : is_perm n q -> length s = n -> length idx = n -> bidx (sel s q) (sel idx q) = sel (bidx s idx) q.
Proof.
  intros Hq Ls Li. apply list_eq_nth; [rewrite bidx_length_eq, !sel_length; rewrite ?sel_length; auto|].
  intros k Hk. rewrite bidx_length_eq, sel_length in Hk by (rewrite !sel_length; auto).
  rewrite bidx_nth by (rewrite ?sel_length; auto). rewrite !sel_nth by auto. rewrite bidx_nth; [reflexivity|congruence|].
  rewrite Ls. apply (is_perm_in n _ _ Hq). apply nth_In; auto.
Qed.

(** leading axes of size 1 do not change broadcasting *)
Definition ext {A} (n : nat) (t : tensor A) : tensor A :=
  if length (tshape t) =? n then t else reshape (repeat 1 (n - length (tshape t)) ++ tshape t) t.
Lemma ext_shape {A} n (t : tensor A) : length (tshape t) <= n -> tshape (ext n t) = repeat 1 (n - length (tshape t)) ++ tshape t.
Proof.
  intro H. unfold ext. destruct (Nat.eqb_spec (length (tshape t)) n) as [E|E]; [|reflexivity].
  rewrite E, Nat.sub_diag. reflexivity.
Qed.
Lemma prod_ones m s : prod (repeat 1 m ++ s) = prod s.
Proof. induction m; cbn [repeat app prod]; [reflexivity|]. rewrite IHm. lia. Qed.
Lemma ravel_ones m : forall s idx, valid s idx -> ravel (repeat 1 m ++ s) (repeat 0 m ++ idx) = ravel s idx.
Proof. induction m; intros s idx V; cbn [repeat app ravel]; [reflexivity|]. rewrite Nat.mul_0_l. apply IHm; auto. Qed.
Lemma ext_get {A} n (t : tensor A) idx : length (tshape t) <= n -> valid (tshape t) idx ->
  tget (ext n t) (repeat 0 (n - length (tshape t)) ++ idx) = tget t idx.
Proof.
  intros H V. unfold ext. destruct (Nat.eqb_spec (length (tshape t)) n) as [E|E].
  - rewrite E, Nat.sub_diag. reflexivity.
  - cbn [reshape tget]. rewrite ravel_ones by auto. now rewrite unravel_ravel.
Qed.
Lemma rev_repeat {T} (v : T) m : rev (repeat v m) = repeat v m.
Proof.
  induction m; [reflexivity|]. cbn [repeat rev]. rewrite IHm. clear. induction m; [reflexivity|]. cbn [repeat app]. now rewrite IHm.
Qed.
Lemma bdim_1r x : bdim x 1 = Some x.
Proof. unfold bdim. destruct (Nat.eqb_spec x 1) as [->|]; reflexivity. Qed.
Lemma bdim_1l x : bdim 1 x = Some x.
Proof. rewrite bdim_comm. apply bdim_1r. Qed.
Lemma bshape_rev_ones a : forall b m, length b + m <= length a -> bshape_rev a (b ++ repeat 1 m) = bshape_rev a b.
Proof.
  induction a as [|x a IH]; intros b m H.
  - destruct b; cbn in H; [|lia]. replace m with 0 by lia. reflexivity.
  - destruct b as [|y b].
    + cbn [app]. destruct m as [|m]; [reflexivity|]. cbn [repeat bshape_rev]. rewrite bdim_1r.
      specialize (IH [] m). cbn [app] in IH. rewrite IH by (cbn in *; lia). destruct a; reflexivity.
    + cbn [app bshape_rev]. rewrite IH by (cbn in *; lia). reflexivity.
Qed.
(** both operands extended to the rank of the result *)
Lemma bshape_rev_ext a : forall b s m1 m2, bshape_rev a b = Some s -> length a + m1 = length s -> length b + m2 = length s ->
  bshape_rev (a ++ repeat 1 m1) (b ++ repeat 1 m2) = Some s.
Proof.
  induction a as [|x a IH]; intros b s m1 m2 H L1 L2.
  - cbn in H. injection H as <-. cbn [app]. assert (m2 = 0) as -> by lia. rewrite app_nil_r.
    rewrite bshape_rev_comm. replace (repeat 1 m1) with ([] ++ repeat 1 m1) by reflexivity.
    rewrite bshape_rev_ones by (cbn in *; lia). destruct b; reflexivity.
  - destruct b as [|y b].
    + cbn in H. injection H as <-. assert (m1 = 0) as -> by lia. rewrite app_nil_r. cbn [app].
      replace (repeat 1 m2) with ([] ++ repeat 1 m2) by reflexivity. rewrite bshape_rev_ones by (cbn in *; lia). reflexivity.
    + cbn [bshape_rev] in H. destruct (bdim x y) as [d|] eqn:E; [|discriminate]. destruct (bshape_rev a b) as [r|] eqn:Er; [|discriminate].
      injection H as <-. cbn [app bshape_rev]. rewrite E. cbn [length] in *. rewrite (IH _ _ m1 m2 Er) by lia. reflexivity.
Qed.
Lemma bidx_rev_ones s : forall idx m, length s + m = length idx -> bidx_rev (s ++ repeat 1 m) idx = bidx_rev s idx ++ repeat 0 m.
Proof.
  induction s as [|d s IH]; intros idx m H.
  - cbn [app bidx_rev]. revert idx H. induction m; intros [|i idx] H; cbn in H; try lia; [reflexivity|].
    cbn [repeat bidx_rev Nat.eqb]. f_equal. apply IHm. cbn; lia.
  - destruct idx as [|i idx]; [cbn in H; lia|]. cbn [app bidx_rev]. rewrite IH by (cbn in H; lia). reflexivity.
Qed.
Lemma bidx_ones m s idx : length s + m = length idx -> bidx (repeat 1 m ++ s) idx = repeat 0 m ++ bidx s idx.
Proof.
  intro H. unfold bidx. rewrite rev_app_distr, rev_repeat, bidx_rev_ones by (rewrite !rev_length; auto).
  now rewrite rev_app_distr, rev_repeat.
Qed.
Lemma bshape_length a b s : bshape a b = Some s -> length a <= length s /\ length b <= length s.
Proof.
  unfold bshape. destruct (bshape_rev (rev a) (rev b)) as [r|] eqn:E; [|discriminate]. intros [= <-].
  apply bshape_rev_length in E. rewrite !rev_length in *. auto.
Qed.
Lemma binop_ext {A B C} (f : A -> B -> C) x y z : binop f x y = Some z ->
  exists z', binop f (ext (length (tshape z)) x) (ext (length (tshape z)) y) = Some z' /\ teq z' z.
Proof.
  unfold binop at 1. destruct (bshape (tshape x) (tshape y)) as [s|] eqn:E; [|discriminate]. intros [= <-]. cbn [tshape].
  destruct (bshape_length _ _ _ E) as [Lx Ly].
  assert (bshape (tshape (ext (length s) x)) (tshape (ext (length s) y)) = Some s) as E'.
  { rewrite !ext_shape by auto. unfold bshape in *. rewrite !rev_app_distr, !rev_repeat.
    destruct (bshape_rev (rev (tshape x)) (rev (tshape y))) as [r|] eqn:Er; [|discriminate]. injection E as <-. rewrite rev_length in *.
    rewrite (bshape_rev_ext _ _ _ _ _ Er) by (rewrite rev_length; lia). reflexivity. }
  unfold binop. rewrite E'. eexists. split; [reflexivity|]. split; [reflexivity|]. cbn [tshape tget]. intros idx V.
  destruct (bidx_valid _ _ _ _ E V) as [V1 V2]. pose proof (valid_length _ _ V) as Li.
  rewrite !ext_shape by auto. rewrite !bidx_ones by lia. rewrite !ext_get by auto. reflexivity.
Qed.

(** operands of full rank *)
Lemma binop_transpose {A B C} (f : A -> B -> C) n perm x y z : is_perm n perm -> length (tshape x) = n -> length (tshape y) = n ->
  binop f x y = Some z ->
  exists z', binop f (transpose (pt_inv perm) x) (transpose (pt_inv perm) y) = Some z' /\ teq (transpose perm z') z.
Proof.
  intros Hp Lx Ly. unfold binop at 1. destruct (bshape (tshape x) (tshape y)) as [s|] eqn:E; [|discriminate]. intros [= <-].
  pose proof (pt_inv_perm _ _ Hp) as Hq. destruct (bshape_eqlen (tshape x) (tshape y) s (eq_trans Lx (eq_sym Ly)) E) as [Ls _].
  unfold binop. cbn [transpose tshape]. rewrite (bshape_sel n _ _ _ _ Hq Lx Ly E). eexists. split; [reflexivity|].
  apply pt_back with (n := n); [auto|cbn; lia|reflexivity|]. cbn [tshape tget]. intros j L V.
  rewrite !(bidx_sel n) by auto. f_equal; apply (transpose_get _ _ _ n Hq); rewrite bidx_length_eq; lia.
Qed.

Lemma pt_operand_spec {A} perm (t : tensor A) : length (tshape t) <= length perm ->
  pt_operand perm t = Some (transpose (pt_inv perm) (ext (length perm) t)) /\ length (tshape (ext (length perm) t)) = length perm.
Proof.
  intro H. assert (length (tshape (ext (length perm) t)) = length perm) as L.
  { rewrite ext_shape by auto. rewrite app_length, repeat_length. lia. }
  split; [|exact L]. unfold pt_operand. fold (ext (length perm) t). rewrite L, Nat.eqb_refl. reflexivity.
Qed.

Lemma binop_flip {A B C} (f : A -> B -> C) x y :
  binop f x y = match binop (fun b a => f a b) y x with Some z => Some (mkT (tshape z) (tget z)) | None => None end.
Proof. unfold binop. rewrite bshape_comm. destruct (bshape (tshape y) (tshape x)); reflexivity. Qed.

(** one operand of shape [1] stays as it is *)
Lemma is_one_spec s : is_one s = true -> s = [1].
Proof. destruct s as [|d [|]]; cbn; try discriminate. intro H. apply Nat.eqb_eq in H. now subst. Qed.
Lemma bshape_one s : s <> [] -> bshape s [1] = Some s.
Proof.
  intro H. unfold bshape. change (rev [1]) with ([] ++ repeat 1 1). rewrite bshape_rev_ones.
  - assert (forall r, bshape_rev r [] = Some r) as -> by (intros [|]; reflexivity). cbn [option_map]. now rewrite rev_involutive.
  - rewrite rev_length. destruct s; [congruence|]. cbn. lia.
Qed.
Lemma bidx_one idx : idx <> [] -> bidx [1] idx = [0].
Proof. intro H. unfold bidx. cbn [rev app]. destruct (rev idx) eqn:E; [|reflexivity]. apply (f_equal (@rev nat)) in E. rewrite rev_involutive in E. contradiction. Qed.

Lemma binop_one_transpose {A B C} (f : A -> B -> C) perm x y z : is_perm (length (tshape z)) perm ->
  tshape y = [1] -> binop f x y = Some z ->
  exists x' z', pt_operand perm x = Some x' /\ binop f x' y = Some z' /\ teq (transpose perm z') z.
Proof.
  intros Hp Hy H. unfold binop in H. rewrite Hy in H. destruct (list_eq_dec Nat.eq_dec (tshape x) []) as [E0|E0].
  - rewrite E0 in H. cbn in H. injection H as <-. cbn [tshape length] in Hp. pose proof (is_perm_length _ _ Hp) as L.
    destruct (pt_operand_spec perm x) as [Ho Le]; [rewrite E0; cbn; lia|]. eexists. unfold binop. cbn [transpose tshape].
    assert (sel (tshape (ext (length perm) x)) (pt_inv perm) = [1]) as Es.
    { rewrite ext_shape, E0, L by (rewrite E0; cbn; lia). assert (pt_inv perm = [0]) as ->; [|reflexivity].
      pose proof (pt_inv_perm _ _ Hp) as Hq. unfold is_perm in Hq. cbn in Hq. apply Permutation_sym, Permutation_length_1_inv in Hq. auto. }
    eexists. split; [exact Ho|]. unfold binop. cbn [transpose tshape]. rewrite Es, Hy. split; [reflexivity|].
    assert (perm = [0]) as -> by (unfold is_perm in Hp; cbn in Hp; now apply Permutation_sym, Permutation_length_1_inv in Hp).
    split; [reflexivity|]. intros idx V. cbn [tshape transpose sel map nth] in V. inversion V as [|i ? r ? Hi V']; subst. inversion V'; subst.
    assert (i = 0) as -> by (cbn in Hi; lia). cbn [transpose tget].
    assert (pt_inv [0] = [0]) as -> by reflexivity. cbn [sel map inv_perm seq length find_pos Nat.eqb nth].
    replace (bidx [1] [0]) with [0] by reflexivity. cbn [sel map nth]. f_equal.
    unfold ext. rewrite E0. cbn [length Nat.eqb]. cbn [reshape tget tshape]. rewrite E0. reflexivity.
  - rewrite bshape_one in H by auto. injection H as <-. cbn [tshape] in Hp. pose proof (is_perm_length _ _ Hp) as L.
    pose proof (pt_inv_perm _ _ Hp) as Hq. destruct (pt_operand_spec perm x) as [Ho Le]; [lia|].
    assert (ext (length perm) x = x) as Ee by (unfold ext; rewrite L, Nat.eqb_refl; reflexivity). rewrite Ee in *.
    eexists. unfold binop. cbn [transpose tshape]. rewrite Hy, bshape_one.
    + eexists. split; [exact Ho|]. split; [reflexivity|]. apply pt_back with (n := length (tshape x)); auto.
      cbn [tshape tget]. intros j Lj V. assert (j <> []) as Hj by (intros ->; destruct (tshape x); [congruence|discriminate]).
      rewrite !bidx_one; auto.
      2: { intro E. apply (f_equal (@length nat)) in E. rewrite sel_length, (is_perm_length _ _ Hq) in E. destruct (tshape x); [congruence|discriminate]. }
      f_equal. change (tshape (transpose (pt_inv perm) x)) with (sel (tshape x) (pt_inv perm)). rewrite (bidx_sel _ _ _ _ Hq) by auto. apply (transpose_get _ _ _ _ Hq). rewrite bidx_length_eq; auto.
    + intro E. apply (f_equal (@length nat)) in E. cbn [transpose tshape] in E. rewrite sel_length, (is_perm_length _ _ Hq) in E. destruct (tshape x); [congruence|discriminate].
Qed.

Lemma transpose_mkT {A} p (t : tensor A) : teq (transpose p (mkT (tshape t) (tget t))) (transpose p t).
Proof. split; [reflexivity|]. intros. reflexivity. Qed.

Theorem pt_binary_ok {A B C} (f : A -> B -> C) perm x y z : binop f x y = Some z -> is_perm (length (tshape z)) perm ->
  exists x' y' z', pt_binary perm x y = Some (x', y') /\ binop f x' y' = Some z' /\ teq (transpose perm z') z.
Proof.
  intros H Hp. pose proof (is_perm_length _ _ Hp) as L. unfold pt_binary. destruct (is_one (tshape y)) eqn:Oy.
  - apply is_one_spec in Oy. destruct (binop_one_transpose f perm x y z Hp Oy H) as (x' & z' & Ho & Hb & Ht).
    exists x', y, z'. rewrite Ho. auto.
  - destruct (is_one (tshape x)) eqn:Ox.
    + apply is_one_spec in Ox. rewrite binop_flip in H. destruct (binop (fun b a => f a b) y x) as [w|] eqn:E; [|discriminate].
      injection H as <-. cbn [tshape] in *. destruct (binop_one_transpose (fun b a => f a b) perm y x w Hp Ox E) as (y' & z' & Ho & Hb & Ht).
      exists x, y', (mkT (tshape z') (tget z')). rewrite Ho. split; [reflexivity|]. split; [rewrite binop_flip, Hb; reflexivity|].
      eapply teq_trans; [apply transpose_mkT|]. eapply teq_trans; [exact Ht|]. split; reflexivity.
    + destruct (binop_ext f x y z H) as (w & Hw & Et).
      unfold binop in H. destruct (bshape (tshape x) (tshape y)) as [s|] eqn:E; [|discriminate].
      assert (tshape z = s) as Ez by (injection H as <-; reflexivity). destruct (bshape_length _ _ _ E) as [Lx Ly]. rewrite <- Ez in Lx, Ly.
      destruct (pt_operand_spec perm x) as [Hox Lex]; [lia|]. destruct (pt_operand_spec perm y) as [Hoy Ley]; [lia|].
      rewrite L in *. destruct (binop_transpose f _ perm _ _ _ Hp Lex Ley Hw) as (z' & Hz & Ht).
      rewrite Hox, Hoy. do 3 eexists. split; [reflexivity|]. split; [exact Hz|]. eapply teq_trans; eauto.
Qed.

(* ------------------------------------------------------------------ *)
(** * PRELU *)

Lemma argsort_argsort l : NoDup l -> argsort (argsort l) = inv_perm (argsort l).
Proof. intro H. apply (argsort_inv_perm (length l)). apply argsort_perm; auto. Qed.
Lemma prelu_perm m r : is_perm m r -> argsort (argsort (map S r)) = r.
Proof.
  intro Hr. pose proof (is_perm_length _ _ Hr) as L. pose proof (is_perm_NoDup _ _ Hr) as Hn.
  assert (NoDup (map S r)) as Hn' by (apply NoDup_map_inj; auto).
  rewrite argsort_argsort by auto. pose proof (argsort_perm _ Hn') as Ha. rewrite map_length, L in Ha.
  assert (sel r (argsort (map S r)) = seq 0 m) as E.
  { assert (sel (map S r) (argsort (map S r)) = map S (seq 0 m)) as E.
    { rewrite sel_argsort. apply sorted_perm_eq; [apply np_sort_sorted| |].
      - rewrite seq_shift. apply seq_sorted.
      - eapply perm_trans; [|apply Permutation_map; exact Hr]. apply np_sort_perm. }
    apply list_eq_nth; [rewrite sel_length, (is_perm_length _ _ Ha), seq_length; auto|].
    intros k Hk. rewrite sel_length, (is_perm_length _ _ Ha) in Hk.
    assert (nth k (sel (map S r) (argsort (map S r))) 0 = S k) as Ek.
    { rewrite E. rewrite (nth_indep _ 0 1) by (rewrite map_length, seq_length; auto). rewrite (map_nth S), seq_nth; auto. }
    rewrite sel_nth in Ek by (rewrite (is_perm_length _ _ Ha); auto). rewrite sel_nth by (rewrite (is_perm_length _ _ Ha); auto).
    rewrite seq_nth by auto. assert (nth k (argsort (map S r)) 0 < m) as Hlt.
    { apply (is_perm_in _ _ _ Ha). apply nth_In. rewrite (is_perm_length _ _ Ha). auto. }
    rewrite (nth_indep _ 0 1) in Ek by (rewrite map_length; lia). rewrite (map_nth S) in Ek. cbn. lia. }
  transitivity (sel (sel r (argsort (map S r))) (inv_perm (argsort (map S r)))); [|apply sel_inv_r; rewrite L; auto]. rewrite E.
  apply list_eq_nth; [rewrite inv_perm_length, sel_length, inv_perm_length; auto|]. intros k Hk. rewrite inv_perm_length in Hk.
  rewrite sel_nth by (rewrite inv_perm_length; auto). rewrite seq_nth; [auto|].
  pose proof (inv_perm_is_perm _ _ Ha) as Hi. apply (is_perm_in _ _ _ Hi). apply nth_In. rewrite inv_perm_length. auto.
Qed.
Lemma fix_head n q : is_perm (S n) q -> nth 0 q 0 = 0 -> exists r, q = 0 :: map S r /\ is_perm n r.
Proof.
  intros Hq H0. pose proof (is_perm_length _ _ Hq) as L. destruct q as [|a q]; [discriminate|]. cbn in H0. subst a.
  pose proof (is_perm_NoDup _ _ Hq) as Hn. inversion Hn as [|? ? Hni Hn']; subst.
  exists (map pred q). assert (map S (map pred q) = q) as E.
  { rewrite map_map. rewrite <- (map_id q) at 2. apply map_ext_in. intros a Ha. destruct a; [contradiction|reflexivity]. }
  split; [now rewrite E|]. unfold is_perm in *. cbn [seq] in Hq. apply Permutation_cons_inv in Hq. rewrite <- seq_shift in Hq.
  apply (Permutation_map pred) in Hq. rewrite map_map in Hq. cbn [pred] in Hq. now rewrite map_id in Hq.
Qed.
Lemma sel_cons d s r : sel (d :: s) (0 :: map S r) = d :: sel s r.
Proof. unfold sel. cbn [map nth]. f_equal. rewrite map_map. reflexivity. Qed.
Lemma bshape_cons_short d a b s : length a = length b -> bshape (d :: a) b = Some s -> exists s', s = d :: s' /\ bshape a b = Some s'.
Proof.
  intros L H. assert (bshape (d :: a) (1 :: b) = Some s) as H'.
  { unfold bshape in *. cbn [rev] in *. change (rev b ++ [1]) with (rev b ++ repeat 1 1).
    rewrite bshape_rev_ones by (rewrite app_length, !rev_length; cbn; lia). exact H. }
  rewrite bshape_cons in H' by auto. rewrite bdim_1r in H'. destruct (bshape a b) as [r|]; [|discriminate]. injection H' as <-. eauto.
Qed.
Lemma bshape_short_cons d a b s : length a = length b -> bshape a b = Some s -> bshape (d :: a) b = Some (d :: s).
Proof.
  intros L H. assert (bshape (d :: a) (1 :: b) = Some (d :: s)) as H' by (rewrite bshape_cons by auto; now rewrite bdim_1r, H).
  unfold bshape in *. cbn [rev] in *. change (rev b ++ [1]) with (rev b ++ repeat 1 1) in H'.
  rewrite bshape_rev_ones in H' by (rewrite app_length, !rev_length; cbn; lia). exact H'.
Qed.
Lemma bidx_short i s idx : length s = length idx -> bidx s (i :: idx) = bidx s idx.
Proof.
  intro H. unfold bidx. f_equal. cbn [rev].
  assert (forall a b c, length a = length b -> bidx_rev a (b ++ c) = bidx_rev a b) as E; [|apply E; rewrite !rev_length; auto].
  clear. induction a as [|x a IH]; intros [|y b] c L; cbn in L; try lia; [reflexivity|]. cbn [app bidx_rev]. now rewrite IH by lia.
Qed.

(** weight of rank one less than the operand, first axis kept in place *)
Theorem pt_prelu_ok (perm : list nat) (x w z : tensor R) : prelu x w = Some z ->
  is_perm (length (tshape x)) perm -> length (tshape x) = S (length (tshape w)) -> length (tshape w) <> 1 ->
  nth 0 (pt_inv perm) 0 = 0 ->
  exists w' z', pt_prelu_weight perm w = Some w' /\ prelu (transpose (pt_inv perm) x) w' = Some z' /\ teq (transpose perm z') z.
Proof.
  intros H Hp L Hw H0. pose proof (pt_inv_perm _ _ Hp) as Hq. rewrite L in Hq. destruct (fix_head _ _ Hq H0) as (r & Er & Hr).
  unfold pt_prelu_weight. destruct (Nat.eqb_spec (length (tshape w)) 1); [contradiction|]. rewrite (is_perm_length _ _ Hq).
  replace (length (tshape w) + 1 =? S (length (tshape w))) with true by (symmetry; apply Nat.eqb_eq; lia).
  rewrite Er. cbn [tl]. rewrite (prelu_perm _ _ Hr). rewrite <- Er.
  unfold prelu in *. unfold binop in H. destruct (bshape (tshape x) (tshape w)) as [s|] eqn:E; [|discriminate]. injection H as <-.
  destruct (tshape x) as [|d0 sx] eqn:Ex; [discriminate|]. cbn [length] in L.
  destruct (bshape_cons_short d0 sx (tshape w) s ltac:(lia) E) as (s' & -> & E').
  destruct (bshape_eqlen sx (tshape w) s' ltac:(lia) E') as [Ls' _].
  exists (transpose r w). unfold binop. cbn [transpose tshape]. rewrite Ex, Er, sel_cons.
  rewrite (bshape_short_cons d0 _ _ (sel s' r)); [|rewrite !sel_length; auto|apply (bshape_sel (length (tshape w))); auto; lia].
  eexists. split; [reflexivity|]. split; [reflexivity|]. cbn [length] in *. rewrite L in Hp.
  apply pt_back with (n := S (length (tshape w))); [auto|cbn; lia| |].
  - cbn [tshape]. rewrite Er. now rewrite sel_cons.
  - cbn [tshape]. intros j Lj V. cbn [tget]. destruct j as [|j0 j]; [discriminate|]. cbn [length] in Lj. rewrite Er, sel_cons.
    assert (bidx (d0 :: sel sx r) (j0 :: sel j r) = sel (bidx (d0 :: sx) (j0 :: j)) (0 :: map S r)) as Eb.
    { rewrite <- !sel_cons. apply (bidx_sel (S (length (tshape w)))); [rewrite <- Er; auto|cbn; lia|cbn; lia]. }
    rewrite Eb, <- Er. change (tget x (sel ?a (inv_perm ?b))) with (tget (transpose b x) a).
    rewrite (transpose_get _ x _ _ Hq) by (rewrite bidx_length_eq; cbn; lia).
    rewrite (bidx_short j0 (sel (tshape w) r) (sel j r)) by (rewrite !sel_length; auto). rewrite (bidx_sel _ _ _ _ Hr) by lia.
    change (tget w (sel ?a (inv_perm r))) with (tget (transpose r w) a).
    rewrite (transpose_get _ w _ _ Hr) by (rewrite bidx_length_eq; lia). rewrite (bidx_short j0 (tshape w) j) by lia. reflexivity.
Qed.
