(** Proofs about the value of the tensors of an operator graph, and closed forms of the rewiring. *)
From Coq Require Import List Arith Bool String Lia.
From Verif Require Import ElimModel ElimSpec.
Import ListNotations.

(** * Lists *)
Lemma smem_in x l : smem x l = true <-> In x l.
Proof.
  unfold smem. rewrite existsb_exists. split.
  - intros [y [H E]]. apply String.eqb_eq in E. subst. exact H.
  - intros H. exists x. split; [exact H | apply String.eqb_refl].
Qed.

Lemma nmem_in i l : nmem i l = true <-> In i l.
Proof.
  unfold nmem. rewrite existsb_exists. split.
  - intros [y [H E]]. apply Nat.eqb_eq in E. subst. exact H.
  - intros H. exists i. split; [exact H | apply Nat.eqb_refl].
Qed.

Lemma nmem_notin i l : nmem i l = false <-> ~ In i l.
Proof. rewrite <- (nmem_in i l). destruct (nmem i l); split; intros H; congruence. Qed.

Lemma sindex_position x l : sindex x l = position x l.
Proof. induction l as [|y l IH]; [reflexivity|]. simpl. rewrite IH. reflexivity. Qed.

Lemma sindex_nth x l : forall k, sindex x l = Some k -> nth_error l k = Some x.
Proof.
  induction l as [|y l IH]; simpl; intros k H; [discriminate|].
  destruct (String.eqb_spec x y) as [E|E].
  - injection H as <-. simpl. congruence.
  - destruct (sindex x l) as [j|]; simpl in H; [|discriminate]. injection H as <-. simpl. apply IH. reflexivity.
Qed.

Lemma sindex_some x l : In x l -> exists k, sindex x l = Some k.
Proof.
  induction l as [|y l IH]; simpl; intros H; [tauto|].
  destruct (String.eqb_spec x y) as [E|E]; [eexists; reflexivity|].
  destruct H as [H|H]; [congruence|]. destruct (IH H) as [k ->]. eexists. reflexivity.
Qed.

Lemma nth_sindex l : NoDup l -> forall k x, nth_error l k = Some x -> sindex x l = Some k.
Proof.
  induction 1 as [|y l N D IH]; intros k x H; [destruct k; discriminate|].
  destruct k as [|k]; simpl in *.
  - injection H as <-. rewrite String.eqb_refl. reflexivity.
  - destruct (String.eqb_spec x y) as [E|E].
    + subst. exfalso. apply N. apply nth_error_In in H. exact H.
    + rewrite (IH _ _ H). reflexivity.
Qed.

Lemma supd_put {A} i (x : A) l : supd i x l = put i x l.
Proof. revert i. induction l as [|y l IH]; intros [|i]; simpl; auto. Qed.

Lemma nth_supd {A} (x : A) : forall l i k,
  nth_error (supd i x l) k = if (k =? i) && (k <? List.length l) then Some x else nth_error l k.
Proof.
  induction l as [|y l IH]; intros [|i] [|k]; simpl; auto.
  - rewrite andb_false_r. reflexivity.
  - rewrite IH. reflexivity.
Qed.

Lemma supd_length {A} (x : A) : forall l i, List.length (supd i x l) = List.length l.
Proof. induction l as [|y l IH]; intros [|i]; simpl; auto. Qed.

Lemma in_supd {A} (x : A) l i y : In y (supd i x l) -> y = x \/ In y l.
Proof.
  intros H. apply In_nth_error in H. destruct H as [k H]. rewrite nth_supd in H.
  destruct ((k =? i) && (k <? List.length l)); [left; congruence | right; eapply nth_error_In; exact H].
Qed.

Lemma in_supd_other {A} (x : A) l i y z : nth_error l i = Some z -> In y l -> y <> z -> In y (supd i x l).
Proof.
  intros N H NE. apply In_nth_error in H. destruct H as [k H].
  apply nth_error_In with (n := k). rewrite nth_supd.
  destruct (Nat.eqb_spec k i) as [->|]; simpl; auto. congruence.
Qed.

Lemma in_supd_new {A} (x : A) l i z : nth_error l i = Some z -> In x (supd i x l).
Proof.
  intros N. apply nth_error_In with (n := i). rewrite nth_supd, Nat.eqb_refl. simpl.
  assert (i < List.length l) by (apply nth_error_Some; congruence).
  destruct (Nat.ltb_spec i (List.length l)); auto. lia.
Qed.

Lemma NoDup_supd {A} (x : A) l i : NoDup l -> ~ In x l -> NoDup (supd i x l).
Proof.
  intros D. revert i. induction D as [|y l N D IH]; intros i H; [destruct i; constructor|].
  simpl in H. destruct i as [|i]; simpl; constructor; auto.
  intros F. apply in_supd in F. destruct F as [F|F]; [|contradiction]. subst. apply H. auto.
Qed.

Lemma not_in_supd {A} (x z : A) l i : NoDup l -> nth_error l i = Some z -> x <> z -> ~ In z (supd i x l).
Proof.
  intros D. revert i. induction D as [|y l N D IH]; intros i E NE H; [destruct i; discriminate|].
  destruct i as [|i]; simpl in *.
  - injection E as ->. destruct H as [H|H]; [congruence|contradiction].
  - destruct H as [H|H].
    + subst. apply N. apply nth_error_In in E. exact E.
    + apply (IH i E NE H).
Qed.

Lemma map_supd {A B} (f : A -> B) x : forall l i, map f (supd i x l) = supd i (f x) (map f l).
Proof. induction l as [|y l IH]; intros [|i]; simpl; auto. rewrite IH. reflexivity. Qed.

Lemma fold_opt_app {A B} (f : A -> B -> option A) l1 l2 a :
  fold_opt f a (l1 ++ l2) = obind (fold_opt f a l1) (fun b => fold_opt f b l2).
Proof. revert a. induction l1 as [|b l1 IH]; intros a; simpl; auto. destruct (f a b); simpl; auto. Qed.

Lemma all_map {A} (l : list A) : all (map Some l) = Some l.
Proof. induction l as [|a l IH]; simpl; auto. rewrite IH. reflexivity. Qed.

Section Base.
Context {X : Type}.
Notation graph := (graph X).

(** * Vertices by index *)
Lemma vfind_in (g : graph) i v : vfind g i = Some v -> In v (g_vs g) /\ v_id v = i.
Proof.
  unfold vfind. intros H. apply find_some in H. destruct H as [H E]. apply Nat.eqb_eq in E. auto.
Qed.

Lemma find_id : forall (vs : list vertex) v, NoDup (map v_id vs) -> In v vs ->
  find (fun u => v_id u =? v_id v) vs = Some v.
Proof.
  induction vs as [|u vs IH]; intros v D H; simpl in *; [tauto|].
  inversion D as [|? ? N D']; subst. destruct H as [->|H].
  - rewrite Nat.eqb_refl. reflexivity.
  - destruct (Nat.eqb_spec (v_id u) (v_id v)) as [E|E]; auto.
    exfalso. apply N. rewrite E. apply in_map. exact H.
Qed.

Lemma in_vfind (g : graph) v : NoDup (map v_id (g_vs g)) -> In v (g_vs g) -> vfind g (v_id v) = Some v.
Proof. intros D H. apply find_id; auto. Qed.

Lemma id_inj (g : graph) u v : NoDup (map v_id (g_vs g)) -> In u (g_vs g) -> In v (g_vs g) ->
  v_id u = v_id v -> u = v.
Proof.
  intros D Hu Hv E. apply (in_vfind g u D) in Hu. apply (in_vfind g v D) in Hv. rewrite E in Hu. congruence.
Qed.

Lemma in_out_edges (g : graph) i e : In e (out_edges g i) <-> In e (g_es g) /\ e_src e = i.
Proof. unfold out_edges. rewrite filter_In, Nat.eqb_eq. tauto. Qed.

(** * Deleting vertices *)
Lemma in_delete_vs R (g : graph) v : In v (g_vs (delete R g)) <-> In v (g_vs g) /\ ~ In (v_id v) R.
Proof.
  unfold delete. simpl. rewrite filter_In, negb_true_iff, nmem_notin. tauto.
Qed.
Lemma in_delete_es R (g : graph) e :
  In e (g_es (delete R g)) <-> In e (g_es g) /\ ~ In (e_src e) R /\ ~ In (e_dst e) R.
Proof.
  unfold delete. simpl. rewrite filter_In, andb_true_iff, !negb_true_iff, !nmem_notin. tauto.
Qed.

(** * Values *)
Variable run : nat -> list X -> nat -> X.
Variable inp : string -> option X.

Notation value := (eval run).

Lemma writer_in vs n v k : writer vs n = Some (v, k) -> In v vs /\ nth_error (v_outs v) k = Some n.
Proof.
  induction vs as [|u vs IH]; simpl; intros H; [discriminate|].
  destruct (position n (v_outs u)) as [j|] eqn:E.
  - injection H as <- <-. split; auto. rewrite <- sindex_position in E. apply sindex_nth. exact E.
  - destruct (IH H). auto.
Qed.

Lemma in_writer (g : graph) v k n : good g -> In v (g_vs g) -> nth_error (v_outs v) k = Some n ->
  writer (g_vs g) n = Some (v, k).
Proof.
  intros G Hv Hk.
  assert (W : forall vs, incl vs (g_vs g) -> In v vs -> writer vs n = Some (v, k)).
  { induction vs as [|u vs IH]; intros I H; simpl in *; [tauto|].
    destruct (position n (v_outs u)) as [j|] eqn:E.
    - rewrite <- sindex_position in E.
      assert (u = v).
      { apply (ok_writer g G u v n); auto.
        - apply I. left. reflexivity.
        - apply sindex_nth in E. apply nth_error_In in E. exact E.
        - apply nth_error_In in Hk. exact Hk. }
      subst u. rewrite (nth_sindex _ (ok_outs g G v Hv) _ _ Hk) in E. injection E as <-. reflexivity.
    - apply IH.
      + intros w Hw. apply I. right. exact Hw.
      + destruct H as [->|H]; auto. exfalso. rewrite <- sindex_position in E.
        apply nth_error_In in Hk. destruct (sindex_some _ _ Hk) as [j Hj]. congruence. }
  apply W; auto. intros w Hw. exact Hw.
Qed.

(** what the kept operators will get instead of some of their inputs *)
Definition later (acts : list (action X)) (i : nat) (xs : list X) : list X :=
  fold_left (fun xs a => if fst (fst (fst a)) =? i then put (snd (fst (fst a))) (snd a) xs else xs) acts xs.

Definition fits (V : string -> option X) (acts : list (action X)) (g : graph) : Prop :=
  forall v, In v (g_vs g) ->
  match v_kind v with
  | KIn => forall n, In n (v_outs v) -> V n = inp n /\ inp n <> None
  | KConst => forall n, In n (v_outs v) -> V n = g_buf g n
  | KOp => exists xs, map V (v_ins v) = map Some xs /\
           forall k n, nth_error (v_outs v) k = Some n -> V n = Some (run (v_op v) (later acts (v_id v) xs) k)
  | _ => True
  end.

Definition source (v : vertex) : Prop := v_kind v = KIn \/ v_kind v = KConst \/ v_kind v = KOp.

Lemma fits_eval V (g : graph) rank : good g -> fits V [] g ->
  (forall u v n, In u (g_vs g) -> In v (g_vs g) -> In n (v_outs u) -> In n (v_ins v) -> rank (v_id u) < rank (v_id v)) ->
  forall f v k n, In v (g_vs g) -> source v -> nth_error (v_outs v) k = Some n -> rank (v_id v) < f ->
  value g inp f n = V n.
Proof.
  intros G F R. induction f as [|f IH]; intros v k n Hv S Hk L; [lia|].
  simpl. rewrite (in_writer g v k n G Hv Hk).
  pose proof (F v Hv) as C. destruct S as [S|[S|S]]; rewrite S in *.
  - symmetry. apply C. apply nth_error_In in Hk. exact Hk.
  - symmetry. apply C. apply nth_error_In in Hk. exact Hk.
  - destruct C as [xs [E C]]. rewrite (C k n Hk).
    assert (M : map (value g inp f) (v_ins v) = map V (v_ins v)).
    { apply map_ext_in. intros m Hm.
      destruct (ok_reads g G v m Hv S Hm) as [u [Hu [Hm' [Su _]]]].
      apply In_nth_error in Hm' as H. destruct H as [j Hj].
      apply (IH u j m Hu Su Hj). pose proof (R u v m Hu Hv Hm' Hm). lia. }
    rewrite M, E, all_map. reflexivity.
Qed.

Lemma fits_computes V (g : graph) : good g -> fits V [] g ->
  forall v n x, In v (g_vs g) -> source v -> In n (v_outs v) -> V n = Some x -> computes run g inp n x.
Proof.
  intros G F v n x Hv S Hn E. destruct (ok_acyclic g G) as [rank R].
  apply In_nth_error in Hn. destruct Hn as [k Hk].
  exists (Datatypes.S (rank (v_id v))). rewrite (fits_eval V g rank G F R _ v k n Hv S Hk); auto.
Qed.

Lemma eval_mono (g : graph) : forall f n x, value g inp f n = Some x -> forall f', f <= f' -> value g inp f' n = Some x.
Proof.
  induction f as [|f IH]; intros n x H f' L; [discriminate|]. destruct f' as [|f']; [lia|].
  simpl in *. destruct (writer (g_vs g) n) as [[v k]|]; auto. destruct (v_kind v); auto.
  destruct (all (map (value g inp f) (v_ins v))) as [xs|] eqn:E; [|discriminate].
  assert (E' : all (map (value g inp f') (v_ins v)) = Some xs).
  { clear H. revert xs E. generalize (v_ins v). induction l as [|m l IHl]; intros xs E; simpl in *; auto.
    destruct (value g inp f m) as [y|] eqn:Y; [|discriminate].
    destruct (all (map (value g inp f) l)) as [ys|]; [|discriminate].
    rewrite (IH m y Y f' ltac:(lia)), (IHl _ eq_refl). exact E. }
  rewrite E'. exact H.
Qed.

Lemma computes_fun (g : graph) n x y : computes run g inp n x -> computes run g inp n y -> x = y.
Proof.
  intros [f H] [f' H'].
  pose proof (eval_mono g f n x H (max f f') ltac:(lia)).
  pose proof (eval_mono g f' n y H' (max f f') ltac:(lia)). congruence.
Qed.

(** a good graph has a value for each tensor *)
Lemma good_fits (g : graph) : good g -> given g inp -> exists V, fits V [] g /\
  (forall n x, V n = Some x -> computes run g inp n x) /\
  (forall v n, In v (g_vs g) -> source v -> In n (v_outs v) -> V n <> None).
Proof.
  intros G GV. destruct (ok_acyclic g G) as [rank R].
  assert (EX : forall r v n, In v (g_vs g) -> source v -> In n (v_outs v) -> rank (v_id v) < r ->
             exists x, value g inp (Datatypes.S (rank (v_id v))) n = Some x).
  { induction r as [|r IH]; intros v n Hv S Hn L; [lia|].
    apply In_nth_error in Hn as HK. destruct HK as [k Hk].
    cbn [eval]. rewrite (in_writer g v k n G Hv Hk). destruct S as [S|[S|S]]; rewrite S.
    - apply (GV v n); auto.
    - destruct (ok_const g G v Hv S) as [m [x [E [B _]]]]. rewrite E in Hn. destruct Hn as [->|[]].
      exists x. exact B.
    - assert (A : exists xs, all (map (value g inp (rank (v_id v))) (v_ins v)) = Some xs).
      { assert (I : incl (v_ins v) (v_ins v)) by (intros m Hm; exact Hm).
        revert I. generalize (v_ins v) at 1 3. induction l as [|m l IHl]; intros I; simpl; [eexists; reflexivity|].
        destruct (ok_reads g G v m Hv S (I m (or_introl eq_refl))) as [u [Hu [Hm [Su _]]]].
        pose proof (R u v m Hu Hv Hm (I m (or_introl eq_refl))) as Q1.
        destruct (IH u m Hu Su Hm ltac:(lia)) as [y Y].
        rewrite (eval_mono g _ _ _ Y (rank (v_id v)) ltac:(lia)).
        destruct (IHl ltac:(intros z Hz; apply I; right; exact Hz)) as [ys ->]. eexists. reflexivity. }
      destruct A as [xs ->]. eexists. reflexivity. }
  set (F := Datatypes.S (Datatypes.S (list_max (map (fun v => rank (v_id v)) (g_vs g))))).
  assert (LF : forall v, In v (g_vs g) -> Datatypes.S (Datatypes.S (rank (v_id v))) <= F).
  { intros v Hv. unfold F. pose proof (list_max_le (map (fun v => rank (v_id v)) (g_vs g)) (list_max (map (fun v => rank (v_id v)) (g_vs g)))) as [Q1 _].
    specialize (Q1 (le_n _)). rewrite Forall_forall in Q1.
    specialize (Q1 (rank (v_id v)) (in_map (fun v => rank (v_id v)) _ _ Hv)). lia. }
  exists (value g inp F). split; [|split].
  - intros v Hv. destruct (v_kind v) eqn:K; auto.
    + intros n Hn. apply In_nth_error in Hn as HK. destruct HK as [k Hk].
      unfold F. cbn [eval]. rewrite (in_writer g v k n G Hv Hk), K. split; auto.
      destruct (GV v n Hv K Hn) as [x ->]. discriminate.
    + intros n Hn. apply In_nth_error in Hn as HK. destruct HK as [k Hk].
      unfold F. cbn [eval]. rewrite (in_writer g v k n G Hv Hk), K. reflexivity.
    + assert (A : exists xs, map (value g inp F) (v_ins v) = map Some xs /\
                  all (map (value g inp (pred F)) (v_ins v)) = Some xs).
      { assert (I : incl (v_ins v) (v_ins v)) by (intros m Hm; exact Hm).
        revert I. generalize (v_ins v) at 1 3 4. induction l as [|m l IHl]; intros I; [exists []; auto|].
        destruct (ok_reads g G v m Hv K (I m (or_introl eq_refl))) as [u [Hu [Hm [Su _]]]].
        pose proof (R u v m Hu Hv Hm (I m (or_introl eq_refl))) as Q1.
        pose proof (LF v Hv) as Q2.
        destruct (EX _ u m Hu Su Hm (Nat.lt_succ_diag_r _)) as [y Y].
        destruct (IHl ltac:(intros z Hz; apply I; right; exact Hz)) as [ys [E1 E2]].
        exists (y :: ys). cbn [map]. split.
        - rewrite E1, (eval_mono g _ _ _ Y F ltac:(lia)). reflexivity.
        - rewrite (eval_mono g _ _ _ Y (pred F) ltac:(lia)). cbn [all]. rewrite E2. reflexivity. }
      destruct A as [xs [E1 E2]]. exists xs. split; auto. intros k n Hk.
      change (value g inp (Datatypes.S (pred F)) n = Some (run (v_op v) (later [] (v_id v) xs) k)).
      cbn [eval]. rewrite (in_writer g v k n G Hv Hk), K, E2. reflexivity.
  - intros n x H. exists F. exact H.
  - intros v n Hv S Hn E. destruct (EX _ v n Hv S Hn (Nat.lt_succ_diag_r _)) as [x H].
    pose proof (LF v Hv). rewrite (eval_mono g _ _ _ H F ltac:(lia)) in E. discriminate.
Qed.
End Base.
