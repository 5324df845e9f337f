(** Proofs about fusing transposes and reshapes in the operator graph. *)
From Coq Require Import List Arith Bool String Lia.
From Verif Require Import Tensor ChainModel ChainProofs ElimModel ElimSpec ElimBase ElimStep ElimProofs ElimPass ElimLayoutModel ElimLayoutSpec.
Import ListNotations.

Section Layout.
Context {A : Type}.
Variable d : A.

Lemma pack_teq (t u : tensor A) : teq t u -> pack t = pack u.
Proof.
  intros [S E]. unfold pack. rewrite <- S. f_equal. apply map_ext_in. intros k Hk. apply in_seq in Hk. apply E.
  apply unravel_valid. lia.
Qed.

Lemma pack_wf (t : tensor A) : exists l, pack t = Data (tshape t) l /\ List.length l = prod (tshape t) /\ teq (unpack d (tshape t) l) t.
Proof.
  eexists. split; [reflexivity|]. split; [rewrite map_length, seq_length; reflexivity|]. split; [reflexivity|].
  cbn [tshape unpack tget]. intros idx V. pose proof (ravel_lt _ _ V) as L.
  rewrite (nth_indep _ d (tget t (unravel (tshape t) 0))) by (rewrite map_length, seq_length; exact L).
  rewrite (map_nth (fun k => tget t (unravel (tshape t) k))), seq_nth by exact L. simpl. rewrite unravel_ravel by exact V. reflexivity.
Qed.

Lemma unpack_pack s (l : list A) : List.length l = prod s -> pack (unpack d s l) = Data s l.
Proof.
  intros L. unfold pack. cbn [tshape unpack tget]. f_equal.
  apply (nth_ext _ _ d d); [rewrite map_length, seq_length; auto|]. intros k Hk. rewrite map_length, seq_length in Hk.
  rewrite (nth_indep _ d (nth (ravel s (unravel s 0)) l d)) by (rewrite map_length, seq_length; exact Hk).
  rewrite (map_nth (fun k => nth (ravel s (unravel s k)) l d)), seq_nth by exact Hk. simpl. rewrite ravel_unravel by exact Hk. reflexivity.
Qed.

Lemma transpose_step (p q : list nat) n (x : val A) : is_perm n p -> is_perm n q ->
  do_transpose d (do_transpose d x (Ints p)) (Ints q) = do_transpose d x (Ints (sel p q)).
Proof.
  intros Hp Hq. destruct x as [s l|r]; [|reflexivity]. cbn [do_transpose].
  rewrite sel_length, (is_perm_length _ _ Hp), (is_perm_length _ _ Hq).
  destruct (List.length l =? prod s) eqn:E1; cbn [andb]; [|cbn [do_transpose]; rewrite E1; reflexivity].
  destruct (List.length s =? n) eqn:E2; [|cbn [do_transpose]; rewrite E1, (is_perm_length _ _ Hq), E2; reflexivity].
  apply Nat.eqb_eq in E1. apply Nat.eqb_eq in E2. subst n.
  destruct (pack_wf (transpose p (unpack d s l))) as [l' [-> [L' T']]]. cbn [do_transpose].
  assert (LS : List.length (tshape (transpose p (unpack d s l))) = List.length s).
  { cbn [tshape transpose unpack]. rewrite sel_length. apply is_perm_length. exact Hp. }
  rewrite L', Nat.eqb_refl, LS, (is_perm_length _ _ Hq), Nat.eqb_refl. cbn [andb]. apply pack_teq.
  eapply teq_trans; [apply transpose_congr; [|exact T']|apply transpose_transpose; assumption].
  exact (eq_rect _ (fun k => is_perm k q) Hq _ (eq_sym LS)).
Qed.

Lemma transpose_nothing (p : list nat) n (x : val A) : is_perm n p -> list_eqb p (np_sort p) = true ->
  do_transpose d x (Ints p) = x.
Proof.
  intros Hp E. rewrite (sorted_is_perm n p Hp E). destruct x as [s l|r]; [|reflexivity]. cbn [do_transpose]. rewrite seq_length.
  destruct (List.length l =? prod s) eqn:E1; [|reflexivity]. destruct (List.length s =? n) eqn:E2; [|reflexivity].
  apply Nat.eqb_eq in E1. apply Nat.eqb_eq in E2. subst n. cbn [andb].
  rewrite (pack_teq _ (unpack d s l)); [apply unpack_pack; exact E1|]. apply (transpose_id (unpack d s l)).
Qed.

Lemma reshape_step (p q : list nat) (x : val A) : prod p = prod q ->
  do_reshape d (do_reshape d x (Ints p)) (Ints q) = do_reshape d x (Ints q).
Proof.
  intros PQ. destruct x as [s l|r]; [|reflexivity]. cbn [do_reshape]. rewrite PQ.
  destruct (List.length l =? prod s) eqn:E1; cbn [andb]; [|cbn [do_reshape]; rewrite E1; reflexivity].
  destruct (prod s =? prod q) eqn:E2; [|cbn [do_reshape]; rewrite E1, E2; reflexivity].
  apply Nat.eqb_eq in E1. apply Nat.eqb_eq in E2.
  destruct (pack_wf (reshape p (unpack d s l))) as [l' [-> [L' T']]]. cbn [do_reshape].
  rewrite L', Nat.eqb_refl. cbn [andb]. cbn [tshape reshape]. rewrite PQ, Nat.eqb_refl. apply pack_teq.
  eapply teq_trans; [apply reshape_congr; [|exact T']|apply reshape_reshape]; cbn [tshape unpack reshape]; congruence.
Qed.

Lemma reshape_nothing (s : list nat) (x : val A) : has_shape s x -> do_reshape d x (Ints s) = x.
Proof.
  intros [l [-> L]]. cbn [do_reshape]. rewrite L, !Nat.eqb_refl. cbn [andb].
  rewrite (pack_teq _ (unpack d s l)); [apply unpack_pack; exact L|]. apply (reshape_id (unpack d s l)).
Qed.
End Layout.

Section Passes.
Context {A : Type}.
Variable d : A.
Variable run : nat -> list (val A) -> nat -> val A.

Lemma perms_fold (g : graph (val A)) cls : good g ->
  (forall u v p q, cls u = true -> cls v = true -> reads_first g u v -> constant_of g u p -> constant_of g v q -> perms_meet p q) ->
  forall l a pa ps n p c, run_of g cls (a :: l) -> constants g (a :: l) (pa :: ps) -> pa = Ints p -> is_perm n p -> is_perm n c ->
  exists r, fold_left comp_perms ps (Ints c) = Ints r /\ is_perm n r.
Proof.
  intros G M. induction l as [|b l IH]; intros a pa ps n p c RO CS EP Hp Hc.
  - inversion CS as [|? ? ? ? _ CS']; subst. inversion CS'; subst. exists c. auto.
  - destruct RO as [[u [v [Iu [Iv [Cu [Cv RF]]]]]] RO]. pose proof RF as RF'. destruct RF' as [Hu [Hv _]].
    inversion CS as [|? ? ? ? [u' [Hu' [Iu' CU]]] CS']; subst. inversion CS' as [|? pb ? ps' [v' [Hv' [Iv' CV]]] CS'']; subst.
    assert (u' = u) by (apply (id_inj g); auto; try apply (ok_ids _ G); congruence). subst u'.
    assert (v' = v) by (apply (id_inj g); auto; try apply (ok_ids _ G); congruence). subst v'.
    destruct (M u v _ _ Cu Cv RF CU CV) as [m [p1 [q1 [Q [-> [H1 H2]]]]]]. injection Q as <-.
    assert (m = n) by (rewrite <- (is_perm_length _ _ Hp), <- (is_perm_length _ _ H1); reflexivity). subst m.
    cbn [fold_left comp_perms]. apply (IH (v_id v) (Ints q1) ps' n q1 (sel c q1)); auto.
    apply is_perm_sel; assumption.
Qed.

Lemma shapes_fold (g : graph (val A)) cls : good g ->
  (forall u v p q, cls u = true -> cls v = true -> reads_first g u v -> constant_of g u p -> constant_of g v q -> shapes_meet p q) ->
  forall l a pa ps p c, run_of g cls (a :: l) -> constants g (a :: l) (pa :: ps) -> pa = Ints p -> prod c = prod p ->
  exists r, fold_left comp_shapes ps (Ints c) = Ints r /\ prod r = prod p.
Proof.
  intros G M. induction l as [|b l IH]; intros a pa ps p c RO CS EP Hc.
  - inversion CS as [|? ? ? ? _ CS']; subst. inversion CS'; subst. exists c. auto.
  - destruct RO as [[u [v [Iu [Iv [Cu [Cv RF]]]]]] RO]. pose proof RF as RF'. destruct RF' as [Hu [Hv _]].
    inversion CS as [|? ? ? ? [u' [Hu' [Iu' CU]]] CS']; subst. inversion CS' as [|? pb ? ps' [v' [Hv' [Iv' CV]]] CS'']; subst.
    assert (u' = u) by (apply (id_inj g); auto; try apply (ok_ids _ G); congruence). subst u'.
    assert (v' = v) by (apply (id_inj g); auto; try apply (ok_ids _ G); congruence). subst v'.
    destruct (M u v _ _ Cu Cv RF CU CV) as [p1 [q1 [Q [-> H1]]]]. injection Q as <-.
    cbn [fold_left]. unfold comp_shapes at 2. rewrite H1. apply (IH (v_id v) (Ints q1) ps' q1 q1); auto.
Qed.

Theorem fuse_transposes_correct (g : graph (val A)) cls name : good g -> in_line g cls -> acting run g cls (do_transpose d) ->
  (forall u v p q, cls u = true -> cls v = true -> reads_first g u v ->
     constant_of g u p -> constant_of g v q -> perms_meet p q) ->
  (forall l, g_node g (name l) = None /\
     forall u, In u (g_vs g) -> ~ In (name l) (v_outs u) /\ ~ In (name l) (v_ins u) /\ name l <> v_name u) ->
  (forall l l', name l = name l' -> l = l') ->
  exists g', fuse_transposes cls name g = Some g' /\ good g' /\ same_results run g g' /\
    ((forall v, In v (g_vs g) -> cls v = true -> inner g (v_id v)) ->
     forall u v w, cls u = true -> cls v = true -> reads_first g u v ->
       List.length (filter (fun e => e_src e =? v_id u) (g_es g)) = 1 -> In w (g_vs g') -> v_id w <> v_id v).
Proof.
  intros G O AC M FR NI. unfold fuse_transposes.
  apply (fuse_simple_correct run g cls (do_transpose d) comp_perms (perms_meet (A := A))); auto.
  - intros p q x [n [p' [q' [-> [-> [Hp Hq]]]]]]. apply (transpose_step d p' q' n); auto.
  - intros p q r [n [p' [q' [-> [-> [Hp Hq]]]]]] [m [q1 [r' [Q [-> [Hq1 Hr]]]]]]. injection Q as <-.
    exists n, (sel p' q'), r'. split; [reflexivity|]. split; [reflexivity|]. split; [apply is_perm_sel; assumption|].
    assert (n = m) by (rewrite <- (is_perm_length _ _ Hq), <- (is_perm_length _ _ Hq1); reflexivity). subst m. exact Hr.
  - intros l v n p0 ps inp x LN RO CS Hv Iv Nv SA _ _. destruct l as [|a [|b l]]; simpl in LN; try lia.
    pose proof RO as RO'. destruct RO' as [[u [w [Iu [Iw [Cu [Cw RF]]]]]] _]. pose proof RF as RF'. destruct RF' as [Hu [Hw _]].
    pose proof CS as CS0. inversion CS0 as [|? ? ? ? [u' [Hu' [Iu' CU]]] CS']; subst.
    inversion CS' as [|? pb ? ps' [w' [Hw' [Iw' CW]]] CS'']; subst.
    assert (u' = u) by (apply (id_inj g); auto; try apply (ok_ids _ G); congruence). subst u'.
    assert (w' = w) by (apply (id_inj g); auto; try apply (ok_ids _ G); congruence). subst w'.
    destruct (M u w _ _ Cu Cw RF CU CW) as [m [p1 [q1 [-> [_ [H1 _]]]]]].
    destruct (perms_fold g cls G M (v_id w :: l) (v_id u) (Ints p1) (pb :: ps') m p1 p1 RO CS eq_refl H1 H1) as [r [E Hr]].
    rewrite E in SA |- *. apply (transpose_nothing d r m); auto.
Qed.

Theorem fuse_reshapes_correct (g : graph (val A)) shape cls name : good g -> in_line g cls -> acting run g cls (do_reshape d) ->
  (forall u v p q, cls u = true -> cls v = true -> reads_first g u v ->
     constant_of g u p -> constant_of g v q -> shapes_meet p q) ->
  (forall inp v n x, In v (g_vs g) -> cls v = true -> nth_error (v_ins v) 0 = Some n -> given g inp -> computes run g inp n x ->
     has_shape (shape n) x) ->
  (forall l, g_node g (name l) = None /\
     forall u, In u (g_vs g) -> ~ In (name l) (v_outs u) /\ ~ In (name l) (v_ins u) /\ name l <> v_name u) ->
  (forall l l', name l = name l' -> l = l') ->
  exists g', fuse_reshapes shape cls name g = Some g' /\ good g' /\ same_results run g g' /\
    ((forall v, In v (g_vs g) -> cls v = true -> inner g (v_id v)) ->
     forall u v w, cls u = true -> cls v = true -> reads_first g u v ->
       List.length (filter (fun e => e_src e =? v_id u) (g_es g)) = 1 -> In w (g_vs g') -> v_id w <> v_id v).
Proof.
  intros G O AC M HS FR NI. unfold fuse_reshapes.
  apply (fuse_simple_correct run g cls (do_reshape d) comp_shapes (shapes_meet (A := A))); auto.
  - intros p q x [p' [q' [-> [-> E]]]]. apply (reshape_step d p' q'); auto.
  - intros l v n p0 ps inp x LN RO CS Hv Iv Nv SA GV CX. destruct l as [|a [|b l]]; simpl in LN; try lia.
    pose proof RO as RO'. destruct RO' as [[u [w [Iu [Iw [Cu [Cw RF]]]]]] _]. pose proof RF as RF'. destruct RF' as [Hu [Hw _]].
    pose proof CS as CS0. inversion CS0 as [|? ? ? ? [u' [Hu' [Iu' CU]]] CS']; subst.
    inversion CS' as [|? pb ? ps' [w' [Hw' [Iw' CW]]] CS'']; subst.
    assert (u' = u) by (apply (id_inj g); auto; try apply (ok_ids _ G); congruence). subst u'.
    assert (w' = w) by (apply (id_inj g); auto; try apply (ok_ids _ G); congruence). subst w'.
    destruct (M u w _ _ Cu Cw RF CU CW) as [p1 [q1 [-> [_ H1]]]].
    destruct (shapes_fold g cls G M (v_id w :: l) (v_id u) (Ints p1) (pb :: ps') p1 p1 RO CS eq_refl eq_refl) as [r [E Hr]].
    rewrite E in SA |- *. unfold is_shape in SA. cbn [hd] in SA, Iv. rewrite (in_vfind g u (ok_ids _ G) Hu) in SA.
    assert (v = u) by (apply (id_inj g); auto; apply (ok_ids _ G)). subst v.
    destruct (v_ins u) as [|n' ns] eqn:IU; [discriminate|]. simpl in Nv. injection Nv as ->.
    apply list_eqb_spec in SA. subst r. apply reshape_nothing. apply (HS inp u n x); auto. rewrite IU. reflexivity.
Qed.
End Passes.
