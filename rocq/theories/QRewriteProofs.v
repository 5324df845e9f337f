(** Proofs about the rewriting of single operators (QRewriteModel). *)
From Coq Require Import String List Arith ZArith Bool Reals Lia Lra.
From Verif Require Import Tensor ConvSpec EltSpec MoveSpec PoolSpec LayoutSpec CatSpec FuseModel QatSpec QRewriteSpec QRewriteModel.
From Verif Require Import FuseMiscProofs PassAxesProofs AtenMoveProofs AtenConvProofs.
Import ListNotations.
Local Open Scope R_scope.

(** ** Arithmetic *)

Lemma neg_ok x : exists y, arun [x] rewrite_neg = Some y /\ teq y (torch_neg x).
Proof. eexists. split; [reflexivity|]. split; [reflexivity|]. intros idx _. cbn. lra. Qed.

Lemma py_number_inv e a c : py_number e a = Some c -> exists l, a = mkA [l] [] /\ lit_val l = Some c.
Proof.
  destruct a as [p k]. unfold py_number. cbn [a_pos a_kw]. destruct p as [|l [|]]; try discriminate.
  destruct k; [|discriminate]. intro H. exists l. split; auto. destruct (has_dot l || (e && has_e l)).
  - exact H.
  - destruct l; cbn in *; congruence.
Qed.

Lemma div_ok a e x : rewrite_div a = Some e ->
  exists y z, torch_div a x = Some y /\ arun [x] e = Some z /\ teq z y.
Proof.
  unfold rewrite_div. destruct (py_number false a) as [c|] eqn:E; [|discriminate].
  apply py_number_inv in E. destruct E as (l & -> & L). destruct (Req_EM_T c 0) as [|N]; [discriminate|].
  intro H. inversion H; subst. unfold torch_div. cbn [param nth_error a_pos a_kw keyword]. rewrite L.
  destruct (Req_EM_T c 0); [contradiction|]. eexists. eexists. split; [reflexivity|]. split; [reflexivity|].
  split; [reflexivity|]. intros idx _. cbn. unfold Rdiv. lra.
Qed.
Lemma div_taken l c : lit_val l = Some c -> c <> 0 -> (forall r, l <> LExp r) -> exists e, rewrite_div (mkA [l] []) = Some e.
Proof.
  intros L N E. unfold rewrite_div, py_number. cbn [a_pos a_kw].
  destruct l; cbn in L |- *; try discriminate; inversion L; subst; try (destruct (Req_EM_T c 0); [contradiction|]); eauto.
  - destruct (Req_EM_T (IZR z) 0); [contradiction|]. eauto.
  - now destruct (E c).
Qed.
Lemma div_exp_raises r : rewrite_div (mkA [LExp r] []) = None.
Proof. reflexivity. Qed.

Lemma sub_scalar_ok a e x : rewrite_sub false 1 a = Some e ->
  exists y z, torch_sub_scalar a x = Some y /\ arun [x] e = Some z /\ teq z y.
Proof.
  unfold rewrite_sub. cbn [Nat.eqb andb negb]. destruct (py_number true a) as [c|] eqn:E; [|discriminate].
  apply py_number_inv in E. destruct E as (l & -> & L). intro H. inversion H; subst. unfold torch_sub_scalar, alpha_of.
  cbn [param nth_error a_pos a_kw keyword]. rewrite L. eexists. eexists. split; [reflexivity|]. split; [reflexivity|].
  split; [reflexivity|]. intros idx _. cbn. lra.
Qed.
Lemma sub_scalar_taken l c : lit_val l = Some c -> exists e, rewrite_sub false 1 (mkA [l] []) = Some e.
Proof. intro L. unfold rewrite_sub, py_number. cbn [Nat.eqb andb negb a_pos a_kw]. destruct l; cbn in *; try discriminate; eauto. Qed.
Lemma rsub_scalar_ok a e x : rewrite_sub true 1 a = Some e ->
  exists y z, torch_rsub_scalar a x = Some y /\ arun [x] e = Some z /\ teq z y.
Proof.
  unfold rewrite_sub. cbn [Nat.eqb andb negb]. destruct (py_number false a) as [c|] eqn:E; [|discriminate].
  apply py_number_inv in E. destruct E as (l & -> & L). intro H. inversion H; subst. unfold torch_rsub_scalar.
  cbn [param nth_error a_pos a_kw keyword]. rewrite L. eexists. eexists. split; [reflexivity|]. split; [reflexivity|].
  split; [reflexivity|]. intros idx _. cbn. lra.
Qed.
Lemma sub_tensors_ok a x y : alpha_of a = Some 1 ->
  exists e, rewrite_sub false 2 a = Some e /\ same_result (arun [x; y] e) (torch_sub a x y).
Proof.
  intro A. eexists. split; [reflexivity|]. unfold torch_sub. rewrite A. cbn. unfold binop. cbn [tmap tshape].
  destruct (bshape (tshape x) (tshape y)); [|exact I]. split; [reflexivity|]. intros idx _. cbn. lra.
Qed.
Definition scal (r : R) : tensor R := mkT [1%nat] (fun _ => r).
Lemma sub_alpha_wrong : exists a e x y u v, accepted ["other"; "alpha"]%string (mkA [LDot 0] (a_kw a)) /\
  rewrite_sub false 2 a = Some e /\ torch_sub a x y = Some u /\ arun [x; y] e = Some v /\ ~ teq v u.
Proof.
  exists (mkA [] [("alpha"%string, LInt 2)]). eexists. exists (scal 5), (scal 1). eexists. eexists.
  split. { split; [cbn; lia|]. split; [repeat constructor; cbn; tauto|]. constructor; [cbn; auto|constructor]. }
  split; [reflexivity|]. split; [reflexivity|]. split; [reflexivity|].
  intros [_ H]. specialize (H [0%nat]). cbn in H. assert (5 + 1 * -1 = 5 - 2 * 1) by (apply H; repeat constructor). lra.
Qed.
Lemma rsub_tensors_wrong : exists e x y u v,
  rewrite_sub true 2 (mkA [] []) = Some e /\ torch_rsub x y = Some u /\ arun [x; y] e = Some v /\ ~ teq v u.
Proof.
  eexists. exists (scal 5), (scal 1). eexists. eexists. split; [reflexivity|]. split; [reflexivity|]. split; [reflexivity|].
  intros [_ H]. specialize (H [0%nat]). cbn in H. assert (5 + 1 * -1 = 1 - 5) by (apply H; repeat constructor). lra.
Qed.
Lemma numbers_refused : exists a, (forall x, exists y, torch_div a x = Some y) /\ (forall x, exists y, torch_rsub_scalar a x = Some y) /\
  rewrite_div a = None /\ rewrite_sub true 1 a = None.
Proof.
  exists (mkA [LExp (1 / 100000)] []). split.
  - intro x. unfold torch_div. cbn [param nth_error a_pos a_kw keyword lit_val]. destruct (Req_EM_T (1 / 100000) 0); [lra|]. eauto.
  - split; [|split; reflexivity]. intro x. unfold torch_rsub_scalar. cbn. eauto.
Qed.

(** ** Stacking *)

Lemma stack_dim_read a dim : rewrite_stack_dim a = Some dim -> stack_dim a = Some dim.
Proof.
  destruct a as [p k]. unfold rewrite_stack_dim, stack_dim, param. cbn [a_pos a_kw].
  destruct p as [|l [|]]; try discriminate.
  - destruct k as [|(n, v) [|]]; try discriminate; cbn [nth_error keyword]; auto.
    intro H. destruct (String.eqb n "axis") eqn:E1.
    + apply String.eqb_eq in E1. subst. cbn. destruct v; cbn in H; try discriminate. congruence.
    + destruct (String.eqb n "dim") eqn:E2; [|discriminate]. destruct v; cbn in H; try discriminate. congruence.
  - destruct k; [|discriminate]. cbn [nth_error]. destruct l; cbn; congruence.
Qed.
Lemma accepted_one n a : accepted [n] a ->
  (exists l, a = mkA [l] []) \/ a = mkA [] [] \/ exists v, a = mkA [] [(n, v)].
Proof.
  destruct a as [p k]. intros (L & ND & F). cbn [a_pos a_kw] in *. destruct p as [|l [|]]; cbn in L; [|left|lia].
  - right. destruct k as [|(m, v) k]; [now left|right]. exists v. inversion F; subst. cbn in H1.
    destruct H1 as [<-|[]]. destruct k as [|(m', v') k]; auto. exfalso. inversion H2; subst. cbn in H1.
    destruct H1 as [<-|[]]. inversion ND; subst. apply H1. now left.
  - exists l. f_equal. destruct k as [|(m, v) k]; auto. exfalso. inversion F; subst. cbn in H1. auto.
Qed.
Lemma stack_dim_taken a dim : accepted ["dim"%string] a \/ accepted ["axis"%string] a -> stack_dim a = Some dim ->
  rewrite_stack_dim a = Some dim.
Proof.
  intros [H|H]; apply accepted_one in H; destruct H as [(l & ->)|[->|(v & ->)]]; unfold stack_dim, rewrite_stack_dim; cbn;
    try destruct l; try destruct v; cbn; congruence.
Qed.

Lemma axis_of_lt n d : axis_ok n d -> (axis_of n d < n)%nat.
Proof. unfold axis_ok, axis_of. intro H. destruct (d <? 0)%Z eqn:E; [apply Z.ltb_lt in E|apply Z.ltb_ge in E]; lia. Qed.
Lemma cat_at_unsqueezed {A} (d : A) ax sh (ts : list (tensor A)) idx : (ax <= length sh)%nat -> length idx = S (length sh) ->
  Forall (fun t => tshape t = sh) ts -> forall i,
  cat_at d ax (map (fun t => mkT (insert_at ax 1%nat (tshape t)) (fun j => tget t (remove_at ax j))) ts) idx i =
  tget (nth i ts (mkT [] (fun _ => d))) (remove_at ax idx).
Proof.
  intros L Li F. induction F as [|t ts Ht F IH]; intro i; cbn [map cat_at nth].
  - destruct i; reflexivity.
  - unfold axis_size at 1. cbn [tshape]. rewrite Ht, insert_at_eq by exact L. destruct i as [|i]; cbn [Nat.ltb Nat.leb].
    + cbn [tget]. f_equal. unfold remove_at. clear - Li L. revert sh idx L Li.
      induction ax as [|ax IH]; intros sh [|j idx] L Li; cbn in *; auto.
      f_equal. destruct sh as [|s sh]; [cbn in *; lia|]. apply (IH sh); cbn in *; lia.
    + replace (axis_size ax {| tshape := insert_at ax 1%nat sh; tget := fun j => tget t (remove_at ax j) |}) with 1%nat
        by (unfold axis_size; cbn [tshape]; now rewrite insert_at_eq).
      rewrite Nat.sub_succ, Nat.sub_0_r. apply IH.
Qed.
Lemma sizes_unsqueezed {A} ax sh (ts : list (tensor A)) : (ax <= length sh)%nat -> Forall (fun t => tshape t = sh) ts ->
  sizes_sum ax (map (fun t => mkT (insert_at ax 1%nat (tshape t)) (fun j => tget t (remove_at ax j))) ts) = length ts.
Proof.
  intros L F. induction F as [|t ts Ht F IH]; auto. unfold sizes_sum in *. cbn [map list_sum fold_right length].
  unfold axis_size at 1. cbn [tshape]. rewrite Ht, insert_at_eq by exact L.
  change (fold_right Nat.add 0%nat ?l) with (list_sum l). rewrite IH. reflexivity.
Qed.
Lemma stack_ok {A} (d : A) a sh (ts : list (tensor A)) dim y : ts <> [] -> Forall (fun t => tshape t = sh) ts ->
  stack_dim a = Some dim -> axis_ok (S (length sh)) dim -> rewrite_stack d a ts = Some y -> teq y (torch_stack d dim ts).
Proof.
  intros N F S O. unfold rewrite_stack. destruct (rewrite_stack_dim a) as [dim'|] eqn:E; [|discriminate].
  apply stack_dim_read in E. rewrite S in E. inversion E; subst dim'. intro H. inversion H; subst y. clear H E.
  destruct ts as [|t ts]; [congruence|]. pose proof (axis_of_lt _ _ O) as AX. set (ax := axis_of (Datatypes.S (length sh)) dim) in *.
  assert (map (torch_unsqueeze dim) (t :: ts) = map (fun t => mkT (insert_at ax 1%nat (tshape t)) (fun j => tget t (remove_at ax j))) (t :: ts)) as M.
  { apply map_ext_in. intros u Hu. unfold torch_unsqueeze. rewrite Forall_forall in F. rewrite (F u Hu). reflexivity. }
  assert (tshape t = sh) as Ht by (now inversion F).
  unfold torch_cat. rewrite M. assert (axis_of (rank_of (map (fun t0 => mkT (insert_at ax 1%nat (tshape t0)) (fun j => tget t0 (remove_at ax j))) (t :: ts))) dim = ax) as ->.
  { cbn [map rank_of tshape]. rewrite Ht, insert_at_length. reflexivity. }
  unfold torch_stack. cbn [rank_of]. rewrite Ht. fold ax. split.
  - pose proof (sizes_unsqueezed ax sh (t :: ts) ltac:(lia) F) as Z. cbn [map] in Z.
    unfold concatenation, stack. cbn [tshape map]. rewrite Z, upd_insert by (rewrite Ht; lia). reflexivity.
  - intros idx V. unfold concatenation, stack. cbn [tget]. rewrite (cat_at_unsqueezed d ax sh (t :: ts)); auto; [lia|].
    apply valid_length in V. rewrite V. unfold concatenation. cbn [tshape map]. rewrite upd_length, insert_at_length, Ht. reflexivity.
Qed.

(** ** Clamping *)

Lemma py_eq_bound neg o r b : py_eq o r = true -> bound neg o = Some b -> b = Some r.
Proof.
  destruct o as [[]|]; cbn; try discriminate;
    try (match goal with |- context [Req_EM_T ?a ?b] => destruct (Req_EM_T a b) as [->|] end; congruence).
Qed.
Lemma none_bound neg o b : is_none o = true -> bound neg o = Some b -> b = None.
Proof. destruct o as [[]|]; cbn; congruence. Qed.
Lemma given_none o : given o = negb (is_none o).
Proof. destruct o as [[]|]; reflexivity. Qed.
Lemma clamp_ok a f : finite_bounds a -> clamp_call a = Some f -> exists g, crun (rewrite_clamp a) = Some g /\ forall v, g v = f v.
Proof.
  unfold finite_bounds, clamp_call, rewrite_clamp.
  set (lo := param 0 "min"%string a). set (hi := param 1 "max"%string a). intros FB H.
  destruct (bound true lo) as [l|] eqn:El; [|discriminate]. destruct (bound false hi) as [h|] eqn:Eh; [|discriminate].
  rewrite !given_none in H. destruct (py_eq lo 0 && is_none hi) eqn:E1.
  { apply andb_true_iff in E1. destruct E1 as [E1 E2]. rewrite (py_eq_bound _ _ _ _ E1 El), (none_bound _ _ _ E2 Eh) in H.
    destruct (negb (is_none lo) || negb (is_none hi)); [|discriminate]. inversion H; subst. eexists. split; reflexivity. }
  destruct (py_eq lo 0 && py_eq hi 6) eqn:E2.
  { apply andb_true_iff in E2. destruct E2 as [E3 E2]. rewrite (py_eq_bound _ _ _ _ E3 El), (py_eq_bound _ _ _ _ E2 Eh) in H.
    destruct (negb (is_none lo) || negb (is_none hi)); [|discriminate]. inversion H; subst. eexists. split; reflexivity. }
  destruct (is_none hi) eqn:E3.
  { rewrite (none_bound _ _ _ E3 Eh) in H. cbn [negb] in H. rewrite orb_false_r in H. destruct (is_none lo) eqn:E4; [discriminate|].
    cbn [negb] in H. inversion H; subst. destruct lo as [lit|] eqn:Elo; [|discriminate]. cbn [text crun].
    destruct (FB true) as [F1 _]. destruct (FB false) as [F2 _].
    destruct lit as [| | | |[]| | |]; cbn [reread]; cbn [is_none] in E4; try discriminate; cbn in El; try discriminate; try congruence.
    all: inversion El; subst; cbn; eexists; split; reflexivity. }
  destruct (is_none lo) eqn:E4.
  { rewrite (none_bound _ _ _ E4 El) in H. cbn [negb orb] in H. inversion H; subst.
    destruct hi as [lit|] eqn:Ehi; [|discriminate]. cbn [text crun].
    destruct (FB true) as [_ F1]. destruct (FB false) as [_ F2].
    destruct lit as [| | | |[]| | |]; cbn [reread]; cbn [is_none] in E3; try discriminate; cbn in Eh; try discriminate; try congruence.
    all: inversion Eh; subst; cbn; eexists; split; reflexivity. }
  cbn [negb orb] in H. inversion H; subst. destruct lo as [l1|] eqn:Elo; [|discriminate]. destruct hi as [h1|] eqn:Ehi; [|discriminate].
  cbn [text crun]. destruct (FB true) as [F1 F2]. destruct (FB false) as [F3 F4].
  assert (reread l1 = Some l1) as -> by (destruct l1 as [| | | |[]| | |]; cbn; congruence).
  assert (reread h1 = Some h1) as -> by (destruct h1 as [| | | |[]| | |]; cbn; congruence).
  unfold clamp_call. cbn [param a_pos nth_error]. rewrite El, Eh, !given_none, E3, E4. cbn [negb orb].
  eexists. split; reflexivity.
Qed.
Lemma clamp_min_ok a f : clamp_min_call a = Some f -> exists r, rewrite_clamp_min a = Some r /\
  forall c, r = Some c -> exists g, crun c = Some g /\ forall v, g v = f v.
Proof.
  unfold clamp_min_call, rewrite_clamp_min. destruct (param 0 "min"%string a) as [l|]; [|discriminate]. intro H.
  destruct (py_eq (Some l) 0) eqn:E; eexists; (split; [reflexivity|]); intros c Hc; inversion Hc; subst.
  destruct (given (Some l)) eqn:G; [|discriminate]. destruct (bound true (Some l)) as [b|] eqn:B; [|discriminate]. cbn in H.
  apply clamp_ok.
  - intro n. cbn. split; [|discriminate]. intro X. inversion X; subst. discriminate.
  - unfold clamp_call. cbn [param a_pos a_kw nth_error keyword]. rewrite B, G. exact H.
Qed.
Lemma clamp_inf_wrong : exists a f, clamp_call a = Some f /\ crun (rewrite_clamp a) = None.
Proof.
  exists (mkA [LDot (1 / 2); LInf false] []). eexists. split; [reflexivity|]. unfold rewrite_clamp.
  cbn [param a_pos a_kw nth_error py_eq lit_val is_none andb]. rewrite andb_false_r. reflexivity.
Qed.

(** ** Modules *)

Lemma leaky_ok a f : by_position a -> leaky_call a = Some f -> exists g, rewrite_leaky a = Some g /\ forall v, g v = f v.
Proof.
  unfold leaky_call, rewrite_leaky. intros [H| ->] E.
  - destruct a as [[|l p] k]; cbn in H; [congruence|]. cbn [no_args a_pos a_kw].
    unfold num_param, param in *. cbn [a_pos nth_error] in *. exists f. rewrite E. auto.
  - exists f. auto.
Qed.
Lemma elu_ok a f : elu_call a = Some f -> exists g, rewrite_elu a = Some g /\ forall v, g v = f v.
Proof.
  unfold elu_call, rewrite_elu. intro E. exists f. split; auto. unfold no_args. destruct a as [[|l p] [|k r]]; auto.
Qed.
Lemma glu_ok a d : glu_dim a = Some d -> rewrite_glu_dim a = Some d.
Proof. unfold glu_dim, rewrite_glu_dim, no_args. intro E. destruct a as [[|l p] [|k r]]; auto. Qed.
Lemma leaky_wrong : exists a f g, accepted ["negative_slope"; "inplace"]%string a /\ leaky_call a = Some f /\ rewrite_leaky a = Some g /\
  exists v, g v <> f v.
Proof.
  exists (mkA [] [("negative_slope"%string, LDot (1 / 5))]). eexists. eexists.
  split. { split; [cbn; lia|]. split; [repeat constructor; cbn; tauto|]. constructor; [cbn; auto|constructor]. }
  split; [reflexivity|]. split; [reflexivity|]. exists (-1). unfold leaky. destruct (Rle_dec 0 (-1)); lra.
Qed.
Lemma leaky_inplace_wrong : exists a f g, accepted ["negative_slope"; "inplace"]%string a /\ keyword "negative_slope" (a_kw a) = None /\
  leaky_call a = Some f /\ rewrite_leaky a = Some g /\ exists v, g v <> f v.
Proof.
  exists (mkA [] [("inplace"%string, LBool true)]). eexists. eexists.
  split. { split; [cbn; lia|]. split; [repeat constructor; cbn; tauto|]. constructor; [cbn; auto|constructor]. }
  split; [reflexivity|]. split; [reflexivity|]. split; [reflexivity|]. exists (-1). unfold leaky. destruct (Rle_dec 0 (-1)); lra.
Qed.
Lemma dropout_ok keep a x p t : dropout_call a = Some (p, t) -> rewrite_dropout t keep a x = Some (dropped keep p t x).
Proof.
  unfold dropout_call, rewrite_dropout. destruct (num_param 0 "p"%string (1 / 2) a) as [q|]; [|discriminate].
  destruct (param 1 "training"%string a) as [[]|]; try discriminate; intro H; inversion H; subst; reflexivity.
Qed.
Lemma dropout_wrong : exists keep a x p y, dropout_call a = Some (p, false) /\ rewrite_dropout true keep a x = Some y /\
  ~ teq y (dropped keep p false x).
Proof.
  exists (fun _ => false), (mkA [] [("training"%string, LBool false)]), (scal 1). eexists. eexists.
  split; [reflexivity|]. split; [reflexivity|]. intros [_ H]. specialize (H [0%nat]). cbn in H.
  assert (0 = 1) by (apply H; repeat constructor). lra.
Qed.
