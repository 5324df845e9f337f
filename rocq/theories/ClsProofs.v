From Coq Require Import List Arith Bool ZArith Lia.
From Verif Require Import ClsModel ClsSpec.
Import ListNotations.

Lemma group_eqb_eq : forall a b, group_eqb a b = true <-> a = b.
Proof.
  induction a as [|[x m] a IH]; intros [|[y k] b]; cbn [group_eqb]; try (split; congruence). unfold item_eqb. cbn [fst snd]. rewrite !andb_true_iff, !Nat.eqb_eq, IH. split.
  - intros ((-> & ->) & ->). reflexivity.
  - intros E. injection E as -> -> ->. auto.
Qed.
Lemma in_groups_iff c gs : in_groups c gs = true <-> In c gs.
Proof.
  unfold in_groups. rewrite existsb_exists. split; [intros (x & I & E); apply group_eqb_eq in E; now subst|]. intros I. exists c. split; [exact I|]. now apply group_eqb_eq.
Qed.

(** * Groups are pairs *)
Inductive run (g : lgraph) : list item -> nat -> Prop :=
| run_nil n : run g [] n
| run_snoc c x m l n : run g c x -> lk g x = LSup m -> only_through g x l n -> run g (c ++ [(x, m)]) n.
Lemma run_inv g c x m n : run g (c ++ [(x, m)]) n -> run g c x /\ lk g x = LSup m /\ exists l, only_through g x l n.
Proof. intros H. inversion H as [k E|c' x' m' l k R K O E]; [destruct c; discriminate|]. apply app_inj_tail in E. destruct E as [-> E]. injection E as -> ->. eauto. Qed.
Lemma run_step g c x n : run g c x -> lk g x = LScal -> nx g x = [n] -> run g c n.
Proof. intros R K X. inversion R as [k|c' y m l k R' K' O]; subst; [constructor|]. eapply run_snoc; eauto. eapply ot_step; eauto. Qed.
Lemma run_two g c n : run g c n -> group_ok c = true -> pair_ok g c.
Proof.
  unfold group_ok. rewrite Nat.eqb_eq. destruct c as [|[c1 m1] [|[c2 m2] [|? ?]]]; try discriminate. intros R _. destruct (run_inv g [(c1, m1)] c2 m2 n R) as (R1 & K2 & _).
  destruct (run_inv g [] c1 m1 c2 R1) as (_ & K1 & l & O). exists c1, m1, c2, m2, l. auto.
Qed.
Definition g_ok (g : lgraph) (gs : list (list item)) : Prop := NoDup gs /\ forall p, In p gs -> pair_ok g p.
Lemma g_add g gs c : g_ok g gs -> pair_ok g c -> in_groups c gs = false -> g_ok g (gs ++ [c]).
Proof.
  intros (N & P) C I. assert (NI : ~ In c gs) by (rewrite <- in_groups_iff; congruence). split.
  - apply NoDup_rev in N. rewrite <- (rev_involutive (gs ++ [c])). apply NoDup_rev. rewrite rev_app_distr. cbn. constructor; [rewrite <- in_rev; exact NI|exact N].
  - intros p H. apply in_app_or in H. destruct H as [H|[<-|[]]]; auto.
Qed.
Lemma first_ok g gs c n gs' c' : g_ok g gs -> run g c n -> close_first gs c = (gs', c') -> g_ok g gs' /\ run g c' n.
Proof.
  unfold close_first. intros G R. destruct (group_ok c) eqn:L; cbn [andb]; [|intros E; injection E as <- <-; auto]. destruct (in_groups c gs) eqn:I; cbn [negb]; intros E; injection E as <- <-; auto.
  split; [apply g_add; auto; eapply run_two; eauto|]. unfold group_ok in L. apply Nat.eqb_eq in L. destruct c as [|[c1 m1] [|[c2 m2] [|? ?]]]; try discriminate. cbn [rev app].
  destruct (run_inv g [(c1, m1)] c2 m2 n R) as (_ & K2 & l & O). exact (run_snoc g [] c2 m2 l n (run_nil g c2) K2 O).
Qed.
Lemma last_ok g gs c n gs' c' : g_ok g gs -> run g c n -> close_last (ends (lk g n) (nx g n)) gs (add_node (lk g n) n c) = (gs', c') ->
  g_ok g gs' /\ forall x, nx g n = [x] -> run g c' x.
Proof.
  intros G R. assert (P : group_ok (add_node (lk g n) n c) = true -> pair_ok g (add_node (lk g n) n c)).
  { destruct (lk g n) as [m| |] eqn:K; cbn [add_node]; [|exact (run_two g c n R)|exact (run_two g c n R)]. unfold group_ok. rewrite app_length, Nat.eqb_eq. cbn. intros L.
    destruct c as [|[c1 m1] [|? ?]]; cbn in L; try lia. destruct (run_inv g [] c1 m1 n R) as (_ & K1 & l & O). exists c1, m1, n, m, l. auto. }
  unfold close_last, ends. destruct (1 <? length (nx g n)) eqn:L; cbn [orb].
  - intros E. injection E as <- <-. split; [|intros; constructor]. destruct (group_ok (add_node (lk g n) n c)) eqn:Q; [|exact G]. destruct (in_groups _ gs) eqn:I; [exact G|]. cbn [andb negb]. apply g_add; auto.
  - destruct (lk g n) as [m| |] eqn:K; cbn [add_node] in *; intros E; injection E as <- <-.
    + split; [exact G|]. intros x X. eapply run_snoc; eauto. now apply ot_one.
    + split; [exact G|]. intros x X. eapply run_step; eauto.
    + split; [|intros; constructor]. destruct (group_ok c) eqn:Q; [|exact G]. destruct (in_groups c gs) eqn:I; [exact G|]. cbn [andb negb]. apply g_add; auto.
Qed.
Lemma traverse_ok g : forall fuel n s c, g_ok g (fst s) -> run g c n -> g_ok g (fst (traverse fuel g n s c)).
Proof.
  induction fuel as [|f IH]; intros n [gs vs] c G R; [exact G|]. cbn [traverse]. destruct (seen n vs); [exact G|]. cbn [fst] in G.
  destruct (close_first gs c) as [gs1 c1] eqn:E1. destruct (first_ok g gs c n gs1 c1 G R E1) as (G1 & R1).
  destruct (close_last _ gs1 _) as [gs2 c2] eqn:E2. destruct (last_ok g gs1 c1 n gs2 c2 G1 R1 E2) as (G2 & R2).
  assert (F : forall ns s, g_ok g (fst s) -> g_ok g (fst (fst (fold_left (fun p x => (traverse f g x (fst p) (snd p), [])) ns (s, []))))).
  { induction ns as [|x ns IHn]; intros s H; [exact H|]. cbn [fold_left fst snd]. apply IHn. apply IH; [exact H|constructor]. }
  destruct (nx g n) as [|x ns] eqn:X; [exact G2|]. cbn [fold_left fst snd]. apply F. apply IH; [exact G2|].
  destruct ns as [|y ns]; [now apply R2|]. assert (c2 = []); [|subst; constructor]. revert E2. unfold close_last, ends. cbn. congruence.
Qed.
Lemma cls_ok fuel g : NoDup (cls_set fuel g) /\ forall p, In p (cls_set fuel g) -> pair_ok g p.
Proof.
  unfold cls_set. assert (F : forall ns s, g_ok g (fst s) -> g_ok g (fst (fold_left (fun s n => traverse fuel g n s []) ns s))).
  { induction ns as [|x ns IH]; intros s H; [exact H|]. cbn [fold_left]. apply IH. apply traverse_ok; [exact H|constructor]. }
  apply F. split; [constructor|intros p []].
Qed.

(** * A layer is first in one group *)
Lemma through_det g c : forall l n, only_through g c l n -> forall l' n', only_through g c l' n' -> lk g n <> LScal -> length l' <= length l -> lk g n' <> LScal -> l = l' /\ n = n'.
Proof.
  assert (P : forall l n, only_through g c l n -> forall l' n', only_through g c l' n' -> (length l = length l' -> l = l' /\ n = n') /\ (length l' < length l -> lk g n' = LScal)).
  { induction 1 as [n X|l x n O IH K X].
    - intros l' n' O'. split; [|cbn; lia]. intros L. inversion O' as [k Y|l2 x2 k O2 K2 Y]; subst; [|rewrite app_length in L; cbn in L; lia]. rewrite X in Y. injection Y as ->. auto.
    - intros l' n' O'. split.
      + intros L. inversion O' as [k Y|l2 x2 k O2 K2 Y]; subst; [rewrite app_length in L; cbn in L; lia|]. rewrite !app_length in L. cbn in L. destruct (IH l2 x2 O2) as (A & _). destruct A as (-> & ->); [lia|]. rewrite X in Y. injection Y as ->. auto.
      + rewrite app_length. cbn. intros L. destruct (IH l' n' O') as (A & B). destruct (Nat.eq_dec (length l) (length l')) as [E|E]; [destruct (A E) as (_ & <-); exact K|]. apply B. lia. }
  intros l n O l' n' O' K L K'. destruct (P l n O l' n' O') as (A & B). destruct (Nat.eq_dec (length l) (length l')) as [E|E]; [auto|]. elim K'. apply B. lia.
Qed.
Lemma first_once fuel g p p' c m r m' r' : In p (cls_set fuel g) -> In p' (cls_set fuel g) -> p = (c, m) :: r -> p' = (c, m') :: r' -> p = p'.
Proof.
  intros H H' E E'. destruct (proj2 (cls_ok fuel g) p H) as (a & ma & b & mb & l & -> & A1 & A2 & A3). destruct (proj2 (cls_ok fuel g) p' H') as (a' & ma' & b' & mb' & l' & -> & B1 & B2 & B3).
  injection E as -> -> _. injection E' as -> -> _. destruct (le_lt_dec (length l') (length l)) as [L|L].
  - destruct (through_det g c l b A3 l' b' B3) as (_ & ->); [congruence|exact L|congruence|]. congruence.
  - destruct (through_det g c l' b' B3 l b A3) as (_ & ->); [congruence|lia|congruence|]. congruence.
Qed.

(** * Equalizing two layers of a group *)
Lemma through_props g c1 l c2 : l_wf g -> only_through g c1 l c2 -> (forall y, In y (c1 :: l) -> exists z, nx g y = [z] /\ In z (l ++ [c2])) /\ (forall z, In z (l ++ [c2]) -> exists y, In y (c1 :: l) /\ nx g y = [z]) /\ (forall x, In x l -> lk g x = LScal) /\ c1 < c2.
Proof.
  intros (_ & _ & W). induction 1 as [n X|l x n O IH K X].
  - split; [intros y [<-|[]]; exists n; cbn; auto|]. split; [intros z [<-|[]]; exists c1; cbn; auto|]. split; [intros x []|]. apply W. rewrite X. now left.
  - destruct IH as (A & B & C & D). split; [|split; [|split]].
    + intros y [<-|Y]; [|apply in_app_or in Y; destruct Y as [Y|[<-|[]]]].
      * destruct (A c1 (or_introl eq_refl)) as (z & Z1 & Z2). exists z. split; [exact Z1|]. apply in_or_app. now left.
      * destruct (A y (or_intror Y)) as (z & Z1 & Z2). exists z. split; [exact Z1|]. apply in_or_app. now left.
      * exists n. split; [exact X|]. apply in_or_app. right. now left.
    + intros z Z. apply in_app_or in Z. destruct Z as [Z|[<-|[]]].
      * destruct (B z Z) as (y & [<-|Y] & E); [exists c1; split; [now left|exact E]|]. exists y. split; [right; apply in_or_app; now left|exact E].
      * exists x. split; [right; apply in_or_app; right; now left|exact X].
    + intros z Z. apply in_app_or in Z. destruct Z as [Z|[<-|[]]]; auto.
    + assert (x < n) by (apply W; rewrite X; now left). lia.
Qed.
Lemma equalize_ok {V} (den fo : nat -> list V -> V) (sc un : V -> V) fuel g v c1 m1 c2 m2 :
  l_wf g -> (forall y, un (sc y) = y) -> (forall x y, lk g x = LScal -> fo x [sc y] = sc (fo x [y])) -> own_module g c1 m1 -> own_module g c2 m2 ->
  In [(c1, m1); (c2, m2)] (cls_set fuel g) -> l_computes den fo g v ->
  exists l v', only_through g c1 l c2 /\ l_computes (equalized sc un m1 m2 den) fo g v' /\ (forall x, x = c1 \/ In x l -> v' x = sc (v x)) /\ (forall x, ~ (x = c1 \/ In x l) -> v' x = v x).
Proof.
  intros W US HS O1 O2 IN CO. destruct (proj2 (cls_ok fuel g) _ IN) as (a & ma & b & mb & l & E & K1 & K2 & TH). injection E as <- <- <- <-.
  destruct (through_props g c1 l c2 W TH) as (A & B & C & D). destruct W as (W1 & W2 & W3).
  set (v' := fun x => if in_dec Nat.eq_dec x (c1 :: l) then sc (v x) else v x).
  assert (VI : forall x, In x (c1 :: l) -> v' x = sc (v x)) by (intros x I; unfold v'; destruct (in_dec _ _ _); [reflexivity|contradiction]).
  assert (VO : forall x, ~ In x (c1 :: l) -> v' x = v x) by (intros x I; unfold v'; destruct (in_dec _ _ _); [contradiction|reflexivity]).
  assert (N1 : ~ In c1 (l ++ [c2])) by (intros I; apply in_app_or in I; destruct I as [I|[I|[]]]; [apply C in I; congruence|lia]).
  assert (N2 : ~ In c2 (c1 :: l)) by (intros [I|I]; [lia|apply C in I; congruence]).
  assert (MM : m1 <> m2) by (intros M; rewrite <- M in K2; specialize (O1 c2 K2); lia).
  assert (OUT : forall n, ~ In n (l ++ [c2]) -> map v' (pr g n) = map v (pr g n)).
  { intros n N. apply map_ext_in. intros y Y. apply VO. intros I. apply W1 in Y. destruct (A y I) as (z & Z1 & Z2). rewrite Z1 in Y. destruct Y as [<-|[]]. contradiction. }
  assert (INN : forall n, In n (l ++ [c2]) -> lk g n <> LOther -> exists y, pr g n = [y] /\ v' y = sc (v y)).
  { intros n N K. destruct (B n N) as (y & Y & E). exists y. specialize (W2 n K). assert (P : In y (pr g n)) by (apply W1; rewrite E; now left). destruct (pr g n) as [|q [|? ?]]; try discriminate W2. destruct P as [->|[]]. auto. }
  exists l, v'. split; [exact TH|]. split; [|split; [intros x [->|X]; apply VI; [now left|now right]|intros x X; apply VO; intros [Y|Y]; apply X; auto]].
  - intros n. destruct (in_dec Nat.eq_dec n (l ++ [c2])) as [I|I].
    + assert (KN : lk g n <> LOther) by (apply in_app_or in I; destruct I as [I|[<-|[]]]; [rewrite (C n I)|rewrite K2]; discriminate). destruct (INN n I KN) as (y & P & VY). rewrite P. cbn [map]. rewrite VY.
      apply in_app_or in I. destruct I as [I|[<-|[]]].
      * rewrite (VI n (or_intror I)), (C n I), (HS n _ (C n I)), (CO n), (C n I), P. reflexivity.
      * rewrite (VO c2 N2), K2. unfold equalized. destruct (m2 =? m1) eqn:Q; [apply Nat.eqb_eq in Q; congruence|]. rewrite Nat.eqb_refl. cbn [map]. rewrite US, (CO c2) at 1. now rewrite K2, P.
    + rewrite (OUT n I). destruct (Nat.eq_dec n c1) as [->|NE].
      * rewrite (VI c1 (or_introl eq_refl)), K1. unfold equalized. rewrite Nat.eqb_refl. rewrite (CO c1) at 1. now rewrite K1.
      * rewrite VO; [|intros [X|X]; [congruence|apply I, in_or_app; now left]]. rewrite (CO n) at 1. destruct (lk g n) as [m| |] eqn:K; auto. unfold equalized.
        destruct (m =? m1) eqn:Q1; [apply Nat.eqb_eq in Q1; subst m; elim NE; now apply O1|]. destruct (m =? m2) eqn:Q2; [|reflexivity]. apply Nat.eqb_eq in Q2. subst m. elim I. apply in_or_app. right. left. symmetry. now apply O2.
Qed.

(** * The search ends *)
Definition unv (all vs : list nat) : nat := length (filter (fun x => negb (seen x vs)) all).
Lemma seen_iff n vs : seen n vs = true <-> In n vs.
Proof. unfold seen. rewrite existsb_exists. split; [intros (x & I & E); apply Nat.eqb_eq in E; now subst|]. intros I. exists n. split; [exact I|apply Nat.eqb_refl]. Qed.
Lemma filter_le {A} (f f' : A -> bool) : forall l, (forall x, In x l -> f x = true -> f' x = true) -> length (filter f l) <= length (filter f' l).
Proof.
  induction l as [|x l IH]; intros H; [auto|]. cbn. assert (L : length (filter f l) <= length (filter f' l)) by (apply IH; intros y Y; apply H; now right).
  destruct (f x) eqn:E; [rewrite (H x (or_introl eq_refl) E); cbn; lia|]. destruct (f' x); cbn; lia.
Qed.
Lemma unv_le all vs vs' : incl vs vs' -> unv all vs' <= unv all vs.
Proof. intros I. apply filter_le. intros x _. rewrite !negb_true_iff. intros S. destruct (seen x vs) eqn:E; [|reflexivity]. apply seen_iff, I, seen_iff in E. congruence. Qed.
Lemma unv_lt all vs n : In n all -> ~ In n vs -> unv all (vs ++ [n]) < unv all vs.
Proof.
  unfold unv. induction all as [|x l IH]; intros I N; [destruct I|]. cbn.
  assert (L : unv l (vs ++ [n]) <= unv l vs) by (apply unv_le, incl_appl, incl_refl). unfold unv in L.
  destruct (Nat.eq_dec x n) as [->|E].
  - assert (S1 : seen n (vs ++ [n]) = true) by (apply seen_iff, in_or_app; right; now left). assert (S2 : seen n vs = false) by (destruct (seen n vs) eqn:Q; [apply seen_iff in Q; contradiction|reflexivity]). rewrite S1, S2. cbn. lia.
  - destruct I as [->|I]; [congruence|]. specialize (IH I N). assert (S : seen x (vs ++ [n]) = seen x vs) by (unfold seen; rewrite existsb_app; cbn; apply Nat.eqb_neq in E; rewrite E; cbn; apply orb_false_r).
    rewrite S. destruct (seen x vs); cbn; lia.
Qed.
Lemma visited_incl g : forall f n s c, incl (snd s) (snd (traverse f g n s c)).
Proof.
  induction f as [|f IH]; intros n [gs vs] c; [apply incl_refl|]. cbn [traverse]. destruct (seen n vs); [apply incl_refl|]. destruct (close_first gs c) as [gs1 c1]. destruct (close_last _ gs1 _) as [gs2 c2].
  assert (F : forall ns s c, incl (snd s) (snd (fst (fold_left (fun p x => (traverse f g x (fst p) (snd p), [])) ns (s, c))))).
  { induction ns as [|x ns IHn]; intros s0 c0; [apply incl_refl|]. cbn [fold_left fst snd]. eapply incl_tran; [apply IH|apply IHn]. }
  eapply incl_tran; [|apply F]. cbn [snd]. apply incl_appl, incl_refl.
Qed.
Lemma more_fuel g all : (forall n x, In n all -> In x (nx g n) -> In x all) -> forall f n s c, In n all -> unv all (snd s) < f -> traverse f g n s c = traverse (S f) g n s c.
Proof.
  intros CL. induction f as [|f IH]; intros n [gs vs] c I L; [lia|]. cbn [snd] in L. remember (S f) as f1 eqn:F1. cbn [traverse]. rewrite F1 at 1. cbn [traverse]. destruct (seen n vs) eqn:SN; [reflexivity|].
  destruct (close_first gs c) as [gs1 c1]. destruct (close_last _ gs1 _) as [gs2 c2].
  assert (NV : ~ In n vs) by (rewrite <- seen_iff; congruence). pose proof (unv_lt all vs n I NV) as U.
  assert (F : forall ns s c, (forall x, In x ns -> In x all) -> unv all (snd s) < f -> fold_left (fun p x => (traverse f g x (fst p) (snd p), [])) ns (s, c) = fold_left (fun p x => (traverse f1 g x (fst p) (snd p), [])) ns (s, c)).
  { induction ns as [|x ns IHn]; intros s0 c0 A Q; [reflexivity|]. cbn [fold_left fst snd]. assert (EQ : traverse f g x s0 c0 = traverse f1 g x s0 c0) by (first [exact (IH x s0 c0 (A x (or_introl eq_refl)) Q)|rewrite F1; exact (IH x s0 c0 (A x (or_introl eq_refl)) Q)]). rewrite <- EQ. apply IHn; [intros y Y; apply A; now right|].
    eapply Nat.le_lt_trans; [apply unv_le, visited_incl|exact Q]. }
  f_equal. apply F; [intros x X; eapply CL; eauto|]. cbn [snd]. lia.
Qed.
Lemma unv_nil all vs : unv all vs <= length all.
Proof. unfold unv. induction all as [|x l IH]; [auto|]. cbn. destruct (negb _); cbn; lia. Qed.
Lemma fuel_S g all fuel : (forall n x, In n all -> In x (nx g n) -> In x all) -> (forall n, In n (fwd g) -> In n all) -> length all < fuel -> cls_set fuel g = cls_set (S fuel) g.
Proof.
  intros CL FW L. unfold cls_set. f_equal. generalize (@nil (list item), @nil nat). revert FW. generalize (fwd g). induction l as [|n l IH]; intros FW s; [reflexivity|]. cbn [fold_left].
  rewrite (more_fuel g all CL fuel n s []); [apply IH; intros x X; apply FW; now right|apply FW; now left|]. eapply Nat.le_lt_trans; [apply unv_nil|exact L].
Qed.
Lemma fuel_ok g all fuel fuel' : (forall n x, In n all -> In x (nx g n) -> In x all) -> (forall n, In n (fwd g) -> In n all) -> length all < fuel -> length all < fuel' -> cls_set fuel g = cls_set fuel' g.
Proof.
  intros CL FW. assert (P : forall k f, length all < f -> cls_set f g = cls_set (k + f) g).
  { induction k as [|k IH]; intros f L; [reflexivity|]. rewrite (IH f L). cbn [plus]. apply (fuel_S g all); auto. lia. }
  intros L L'. destruct (le_lt_dec fuel fuel') as [Q|Q].
  - rewrite (P (fuel' - fuel) fuel L). f_equal. lia.
  - rewrite (P (fuel - fuel') fuel' L'). f_equal. lia.
Qed.

(** * The order of the groups *)
Definition first_of (q : list item) : option nat := match q with (a, _) :: _ => Some a | [] => None end.
Definition second_of (q : list item) : option nat := match q with [_; (b, _)] => Some b | _ => None end.
Definition ord (gs : list (list item)) : Prop := forall l1 q l2 p y, gs = l1 ++ q :: l2 -> In p l2 -> second_of p = Some y -> first_of q <> Some y.
Definition o_ok (s : lst) : Prop := ord (fst s) /\ forall q a, In q (fst s) -> first_of q = Some a -> In a (snd s).
Definition c_ok (s : lst) (c : list item) : Prop := (forall x, In x c -> In (fst x) (snd s)) /\ forall y q, second_of c = Some y -> In q (fst s) -> first_of q <> Some y.
Lemma ord_snoc gs p : ord gs -> (forall y q, second_of p = Some y -> In q gs -> first_of q <> Some y) -> ord (gs ++ [p]).
Proof.
  intros O H l1 q l2 r y E I S. destruct (exists_last (l := l2)) as (l3 & z & ->); [intros ->; destruct I|].
  rewrite app_comm_cons, app_assoc in E. apply app_inj_tail in E. destruct E as (E & <-). apply in_app_or in I. destruct I as [I|[<-|[]]]; [exact (O l1 q l3 r y E I S)|].
  apply (H y q S). rewrite E. apply in_or_app. right. now left.
Qed.
Lemma o_add gs vs c : o_ok (gs, vs) -> c_ok (gs, vs) c -> o_ok (gs ++ [c], vs).
Proof.
  intros (O & F) (C1 & C2). split; cbn [fst snd] in *; [now apply ord_snoc|]. intros q a I E. apply in_app_or in I. destruct I as [I|[<-|[]]]; [eauto|]. destruct c as [|[x mx] c]; [discriminate|]. injection E as <-. apply (C1 (x, mx)). now left.
Qed.
Lemma traverse_ord g : forall fuel n s c, o_ok s -> c_ok s c -> o_ok (traverse fuel g n s c).
Proof.
  assert (NIL : forall s, c_ok s []) by (intros s; split; [intros x []|discriminate]).
  induction fuel as [|f IH]; intros n [gs vs] c O C; [exact O|]. cbn [traverse]. destruct (seen n vs) eqn:SN; [exact O|].
  assert (NV : ~ In n vs) by (rewrite <- seen_iff; congruence).
  destruct (close_first gs c) as [gs1 c1] eqn:E1.
  assert (H1 : o_ok (gs1, vs) /\ c_ok (gs1, vs) c1).
  { unfold close_first in E1. destruct (group_ok c && _) eqn:GO; injection E1 as <- <-; [|auto]. split; [now apply o_add|].
    destruct C as (C1 & C2). apply andb_prop in GO. destruct GO as (GO & _). unfold group_ok in GO. apply Nat.eqb_eq in GO. destruct c as [|[x mx] [|[y my] [|z c]]]; try discriminate GO. cbn in *.
    split; [|discriminate]. intros x0 [<-|[]]. cbn. apply (C1 (y, my)). right. now left. }
  destruct H1 as (O1 & C1 & C2).
  assert (O2 : o_ok (gs1, vs ++ [n])). { destruct O1 as (A & B). split; [exact A|]. cbn [fst snd] in *. intros q a I E. apply in_or_app. left. eauto. }
  assert (CC : c_ok (gs1, vs ++ [n]) (add_node (lk g n) n c1)).
  { unfold add_node. destruct (lk g n) as [m| |]; cbn [fst snd] in *; try (split; cbn [fst snd]; [intros x X; apply in_or_app; left; now apply C1|exact C2]).
    split; cbn [fst snd]; [intros x X; apply in_app_or in X; apply in_or_app; destruct X as [X|[<-|[]]]; [left; now apply C1|right; now left]|].
    intros y q S I E. destruct c1 as [|x [|z c1]]; [discriminate S| |destruct z; destruct c1; discriminate S]. cbn in S. injection S as <-. apply NV. destruct O1 as (_ & B). exact (B q n I E). }
  destruct (close_last _ gs1 _) as [gs2 c2] eqn:E2.
  assert (H2 : o_ok (gs2, vs ++ [n]) /\ c_ok (gs2, vs ++ [n]) c2).
  { unfold close_last in E2. destruct (ends _ _); injection E2 as <- <-; [|auto]. split; [|apply NIL]. destruct (_ && _); [now apply o_add|exact O2]. }
  assert (F : forall ns s c, o_ok s -> c_ok s c -> o_ok (fst (fold_left (fun p x => (traverse f g x (fst p) (snd p), [])) ns (s, c)))).
  { induction ns as [|x ns IHn]; intros s0 c0 H K; [exact H|]. cbn [fold_left fst snd]. apply IHn; [now apply IH|apply NIL]. }
  apply F; apply H2.
Qed.
Lemma cls_order fuel g l1 a m b k l2 x mx y my : cls_set fuel g = l1 ++ [(a, m); (b, k)] :: l2 -> In [(x, mx); (y, my)] l2 -> y <> a.
Proof.
  assert (O : o_ok (fold_left (fun s n => traverse fuel g n s []) (fwd g) ([], []))).
  { assert (F : forall ns s, o_ok s -> o_ok (fold_left (fun s n => traverse fuel g n s []) ns s)).
    { induction ns as [|z ns IH]; intros s H; [exact H|]. cbn [fold_left]. apply IH. apply traverse_ord; [exact H|]. split; [intros q []|discriminate]. }
    apply F. split; cbn [fst snd]; [|intros q c []]. intros q1 q q2 p z E. destruct q1; discriminate E. }
  intros E I ->. apply (proj1 O l1 _ l2 _ a E I eq_refl). reflexivity.
Qed.

(** * Chains *)
Lemma traverse_keeps g p : forall fuel n s c, In p (fst s) -> In p (fst (traverse fuel g n s c)).
Proof.
  induction fuel as [|f IH]; intros n [gs vs] c H; [exact H|]. cbn [traverse fst] in *. destruct (seen n vs); [exact H|].
  destruct (close_first gs c) as [gs1 c1] eqn:E1. assert (H1 : In p gs1).
  { unfold close_first in E1. destruct (_ && _); injection E1 as <- <-; [apply in_or_app; now left|exact H]. }
  destruct (close_last _ gs1 _) as [gs2 c2] eqn:E2. assert (H2 : In p gs2).
  { unfold close_last in E2. destruct (ends _ _); [|injection E2 as <- <-; exact H1]. injection E2 as <- <-. destruct (_ && _); [apply in_or_app; now left|exact H1]. }
  assert (F : forall ns q, In p (fst (fst q)) -> In p (fst (fst (fold_left (fun (q : lst * list item) x => (traverse f g x (fst q) (snd q), [])) ns q)))).
  { induction ns as [|x ns IHn]; intros q Q; [exact Q|]. cbn [fold_left]. apply IHn. cbn [fst]. apply IH, Q. }
  apply F. exact H2.
Qed.
Definition group_at (g : lgraph) (i : nat) (c : list item) : Prop :=
  match c with
  | [] => forall a m l, lk g a = LSup m -> ~ only_through g a l i
  | [(a, m)] => lk g a = LSup m /\ exists l, only_through g a l i
  | [_; (a, m)] => lk g a = LSup m /\ exists l, only_through g a l i
  | _ => False
  end.
Lemma chain_one g n i x : chain g n -> nx g x = [S i] -> x = i /\ i < n.
Proof.
  intros (_ & _ & N & M & _) E. destruct (le_lt_dec n x) as [L|L]; [rewrite (M x L) in E; discriminate|]. rewrite (N x L) in E. injection E as ->. auto.
Qed.
Lemma through_S g n a l i : chain g n -> only_through g a l (S i) -> (a = i /\ l = []) \/ (lk g i = LScal /\ exists l', only_through g a l' i).
Proof.
  intros C H. inversion H as [k E|l' x k T K E]; subst.
  - left. split; [apply (chain_one g n i a C E)|reflexivity].
  - right. destruct (chain_one g n i x C E) as (-> & _). eauto.
Qed.
Lemma through_same g n : chain g n -> forall i a l a' l' m m', lk g a = LSup m -> lk g a' = LSup m' -> only_through g a l i -> only_through g a' l' i -> a = a'.
Proof.
  intros C. induction i as [|i IH]; intros a l a' l' m m' K K' H H'.
  - exfalso. assert (Z : forall x, nx g x <> [0]). { intros x E. destruct C as (_ & _ & N & M & _). destruct (le_lt_dec n x) as [L|L]; [rewrite (M x L) in E|rewrite (N x L) in E]; discriminate. }
    inversion H; subst; eapply Z; eassumption.
  - destruct (through_S g n a l i C H) as [(-> & ->)|(S1 & l1 & T1)]; destruct (through_S g n a' l' i C H') as [(-> & ->)|(S2 & l2 & T2)]; try congruence. eapply IH; eassumption.
Qed.
Lemma chain_go g n : chain g n -> forall fuel i (gs : list (list item)) vs (c : list item), i <= n -> n - i < fuel -> (forall x, In x vs -> x < i) -> (forall q x, In q gs -> In x q -> fst x < i) -> (forall x, In x c -> fst x < i) ->
  (length c = 2 -> ~ In c gs) -> group_at g i c ->
  forall p, (length c = 2 /\ p = c) \/ (exists c1 m1 c2 m2 l, p = [(c1, m1); (c2, m2)] /\ lk g c1 = LSup m1 /\ lk g c2 = LSup m2 /\ only_through g c1 l c2 /\ i <= c2) -> In p (fst (traverse fuel g i (gs, vs) c)).
Proof.
  intros C. pose proof C as (_ & LN & NX & NN & _). induction fuel as [|f IH]; intros i gs vs c I F V G GC NC A p P; [lia|].
  cbn [traverse]. assert (SE : seen i vs = false).
  { unfold seen. destruct (existsb _ vs) eqn:E; [|reflexivity]. apply existsb_exists in E. destruct E as (x & X & E). apply Nat.eqb_eq in E. subst x. specialize (V i X). lia. }
  rewrite SE. destruct (close_first gs c) as [gs1 c1] eqn:E1.
  assert (H1 : (length c = 2 -> In c gs1) /\ (forall q x, In q gs1 -> In x q -> fst x < i) /\ length c1 <= 1 /\ group_at g i c1 /\ (forall x, In x c1 -> fst x < i)).
  { unfold close_first, group_ok in E1. destruct (length c =? 2) eqn:L; rewrite ?L in E1; cbn [andb] in E1.
    - apply Nat.eqb_eq in L. assert (NI : in_groups c gs = false) by (destruct (in_groups c gs) eqn:E; [elim (NC L); now apply in_groups_iff|reflexivity]).
      rewrite NI in E1. cbn in E1. destruct c as [|x [|y [|z c]]]; try discriminate L. cbn in E1. injection E1 as <- <-.
      split; [intros _; apply in_or_app; right; now left|]. split; [intros q w Q; apply in_app_or in Q; destruct Q as [Q|[<-|[]]]; [now apply G|apply GC]|].
      split; [cbn; lia|]. split; [destruct y as [b m]; cbn [group_at] in *; destruct x; exact A|]. intros w [<-|[]]. apply GC. right. now left.
    - injection E1 as <- <-. apply Nat.eqb_neq in L. split; [intros K; contradiction|]. split; [exact G|]. split; [|auto].
      destruct c as [|x [|y [|z c]]]; cbn in *; try lia. destruct x, y. contradiction. }
  destruct H1 as (H1 & G1 & L1 & A1 & GC1).
  set (c2 := add_node (lk g i) i c1). set (c3 := match lk g i with LOther => [] | _ => c2 end).
  assert (LE : length (nx g i) <= 1) by (destruct (le_lt_dec n i) as [L|L]; [rewrite (NN i L)|rewrite (NX i L)]; cbn; lia).
  assert (E2 : close_last (ends (lk g i) (nx g i)) gs1 c2 = (gs1, c3)).
  { unfold close_last, ends, c3, c2. replace (1 <? length (nx g i)) with false by (symmetry; apply Nat.ltb_ge; lia). destruct (lk g i); cbn [orb add_node]; try reflexivity.
    unfold group_ok. replace (length c1 =? 2) with false by (symmetry; apply Nat.eqb_neq; lia). reflexivity. }
  fold c2. rewrite E2.
  destruct (le_lt_dec n i) as [L|L].
  - assert (i = n) by lia. subst i. rewrite (NN n L). cbn [fold_left fst]. destruct P as [(P & ->)|(a & m1 & b & m2 & l & -> & K1 & K2 & T & B)]; [now apply H1|].
    exfalso. assert (b <= n). { assert (Z : forall x, nx g x = [b] -> b <= n). { intros x E. destruct (le_lt_dec n x) as [Q|Q]; [rewrite (NN x Q) in E; discriminate|]. rewrite (NX x Q) in E. injection E as <-. lia. } inversion T; subst; eapply Z; eassumption. }
    assert (b = n) by lia. congruence.
  - rewrite (NX i L). cbn [fold_left fst snd].
    destruct P as [(P & ->)|(a & m1 & b & m2 & l & -> & K1 & K2 & T & B)]; [apply traverse_keeps; cbn [fst]; now apply H1|].
    apply IH; try lia.
    + intros x X. apply in_app_or in X. destruct X as [X|[<-|[]]]; [specialize (V x X)|]; lia.
    + intros q x Q X. specialize (G1 q x Q X). lia.
    + intros x X. unfold c3, c2, add_node in X. destruct (lk g i); [apply in_app_or in X; destruct X as [X|[<-|[]]]; [specialize (GC1 x X); lia|cbn; lia]|specialize (GC1 x X); lia|destruct X].
    + intros L3 Q. unfold c3, c2, add_node in *. destruct (lk g i) as [m| |] eqn:K; [|lia|discriminate L3]. assert (Y : In (i, m) (c1 ++ [(i, m)])) by (apply in_or_app; right; now left). specialize (G1 _ (i, m) Q Y). cbn in G1. lia.
    + unfold c3, c2, add_node. destruct (lk g i) as [m| |] eqn:K.
      * destruct c1 as [|x [|y c1]]; cbn in L1; try lia; cbn [app group_at]; [|destruct x]; (split; [exact K|exists []; apply ot_one, NX, L]).
      * destruct c1 as [|[x mx] [|y c1]]; cbn in L1; try lia; cbn [group_at] in *.
        -- intros a' m l' K' T'. destruct (through_S g n a' l' i C T') as [(-> & ->)|(_ & l2 & T2)]; [congruence|]. exact (A1 a' m l2 K' T2).
        -- destruct A1 as (A1 & l' & T'). split; [exact A1|]. exists (l' ++ [i]). apply ot_step; auto.
      * cbn [group_at]. intros a' m l' K' T'. destruct (through_S g n a' l' i C T') as [(-> & ->)|(S2 & _)]; congruence.
    + destruct (Nat.eq_dec b i) as [->|NB].
      * left. unfold c3, c2, add_node. rewrite K2. destruct c1 as [|[x mx] [|y c1]]; cbn in L1; try lia; cbn [group_at] in A1; [elim (A1 a m1 l K1 T)|].
        destruct A1 as (A1 & l' & T'). assert (X : a = x) by exact (through_same g n C i a l x l' m1 mx K1 A1 T T'). subst x. assert (X : mx = m1) by congruence. subst mx. split; reflexivity.
      * right. exists a, m1, b, m2, l. repeat split; auto. lia.
Qed.
Lemma chain_ok g n fuel p : chain g n -> n < fuel -> (In p (cls_set fuel g) <-> pair_ok g p).
Proof.
  intros C F. split; [apply cls_ok|]. intros (a & m1 & b & m2 & l & -> & K1 & K2 & T). pose proof C as (L0 & LN & NX & NN & FW). unfold cls_set. rewrite FW.
  assert (B : 1 <= b). { destruct b; [congruence|lia]. }
  destruct n as [|n]. { exfalso. inversion T; subst; match goal with E : nx g ?x = _ |- _ => rewrite (NN x (Nat.le_0_l x)) in E; discriminate E end. }
  cbn [seq fold_left]. assert (M : forall ns s, In [(a, m1); (b, m2)] (fst s) -> In [(a, m1); (b, m2)] (fst (fold_left (fun s n => traverse fuel g n s []) ns s))).
  { induction ns as [|x ns IH]; intros s H; [exact H|]. cbn [fold_left]. apply IH. now apply traverse_keeps. }
  apply M. apply (chain_go g (S n) C); try lia; try solve [intros x []]; try solve [intros q x []]; try discriminate.
  - intros a' m l' K T'. destruct (through_S g (S n) a' l' 0 C T') as [(-> & _)|(S2 & _)]; congruence.
  - right. exists a, m1, b, m2, l. auto.
Qed.

(** * Counterexamples *)
Tactic Notation "l_wf_tac" integer(k) :=
  let x := fresh "x" in let y := fresh "y" in let H := fresh "H" in
  split; [intros x y; split; intros H; (do k try destruct x as [|x]); (do k try destruct y as [|y]); cbn in *; intuition (congruence || lia)|];
  split; [intros x H; do k (destruct x as [|x]; [try reflexivity; try (elim H; reflexivity)|]); elim H; reflexivity
         |intros x y H; do k (destruct y as [|y]; [cbn in H; intuition lia|]); destruct H].
(** two branches that are added: the pair on the second branch is not found *)
Definition br_g : lgraph := mkLG (fun n => match n with 1 | 2 | 3 | 4 => LSup n | _ => LOther end)
  (fun n => match n with 0 => [1; 3] | 1 => [2] | 2 => [5] | 3 => [4] | 4 => [5] | _ => [] end) (fun n => match n with 1 | 3 => [0] | 2 => [1] | 4 => [3] | 5 => [2; 4] | _ => [] end) [1; 2; 3; 4; 5].
Lemma branch_lemma : exists g p, l_wf g /\ pair_ok g p /\ (forall c m, In (c, m) p -> own_module g c m) /\ forall fuel, ~ In p (cls_set fuel g).
Proof.
  exists br_g, [(3, 3); (4, 4)]. split; [l_wf_tac 6|]. split; [exists 3, 3, 4, 4, []; repeat split; now apply ot_one|]. split.
  - intros c m H n K. do 5 (destruct n as [|n]; [cbn in K, H; try discriminate K; injection K as <-; intuition congruence|]). discriminate K.
  - assert (B : forall fuel, 6 < fuel -> cls_set fuel br_g = cls_set 7 br_g).
    { intros fuel L. apply (fuel_ok br_g [0; 1; 2; 3; 4; 5]); cbn; auto; try lia. intros n x H. repeat (destruct H as [<-|H]; [cbn; tauto|]). destruct H. }
    intros fuel. destruct (le_lt_dec fuel 6) as [L|L]; [|rewrite (B fuel L); cbn; intuition discriminate]. do 7 (destruct fuel as [|fuel]; [cbn; intuition discriminate|]). lia.
Qed.
(** a layer that is used twice *)
Definition sh_g : lgraph := mkLG (fun n => match n with 1 => LSup 1 | 2 => LSup 2 | 3 => LSup 1 | _ => LOther end)
  (fun n => match n with 0 => [1] | 1 => [2] | 2 => [3] | 3 => [4] | _ => [] end) (fun n => match n with 1 => [0] | 2 => [1] | 3 => [2] | 4 => [3] | _ => [] end) [1; 2; 3; 4].
Definition sh_den (m : nat) (l : list Z) : Z := (nth 0 l 0 + 1)%Z.
Definition sh_fo (n : nat) (l : list Z) : Z := nth 0 l 0%Z.
Definition sh_v (n : nat) : Z := match n with 1 => 1%Z | 2 => 2%Z | 3 | 4 => 3%Z | _ => 0%Z end.
Lemma shared_lemma : exists (den fo : nat -> list Z -> Z) (sc un : Z -> Z) g v c1 m1 c2 m2 n,
  l_wf g /\ (forall y, un (sc y) = y) /\ (forall x y, lk g x = LScal -> fo x [sc y] = sc (fo x [y])) /\ In [(c1, m1); (c2, m2)] (cls_set (S (length (fwd g))) g) /\ l_computes den fo g v /\
  nx g n = [] /\ forall v', l_computes (equalized sc un m1 m2 den) fo g v' -> v' n <> v n.
Proof.
  exists sh_den, sh_fo, (fun y => 2 * y)%Z, (fun y => y / 2)%Z, sh_g, sh_v, 1, 1, 2, 2, 4. split; [l_wf_tac 6|]. split; [intros y; rewrite Z.mul_comm; apply Z.div_mul; lia|].
  split; [intros x y K; do 4 (destruct x as [|x]; [discriminate K|]); discriminate K|]. split; [vm_compute; auto|]. split; [intros n; do 5 (destruct n as [|n]; [reflexivity|]); reflexivity|]. split; [reflexivity|].
  intros v' C. pose proof (C 0) as C0. pose proof (C 1) as C1. pose proof (C 2) as C2. pose proof (C 3) as C3. pose proof (C 4) as C4. cbn [lk pr sh_g map] in *. unfold equalized, sh_den, sh_fo in *. cbn [nth map Nat.eqb] in *.
  rewrite C4, C3, C2, C1, C0. cbn. discriminate.
Qed.
(** a convolution read by a linear layer: two channels of two columns, the weights are diagonal *)
Definition ax_g : lgraph := mkLG (fun n => match n with 1 => LSup 1 | 2 => LSup 2 | _ => LOther end)
  (fun n => match n with 0 => [1] | 1 => [2] | 2 => [3] | _ => [] end) (fun n => match n with 1 => [0] | 2 => [1] | 3 => [2] | _ => [] end) [1; 2; 3].
Lemma axis_lemma : exists g (den den' fo : nat -> list mat -> mat) v (w1 w2 s : Z * Z) n,
  l_wf g /\ In [(1, 1); (2, 2)] (cls_set (S (length (fwd g))) g) /\ own_module g 1 1 /\ own_module g 2 2 /\ (fst s * fst s * fst w2 = fst w1 /\ snd s * snd s * snd w2 = snd w1)%Z /\
  (forall x, den 1 [x] = conv_rows w1 x) /\ (forall x, den 2 [x] = lin_cols w2 x) /\
  (forall x, conv_rows s (den' 1 [x]) = conv_rows w1 x) /\ (forall x, den' 2 [x] = lin_cols (fst s * fst w2, snd s * snd w2)%Z x) /\
  l_computes den fo g v /\ nx g n = [] /\ forall v', l_computes den' fo g v' -> v' n <> v n.
Proof.
  set (z := ((0, 0), (0, 0))%Z : mat). set (i := ((1, 1), (1, 1))%Z : mat).
  exists ax_g, (fun m l => match m with 1 => conv_rows (4, 1)%Z (nth 0 l z) | _ => lin_cols (1, 1)%Z (nth 0 l z) end), (fun m l => match m with 1 => conv_rows (2, 1)%Z (nth 0 l z) | _ => lin_cols (2, 1)%Z (nth 0 l z) end),
    (fun n l => match n with 0 => i | _ => nth 0 l z end), (fun n => match n with 0 => i | 1 | 2 | 3 => ((4, 4), (1, 1))%Z | _ => z end), (4, 1)%Z, (1, 1)%Z, (2, 1)%Z, 3.
  split; [l_wf_tac 5|]. split; [vm_compute; auto|]. split; [intros n K; do 3 (destruct n as [|n]; [try discriminate K; try reflexivity|]); discriminate K|]. split; [intros n K; do 3 (destruct n as [|n]; [try discriminate K; try reflexivity|]); discriminate K|]. split; [split; reflexivity|]. split; [reflexivity|]. split; [reflexivity|].
  split; [intros [[a b] [c d]]; unfold conv_rows; cbn [nth fst snd]; f_equal; f_equal; lia|]. split; [reflexivity|]. split; [intros n; do 4 (destruct n as [|n]; [reflexivity|]); reflexivity|]. split; [reflexivity|].
  intros v' C. pose proof (C 0) as C0. pose proof (C 1) as C1. pose proof (C 2) as C2. pose proof (C 3) as C3. cbn [lk pr ax_g map nth] in *. rewrite C3, C2, C1, C0. cbn. discriminate.
Qed.
