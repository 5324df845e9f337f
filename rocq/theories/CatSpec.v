(** Meaning of CONCATENATION and SPLIT (specification side). *)
From Coq Require Import List Arith Bool Lia.
From Verif Require Import Tensor.
Import ListNotations.

Definition axis_size {A} (ax : nat) (t : tensor A) : nat := nth ax (tshape t) 0.
Definition sizes_sum {A} (ax : nat) (ts : list (tensor A)) : nat := list_sum (map (axis_size ax) ts).
(** element [i] along [ax] of the tensors laid end to end; [d] beyond the end *)
Fixpoint cat_at {A} (d : A) (ax : nat) (ts : list (tensor A)) (idx : list nat) (i : nat) : A :=
  match ts with
  | [] => d
  | t :: r => if i <? axis_size ax t then tget t (upd idx ax i) else cat_at d ax r idx (i - axis_size ax t)
  end.
Definition concatenation {A} (d : A) (ax : nat) (ts : list (tensor A)) : tensor A :=
  mkT (match ts with [] => [] | t :: _ => upd (tshape t) ax (sizes_sum ax ts) end)
      (fun idx => cat_at d ax ts idx (nth ax idx 0)).

(** SPLIT into [n] equal parts along [ax]: part [g] *)
Definition split_part {A} (n ax g : nat) (t : tensor A) : tensor A :=
  let len := axis_size ax t / n in
  mkT (upd (tshape t) ax len) (fun idx => tget t (upd idx ax (g * len + nth ax idx 0))).

(** operands of a concatenation: same shape except along [ax] *)
Definition cat_compat {A} (ax : nat) (ts : list (tensor A)) : Prop :=
  exists sh, ax < length sh /\ Forall (fun t => upd (tshape t) ax 0 = upd sh ax 0) ts.

Lemma cat_at_app {A} (d : A) ax l1 : forall l2 idx i,
  cat_at d ax (l1 ++ l2) idx i =
  if i <? sizes_sum ax l1 then cat_at d ax l1 idx i else cat_at d ax l2 idx (i - sizes_sum ax l1).
Proof.
  induction l1 as [|t l1 IH]; intros l2 idx i; simpl.
  - now rewrite Nat.sub_0_r.
  - rewrite IH. unfold sizes_sum. simpl. fold (sizes_sum ax l1).
    destruct (Nat.ltb_spec i (axis_size ax t)), (Nat.ltb_spec i (axis_size ax t + sizes_sum ax l1)),
      (Nat.ltb_spec (i - axis_size ax t) (sizes_sum ax l1)); try lia; auto. f_equal. lia.
Qed.

Lemma cat_at_upd {A} (d : A) ax ts idx i v : cat_at d ax ts (upd idx ax v) i = cat_at d ax ts idx i.
Proof.
  revert i. induction ts as [|t ts IH]; intro i; simpl; auto. rewrite upd_upd, IH. reflexivity.
Qed.

Lemma upd_len_eq l l' ax : upd l ax 0 = upd l' ax 0 -> length l = length l'.
Proof. intro H. apply (f_equal (@length nat)) in H. now rewrite !upd_length in H. Qed.
Lemma upd_eq_any l l' ax v : upd l ax 0 = upd l' ax 0 -> upd l ax v = upd l' ax v.
Proof. intro H. rewrite <- (upd_upd l ax 0 v), H, upd_upd. reflexivity. Qed.

Lemma sizes_sum_app {A} ax (l m : list (tensor A)) : sizes_sum ax (l ++ m) = sizes_sum ax l + sizes_sum ax m.
Proof. unfold sizes_sum. rewrite map_app. apply list_sum_app. Qed.

Lemma concatenation_size {A} (d : A) ax ts : ts <> [] -> cat_compat ax ts -> axis_size ax (concatenation d ax ts) = sizes_sum ax ts.
Proof.
  intros Hn (sh & Hax & H). destruct ts as [|t ts]; [congruence|]. unfold axis_size, concatenation. cbn [tshape].
  apply upd_nth_eq. inversion H; subst. apply upd_len_eq in H2. lia.
Qed.

(** concatenating concatenations is concatenating everything *)
Lemma concatenation_flat {A} (d : A) ax (cs : list (list (tensor A))) :
  Forall (fun c => c <> []) cs -> cat_compat ax (concat cs) ->
  teq (concatenation d ax (map (concatenation d ax) cs)) (concatenation d ax (concat cs)).
Proof.
  intros Hn (sh & Hax & Hc).
  assert (forall c, In c cs -> cat_compat ax c) as Hcc.
  { intros c Hin. exists sh. split; auto. apply Forall_forall. intros t Ht. rewrite Forall_forall in Hc.
    apply Hc. apply in_concat. eauto. }
  assert (Forall (fun c => axis_size ax (concatenation d ax c) = sizes_sum ax c) cs) as Hsz.
  { apply Forall_forall. intros c Hin. apply concatenation_size; auto. rewrite Forall_forall in Hn. auto. }
  assert (sizes_sum ax (map (concatenation d ax) cs) = sizes_sum ax (concat cs)) as Hsum.
  { clear -Hsz. induction cs as [|c cs IH]; [reflexivity|]. inversion Hsz; subst. cbn [map concat].
    rewrite sizes_sum_app, <- IH by auto. unfold sizes_sum at 1. cbn [map list_sum fold_right]. now rewrite H1. }
  split.
  - destruct cs as [|c cs]; [reflexivity|]. inversion Hn; subst. destruct c as [|t c]; [congruence|].
    cbn [map concat app]. unfold concatenation at 1. cbn [tshape]. cbn [map] in Hsum. rewrite Hsum.
    unfold concatenation. cbn [tshape app concat]. rewrite upd_upd. reflexivity.
  - intros idx V. unfold concatenation at 1 3. cbn [tget].
    assert (cs = [] \/ ax < length idx) as [->|Hidx]; [|reflexivity|].
    { destruct cs as [|c cs]; [now left|right]. apply valid_length in V. rewrite V.
      inversion Hn; subst. destruct c as [|t c]; [congruence|].
      cbn [map concatenation tshape]. rewrite !upd_length. rewrite Forall_forall in Hc.
      specialize (Hc t (or_introl eq_refl)). apply upd_len_eq in Hc. lia. }
    generalize (nth ax idx 0) as i. clear V Hsum. induction cs as [|c cs IH]; intro i; [reflexivity|].
    cbn [map concat cat_at]. inversion Hsz; subst. inversion Hn; subst. rewrite cat_at_app, H1.
    destruct (i <? sizes_sum ax c).
    + unfold concatenation. cbn [tget]. rewrite cat_at_upd. now rewrite upd_nth_eq.
    + apply IH; auto.
      * cbn [concat] in Hc. apply Forall_app in Hc. tauto.
      * intros c' Hin. apply Hcc. now right.
Qed.

(** equal parts laid end to end *)
Lemma cat_at_uniform {A} (d : A) ax k (f : nat -> tensor A) n : forall a i idx,
  (forall g, axis_size ax (f g) = k) -> i < n * k ->
  cat_at d ax (map f (seq a n)) idx i = tget (f (a + i / k)) (upd idx ax (i mod k)).
Proof.
  induction n as [|n IH]; intros a i idx Hk Hi; [simpl in Hi; lia|].
  assert (k <> 0) by nia. cbn [seq map cat_at]. rewrite Hk. destruct (Nat.ltb_spec i k) as [L|L].
  - rewrite Nat.div_small, Nat.mod_small by lia. now rewrite Nat.add_0_r.
  - rewrite IH by (auto; nia).
    assert (i / k = S ((i - k) / k)) as ->.
    { replace i with ((i - k) + 1 * k) at 1 by lia. rewrite Nat.div_add by auto. lia. }
    assert (i mod k = (i - k) mod k) as ->.
    { replace i with ((i - k) + 1 * k) at 1 by lia. now rewrite Nat.mod_add. }
    f_equal. f_equal. lia.
Qed.
Lemma sizes_sum_uniform {A} ax k (f : nat -> tensor A) n a :
  (forall g, axis_size ax (f g) = k) -> sizes_sum ax (map f (seq a n)) = n * k.
Proof.
  intro H. revert a. induction n; intro a; [reflexivity|]. cbn [seq map]. unfold sizes_sum. cbn [map list_sum fold_right].
  rewrite H. change (S n * k) with (k + n * k). f_equal. apply IHn.
Qed.
