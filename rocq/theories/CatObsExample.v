(** Concrete graphs for the theorems about the observers around concatenations. *)
From Coq Require Import List Arith Bool Lia.
From Verif Require Import CatObsModel CatObsSpec CatObsProofs.
Import ListNotations.

Definition nlayer (n : nat) (prev next : list nat) : cnode := mkCN false false [n] false false prev next.
Definition nplain (prev next : list nat) : cnode := mkCN false false [] false false prev next.
Definition ncat (n : nat) (ff : nat) (prev next : list nat) : cnode := mkCN true false [n] false true (ff :: prev) next.
Definition nstub (n : nat) (prev next : list nat) : cnode := mkCN false false [n] true false prev next.

(** a pooling [2] behind the convolution [1] goes into two concatenations [4] and [8], of which [4] goes into [5] *)
Definition obs_g : cgraph := fun n =>
  match n with
  | 0 => nstub 0 [] [1; 3; 6]
  | 1 => nlayer 1 [0] [2; 7]
  | 2 => nplain [1] [4; 8]
  | 3 => nlayer 3 [0] [4]
  | 4 => ncat 4 14 [2; 3] [5]
  | 5 => ncat 5 15 [4; 6] []
  | 6 => nlayer 6 [0] [5]
  | 7 => nlayer 7 [1] [8]
  | 8 => ncat 8 18 [2; 7] []
  | _ => nplain [] []
  end.
Ltac cases9 n := do 9 try (destruct n as [|n]).
Lemma obs_runs : exists obs', unify_cats obs_g 60 [4; 5; 8] (fun n => n) = Some obs' /\
  map obs' (seq 0 9) = [0; 4; 2; 4; 4; 4; 4; 4; 4].
Proof. eexists. split; vm_compute; reflexivity. Qed.
Lemma obs_plain n : plain obs_g n -> n = 2 \/ (cn_next (obs_g n) = [] /\ cn_prev (obs_g n) = []).
Proof.
  intros (_ & _ & _ & S). cases9 n; try discriminate S; auto.
Qed.
Lemma obs_operand2 m : In 2 (operands obs_g m) -> m = 4 \/ m = 8.
Proof. cases9 m; cbn; intuition discriminate. Qed.
Lemma obs_proper : proper obs_g.
Proof.
  constructor.
  - intros n m. cases9 m; cbn; intros H; intuition (subst; cbn; auto).
  - intros n. cases9 n; cbn; intros H; try discriminate; split; auto; discriminate.
  - intros n m s. cases9 n; cbn; intros H; try contradiction; destruct H as [<-|[]]; cases9 m; cbn; intros H; intuition discriminate.
Qed.
Lemma obs_apart : apart obs_g.
Proof.
  intros n b q c Pn L _ _ Kq _ _ Aq. destruct (obs_plain n Pn) as [->|[E _]]; [|rewrite E in L; cbn in L; lia].
  inversion Aq as [? ? O|? k ? O Pk Ar]; subst.
  - destruct (obs_operand2 _ O) as [->| ->]; discriminate Kq.
  - destruct (obs_operand2 _ O) as [->| ->]; destruct Pk as [Kk _]; discriminate Kk.
Qed.
Lemma obs_source : source obs_g 1 8 /\ source obs_g 4 5.
Proof.
  split; (split; [discriminate|]; split; [reflexivity|]).
  - apply arr_through with (k := 2); [cbn; auto| repeat split|apply arr_direct; cbn; auto].
  - apply arr_direct. cbn. auto.
Qed.
Lemma obs_finite : finite obs_g (seq 0 19).
Proof.
  intros n I. split; intros m H; apply in_seq; revert H; cases9 n; cbn; intros H; intuition lia.
Qed.

(** the convolution [1] and a convolution [3] of its reshaped result [2] are concatenated; so is [2] with another layer *)
Definition shared_g : cgraph := fun n =>
  match n with
  | 0 => nstub 0 [] [1; 5]
  | 1 => nlayer 1 [0] [2; 4]
  | 2 => nplain [1] [3; 6]
  | 3 => nlayer 3 [2] [4]
  | 4 => ncat 4 14 [3; 1] []
  | 5 => nlayer 5 [0] [6]
  | 6 => ncat 6 16 [2; 5] []
  | _ => nplain [] []
  end.
Lemma shared_proper : proper shared_g.
Proof.
  constructor.
  - intros n m. cases9 m; cbn; intros H; intuition (subst; cbn; auto).
  - intros n. cases9 n; cbn; intros H; try discriminate; split; auto; discriminate.
  - intros n m s. cases9 n; cbn; intros H; try contradiction; destruct H as [<-|[]]; cases9 m; cbn; intros H; intuition discriminate.
Qed.
Lemma shared_finite : finite shared_g (seq 0 19).
Proof.
  intros n I. split; intros m H; apply in_seq; revert H; cases9 n; cbn; intros H; intuition lia.
Qed.
Lemma shared_differs : exists g ns cats obs', proper g /\ finite g ns /\ (forall c, In c cats -> In c ns /\ cn_cat (g c) = true) /\
  (exists bound, forall fuel, bound <= fuel -> unify_cats g fuel cats (fun n => n) = Some obs') /\
  exists c, In c cats /\ ~ agree g obs' c.
Proof.
  exists shared_g, (seq 0 19), [4; 6].
  eexists. split; [exact shared_proper|]. split; [exact shared_finite|].
  split; [intros c [<-|[<-|[]]]; (split; [apply in_seq; lia|reflexivity])|]. split.
  - exists 60. intros fuel L. replace fuel with (60 + (fuel - 60)) by lia. generalize (fuel - 60) as k. intros k.
    vm_compute. reflexivity.
  - exists 4. split; [left; reflexivity|]. intros [_ G]. specialize (G 1 1 4).
    assert (S : source shared_g 1 4) by (split; [discriminate|]; split; [reflexivity|]; apply arr_direct; cbn; auto).
    specialize (G S (or_introl eq_refl) (or_introl eq_refl)). vm_compute in G. discriminate G.
Qed.

(** a convolution [3] between two concatenations [2] and [4]; [7] comes before both and shares the layer [5] with [4] *)
Definition conv_g : cgraph := fun n =>
  match n with
  | 0 => nstub 0 [] [1; 5; 6; 8]
  | 1 => nlayer 1 [0] [2]
  | 2 => ncat 2 12 [1; 6] [3]
  | 3 => nlayer 3 [2] [4]
  | 4 => ncat 4 14 [3; 5] []
  | 5 => nlayer 5 [0] [7; 4]
  | 6 => nlayer 6 [0] [2]
  | 7 => ncat 7 17 [5; 8] []
  | 8 => nlayer 8 [0] [7]
  | _ => nplain [] []
  end.
Lemma conv_proper : proper conv_g.
Proof.
  constructor.
  - intros n m. cases9 m; cbn; intros H; intuition (subst; cbn; auto).
  - intros n. cases9 n; cbn; intros H; try discriminate; split; auto; discriminate.
  - intros n m s. cases9 n; cbn; intros H; try contradiction; destruct H as [<-|[]]; cases9 m; cbn; intros H; intuition discriminate.
Qed.
Lemma conv_finite : finite conv_g (seq 0 19).
Proof.
  intros n I. split; intros m H; apply in_seq; revert H; cases9 n; cbn; intros H; intuition lia.
Qed.
Definition conv_side (s : nat) : bool := nmem s [1; 2; 6].
Lemma conv_plain n : plain conv_g n -> cn_next (conv_g n) = [] /\ cn_prev (conv_g n) = [].
Proof. intros (_ & _ & _ & S). cases9 n; try discriminate S; auto. Qed.
Lemma conv_apart : apart conv_g.
Proof. intros n b q c Pn L. destruct (conv_plain n Pn) as [E _]. rewrite E in L. cbn in L. lia. Qed.
Lemma conv_arrives p c : arrives conv_g p c -> In p (operands conv_g c).
Proof.
  induction 1 as [n m O|n k m O Pk Ar IH]; [exact O|]. exfalso. destruct (conv_plain k Pk) as [_ E].
  unfold operands in O. rewrite E in O. destruct (cn_ff (conv_g k)); contradiction.
Qed.
Lemma conv_joined s t : joined conv_g s t -> conv_side s = conv_side t.
Proof.
  induction 1 as [s|p c s t Kc Sp Hs Ht|p s t Hs Ht|s t J IH|s t u J IH J' IH']; [reflexivity| | |congruence|congruence].
  - destruct Sp as (_ & _ & Ar). apply conv_arrives in Ar. revert Kc Ar Hs Ht. cases9 c; cbn; intros Kc; try discriminate;
      (intros [<-|[<-|[]]]; cbn; intros [<-|[]] [<-|[]]; reflexivity).
  - revert Hs Ht. cases9 p; cbn; intros Hs Ht; intuition congruence.
Qed.
Lemma conv_merges : exists g ns cats obs', proper g /\ apart g /\ finite g ns /\
  (forall c, In c cats -> In c ns /\ cn_cat (g c) = true) /\
  (exists bound, forall fuel, bound <= fuel -> unify_cats g fuel cats (fun n => n) = Some obs') /\
  exists s t, obs' s = obs' t /\ ~ joined g s t.
Proof.
  exists conv_g, (seq 0 19), [7; 2; 4].
  eexists. split; [exact conv_proper|]. split; [exact conv_apart|]. split; [exact conv_finite|].
  split; [intros c [<-|[<-|[<-|[]]]]; (split; [apply in_seq; lia|reflexivity])|]. split.
  - exists 60. intros fuel L. replace fuel with (60 + (fuel - 60)) by lia. generalize (fuel - 60) as k. intros k.
    vm_compute. reflexivity.
  - exists 2, 4. split; [vm_compute; reflexivity|]. intros J. apply conv_joined in J. discriminate J.
Qed.
