(** C99: the networks that witness the two failures of the computation of the removed channels. *)
From Coq Require Import List Arith Bool ZArith QArith Relations Lia.
From Verif Require Import PruneModel PruneIdxModel PruneIdxSpec PruneIdxProofs PruneIdxLabProofs.
Import ListNotations.
Local Open Scope Z_scope.

(** [0] and [2] are met before any leaf joins them: the leaves are [10] (of 0), [11] (of 2), [12] (0 + 1), [13] (1 + 2) *)
Definition w_order : subgraph :=
  plain_net 2 [0;1;2;10;11;12;13]%nat [(10, [0]); (11, [2]); (12, [0; 1]); (13, [1; 2])]%nat.
Definition w_order_imp (c : nat) : list Q :=
  match c with 0%nat => [0; 10] | 1%nat => [1; 0] | _ => [5; 0] end%Q.

Lemma order_fails : exists pc pl l c i j s,
  calc_prune_idx w_order w_order_imp (fun _ => 1#2)%Q = Some (pc, pl) /\
  fed w_order l c i j /\ dget (lf_name l) pl = Some s /\ In i s /\ ~ In j (dgetd [] c pc).
Proof.
  eexists. eexists. exists (nth 3 (sg_leaves w_order) (mkLeaf 0 [] [] [])), 1%nat, 1, 1. eexists.
  split; [vm_compute; reflexivity|]. split.
  { exists [1]. split; [|split; [now left|discriminate]]. split; [cbn; auto|]. split; [cbn; auto|].
    exists 1%nat. eexists. eexists. eexists. split; [reflexivity|]. split; [now left|]. split; [now left|].
    split; [cbn; lia|reflexivity]. }
  split; [reflexivity|]. split; [cbn; auto|]. vm_compute. intros [X|[]]. discriminate.
Qed.
Lemma order_labelled : labelled w_order 2 (fun _ j => j) (fun _ i => i).
Proof.
  apply plain_labelled; [lia| |].
  - cbn [map fst]. repeat constructor; cbn; intuition lia.
  - intros e H. cbn in H. destruct H as [<- |[<- |[<- |[<- |[]]]]]; cbn [snd];
      (split; [discriminate|]); (split; [repeat constructor; cbn; intuition lia|]); intros x X; cbn in X |- *; intuition lia.
Qed.

(** channels 0 and 1 of center 2 are tied by its last leaf only; 2 is tied to 1, and 1 to 0 *)
Definition w_late : subgraph :=
  mkSG [0;1;2;10;11;12;13]%nat
    [mkLeaf 10 [(1%nat, [(0%nat, same_index 4)])] [0%nat] [[0;1;2;3]];
     mkLeaf 11 [(1%nat, [(0%nat, same_index 4); (1%nat, same_index 4)])] [0;1]%nat [[0;1;2;3]];
     mkLeaf 12 [(1%nat, [(1%nat, same_index 4); (2%nat, same_index 4)])] [1;2]%nat [[0;1;2;3]];
     mkLeaf 13 [(1%nat, [(2%nat, [[[0;1];[2];[3]]])])] [2%nat] [[0;1;2]]]
    [(0%nat, [[0;1;2;3]]); (1%nat, [[0;1;2;3]]); (2%nat, [[0;1;2;3]])].

Lemma late_fed k c cs rs i : nth_error (sg_leaves w_late) k = Some (mkLeaf (10 + k) [(1%nat, rs)] cs [[0;1;2;3]]) ->
  In (c, same_index 4) rs -> In c (sg_mods w_late) -> 0 <= i < 4 ->
  fed w_late (mkLeaf (10 + k) [(1%nat, rs)] cs [[0;1;2;3]]) c i i.
Proof.
  intros E R M B. exists [i]. split; [|split; [now left|lia]]. split; [eapply nth_error_In, E|]. split; [exact M|].
  exists 1%nat, rs, (same_index 4). eexists. split; [reflexivity|]. split; [exact R|]. split; [now left|].
  split; [cbn; lia|]. assert (C : i = 0 \/ i = 1 \/ i = 2 \/ i = 3) by lia.
  destruct C as [-> |[-> |[-> | ->]]]; reflexivity.
Qed.

Lemma late_depends : clos_refl_trans (nat * Z) (depend w_late) (0%nat, 0) (0%nat, 1).
Proof.
  pose proof (fun i => late_fed 1 0 [0;1]%nat [(0%nat, same_index 4); (1%nat, same_index 4)] i eq_refl) as F0.
  pose proof (fun i => late_fed 1 1 [0;1]%nat [(0%nat, same_index 4); (1%nat, same_index 4)] i eq_refl) as F1.
  pose proof (fun i => late_fed 2 1 [1;2]%nat [(1%nat, same_index 4); (2%nat, same_index 4)] i eq_refl) as G1.
  pose proof (fun i => late_fed 2 2 [1;2]%nat [(1%nat, same_index 4); (2%nat, same_index 4)] i eq_refl) as G2.
  assert (S01 : forall i, 0 <= i < 4 -> depend w_late (0%nat, i) (1%nat, i)).
  { intros i B. eexists. exists i. cbn [fst snd]. split; [apply F0|apply F1]; cbn; auto. }
  assert (S10 : forall i, 0 <= i < 4 -> depend w_late (1%nat, i) (0%nat, i)).
  { intros i B. eexists. exists i. cbn [fst snd]. split; [apply F1|apply F0]; cbn; auto. }
  assert (S12 : forall i, 0 <= i < 4 -> depend w_late (1%nat, i) (2%nat, i)).
  { intros i B. eexists. exists i. cbn [fst snd]. split; [apply G1|apply G2]; cbn; auto. }
  assert (S21 : forall i, 0 <= i < 4 -> depend w_late (2%nat, i) (1%nat, i)).
  { intros i B. eexists. exists i. cbn [fst snd]. split; [apply G2|apply G1]; cbn; auto. }
  assert (S22 : depend w_late (2%nat, 0) (2%nat, 1)).
  { exists (nth 3 (sg_leaves w_late) (mkLeaf 0 [] [] [])), 0. cbn [fst snd].
    assert (X : forall j, j = 0 \/ j = 1 -> fed w_late (nth 3 (sg_leaves w_late) (mkLeaf 0 [] [] [])) 2 0 j).
    { intros j J. exists [0;1]. split; [|split; [cbn; intuition lia|lia]]. split; [cbn; auto|]. split; [cbn; auto|].
      exists 1%nat. eexists. eexists. eexists. split; [reflexivity|]. split; [now left|]. split; [now left|].
      split; [cbn; lia|reflexivity]. }
    split; apply X; auto. }
  eapply rt_trans; [apply rt_step, (S01 0); lia|]. eapply rt_trans; [apply rt_step, (S12 0); lia|].
  eapply rt_trans; [apply rt_step, S22|]. eapply rt_trans; [apply rt_step, (S21 1); lia|]. apply rt_step, S10. lia.
Qed.

Lemma late_chained : chained w_late.
Proof.
  intros a c b E N. vm_compute in E. destruct a as [|x a]; [congruence|]. cbn [app] in E. injection E as <- E.
  destruct a as [|y a]; cbn [app] in E.
  - injection E as <- _. exists 0%nat, (nth 1 (sg_leaves w_late) (mkLeaf 0 [] [] [])).
    split; [now left|]. split; [cbn; auto|]. split; cbn; auto.
  - injection E as <- E. destruct a as [|z a]; cbn [app] in E.
    + injection E as <- _. exists 1%nat, (nth 2 (sg_leaves w_late) (mkLeaf 0 [] [] [])).
      split; [cbn; auto|]. split; [cbn; auto|]. split; cbn; auto.
    + injection E as _ E. destruct a; discriminate.
Qed.

Lemma late_fails : exists pc pl l c i j s ls cc,
  calc_prune_idx w_late (fun _ => [1; 20; 9; 9])%Q (fun _ => 1#4)%Q = Some (pc, pl) /\
  fed w_late l c i j /\ In j (dgetd [] c pc) /\ dget (lf_name l) pl = Some s /\ ~ In i s /\
  omap (prep_leaf (sg_mods w_late)) (sg_leaves w_late) = Some ls /\ center_constraints ls = Some cc /\
  forall r, In r (dgetd [] 0 cc) -> ~ (In 0 r /\ In 1 r).
Proof.
  eexists. eexists. exists (nth 2 (sg_leaves w_late) (mkLeaf 0 [] [] [])), 1%nat, 0, 0. eexists. eexists. eexists.
  split; [vm_compute; reflexivity|]. split.
  { apply (late_fed 2 1 [1;2]%nat [(1%nat, same_index 4); (2%nat, same_index 4)] 0 eq_refl); cbn; auto. lia. }
  split; [vm_compute; auto|]. split; [reflexivity|]. split; [intros []|].
  split; [vm_compute; reflexivity|]. split; [vm_compute; reflexivity|].
  intros r R. vm_compute in R. destruct R as [<- |[<- |[<- |[<- |[]]]]]; cbn; intuition discriminate.
Qed.

Lemma aggregation_fails : exists sg imp sparsity pc pl l c i j s ls cc c0 x y,
  chained sg /\ clos_refl_trans (nat * Z) (depend sg) (c0, x) (c0, y) /\
  calc_prune_idx sg imp sparsity = Some (pc, pl) /\
  fed sg l c i j /\ In j (dgetd [] c pc) /\ dget (lf_name l) pl = Some s /\ ~ In i s /\
  omap (prep_leaf (sg_mods sg)) (sg_leaves sg) = Some ls /\ center_constraints ls = Some cc /\
  forall r, In r (dgetd [] c0 cc) -> ~ (In x r /\ In y r).
Proof.
  destruct late_fails as (pc & pl & l & c & i & j & s & ls & cc & X).
  exists w_late. eexists. eexists. exists pc, pl, l, c, i, j, s, ls, cc, 0%nat, 0, 1.
  split; [exact late_chained|]. split; [exact late_depends|]. exact X.
Qed.
Lemma order_refuted : exists sg n kap lam imp sparsity pc pl l c i j s,
  labelled sg n kap lam /\ calc_prune_idx sg imp sparsity = Some (pc, pl) /\
  fed sg l c i j /\ dget (lf_name l) pl = Some s /\ In i s /\ ~ In j (dgetd [] c pc).
Proof.
  destruct order_fails as (pc & pl & l & c & i & j & s & X).
  exists w_order, 2%nat, (fun _ j => j), (fun _ i => i). eexists. eexists. exists pc, pl, l, c, i, j, s.
  split; [exact order_labelled|]. exact X.
Qed.
