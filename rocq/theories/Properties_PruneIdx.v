(** C99: which channels the pruner removes ([SubGraph.calc_prune_idx]): what is removed at the leaves is what is removed
    at the centers, and only channels that depend on each other are tied. *)
From Coq Require Import List Arith Bool ZArith QArith Relations Lia.
From Verif Require Import PruneModel PruneIdxModel PruneIdxSpec PruneIdxProofs PruneIdxLabProofs PruneIdxWitness.
Import ListNotations.
Local Open Scope Z_scope.

(** Two channels of one center are put into one constraint only if a chain of shared indices ties them. *)
Theorem C99_constraints_sound : forall sg ls cc,
  omap (prep_leaf (sg_mods sg)) (sg_leaves sg) = Some ls ->
  (forall l c i s, records sg l c i s -> In (-1) s -> forall x, In x s -> x = -1) ->
  center_constraints ls = Some cc ->
  forall c s x y, In s (dgetd [] c cc) -> In x s -> In y s -> x <> -1 ->
  clos_refl_trans (nat * Z) (depend sg) (c, x) (c, y).
Proof. exact constraints_sound_all. Qed.
Print Assumptions C99_constraints_sound.

(** In a network whose channels fall into labelled classes and whose centers are met one joined to the next, the
    removal is one set of labels: a leaf loses an index exactly if the center channels that feed it are lost, channels of
    one label are lost together, and the operations in between agree with both.
    Missing: networks where the indices of a leaf come from different centers (concatenation, splitting), centers of
    different widths, and the cases where the computation raises. *)
Theorem C99_consistent_partial : forall sg n kap lam imp sparsity pc pl,
  labelled sg n kap lam -> chained sg -> calc_prune_idx sg imp sparsity = Some (pc, pl) ->
  (forall l, In l (sg_leaves sg) -> exists s, dget (lf_name l) pl = Some s /\
     (forall i, In i s -> exists c j, fed sg l c i j) /\
     (forall c i j, fed sg l c i j -> (In i s <-> In j (dgetd [] c pc)))) /\
  (forall l c j, In l (sg_leaves sg) -> In c (centers_of l) -> In j (dgetd [] c pc) -> 0 <= j < Z.of_nat n) /\
  (forall l c j l' c' j', In l (sg_leaves sg) -> In c (centers_of l) -> In l' (sg_leaves sg) -> In c' (centers_of l') ->
     0 <= j < Z.of_nat n -> 0 <= j' < Z.of_nat n -> kap c j = kap c' j' ->
     (In j (dgetd [] c pc) <-> In j' (dgetd [] c' pc))) /\
  (forall (rs : list (nat * rows)) (mu : nat -> Z),
     (forall c r row i j, In (c, r) rs -> In row r -> In j (nth i row []) ->
        (exists l, In l (sg_leaves sg) /\ In c (centers_of l)) /\ 0 <= j < Z.of_nat n /\ kap c j = mu i) ->
     forall c r row i j, In (c, r) rs -> In row r -> In j (nth i row []) ->
       (In (Z.of_nat i) (get_pruned_idx pc rs) <-> In j (dgetd [] c pc))).
Proof. exact removed_consistent. Qed.
Print Assumptions C99_consistent_partial.

(** Without the condition on the order in which centers are met: a leaf loses an index whose center keeps the channel. *)
Theorem C99_order_refuted : exists sg n kap lam imp sparsity pc pl l c i j s,
  labelled sg n kap lam /\ calc_prune_idx sg imp sparsity = Some (pc, pl) /\
  fed sg l c i j /\ dget (lf_name l) pl = Some s /\ In i s /\ ~ In j (dgetd [] c pc).
Proof. exact order_refuted. Qed.
Print Assumptions C99_order_refuted.

(** The aggregation runs over the leaves once: a tie that a late leaf adds does not reach the earlier centers.  Two channels
    that depend on each other stay in different constraints, and a center loses a channel that its leaf keeps. *)
Theorem C99_aggregation_refuted : exists sg imp sparsity pc pl l c i j s ls cc c0 x y,
  chained sg /\ clos_refl_trans (nat * Z) (depend sg) (c0, x) (c0, y) /\
  calc_prune_idx sg imp sparsity = Some (pc, pl) /\
  fed sg l c i j /\ In j (dgetd [] c pc) /\ dget (lf_name l) pl = Some s /\ ~ In i s /\
  omap (prep_leaf (sg_mods sg)) (sg_leaves sg) = Some ls /\ center_constraints ls = Some cc /\
  forall r, In r (dgetd [] c0 cc) -> ~ (In x r /\ In y r).
Proof. exact aggregation_fails. Qed.
Print Assumptions C99_aggregation_refuted.

(** a residual chain: three convolutions of four channels, added one after the other *)
Definition residual : subgraph := plain_net 4 [0;1;2;10;11;12]%nat [(10, [0]); (11, [0; 1]); (12, [0; 1; 2])]%nat.
Definition residual_imp (c : nat) : list Q :=
  match c with 0%nat => [1; 7; 3; 5] | 1%nat => [2; 2; 1; 9] | _ => [4; 1; 1; 1] end%Q.
Example C99_residual :
  labelled residual 4 (fun _ j => j) (fun _ i => i) /\ chained residual /\
  calc_prune_idx residual residual_imp (fun _ => 1#2)%Q =
    Some ([(0%nat, [2; 0]); (1%nat, [0; 2]); (2%nat, [0; 2])],
          [(10%nat, [2; 0]); (11%nat, [0; 2; 0; 2]); (12%nat, [0; 2; 0; 2; 0; 2])]).
Proof.
  split; [|split].
  - apply plain_labelled; [lia| |].
    + cbn [map fst]. repeat constructor; cbn; intuition lia.
    + intros e H. cbn in H. destruct H as [<- |[<- |[<- |[]]]]; cbn [snd];
        (split; [discriminate|]); (split; [repeat constructor; cbn; intuition lia|]); intros x X; cbn in X |- *; intuition lia.
  - intros a c b E N. exists 0%nat, (nth 2 (sg_leaves residual) (mkLeaf 0 [] [] [])). vm_compute in E.
    destruct a as [|x a]; [congruence|]. cbn [app] in E. injection E as <- E.
    split; [now left|]. split; [cbn; auto|].
    assert (C : c = 1%nat \/ c = 2%nat).
    { destruct a as [|y a]; cbn [app] in E; [injection E as <- _; auto|]. injection E as _ E.
      destruct a as [|z a]; cbn [app] in E; [injection E as <- _; auto|]. injection E as _ E. destruct a; discriminate. }
    split; [destruct C as [-> | ->]; cbn; auto|cbn; auto].
  - vm_compute. reflexivity.
Qed.
(** the late merge: center 1 gets the constraint {0, 1}, and its channels are tied *)
Example C99_late_merge : exists ls cc,
  omap (prep_leaf (sg_mods w_late)) (sg_leaves w_late) = Some ls /\ center_constraints ls = Some cc /\
  exists s, In s (dgetd [] 2%nat cc) /\ In 0 s /\ In 1 s.
Proof. eexists. eexists. split; [vm_compute; reflexivity|]. split; [vm_compute; reflexivity|]. 
  vm_compute. eexists. split; [left; reflexivity|]. auto. Qed.
