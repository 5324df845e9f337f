(** Cases of the NetAdapt pruner. *)
From Coq Require Import List ZArith QArith Bool Lia Znumtheory.
From Verif Require Import NetAdaptModel NetAdaptSpec NetAdaptProofs.
Import ListNotations.
Local Open Scope Z_scope.

(** A convolution to 32 channels, a batch normalization, a ReLU, a depthwise convolution and a convolution to 64
    channels, on 4x4 images *)
Definition net_chain : list (flayer * (bool * bool)) :=
  [ (LConv (16 * 32) 3 32 1 9 0, (false, true)); (LBn (16 * 32) 32, (true, true)); (LUnary (16 * 32) 32, (true, true));
    (LConv (16 * 32) 32 32 32 9 0, (true, true)); (LConv (16 * 64) 32 64 1 1 0, (true, false)); (LLin (1 * 10) 64 10, (false, false)) ].
Lemma net_chain_fits : Forall (fun e => fits 32 (fst e) (fst (snd e)) (snd (snd e))) net_chain.
Proof.
  unfold net_chain. repeat apply Forall_cons; try apply Forall_nil; cbn [fst snd].
  - apply (fit_conv 32 16 3 32 9 0 false true); auto; try lia; discriminate.
  - apply (fit_bn 32 16 32 true true); auto; lia.
  - apply (fit_unary 32 16 32 true true); auto; lia.
  - apply (fit_depthwise 32 16 9 0).
  - apply (fit_conv 32 16 32 64 1 0 true false); auto; try lia; discriminate.
  - apply (fit_lin 32 1 64 10 false false); try lia; discriminate.
Qed.
Lemma net_chain_one : Forall (fun e => one_sided (fst e) (fst (snd e)) (snd (snd e))) net_chain.
Proof. unfold net_chain. repeat apply Forall_cons; try apply Forall_nil; cbn [fst snd one_sided]; try discriminate; try lia. Qed.
Lemma net_chain_plan : find_plan (network_flops 32 net_chain) 32 8 (network_flops 32 net_chain 32) (28000 # 1) = Some (16, 27008).
Proof. vm_compute. reflexivity. Qed.

(** A residual block: a convolution whose input and output are the 32 pruned channels, after a convolution from 4
    channels, and 384 operations elsewhere *)
Definition net_residual : list (flayer * (bool * bool)) :=
  [ (LConv (1 * 32) 4 32 1 1 0, (false, true)); (LConv (1 * 32) 32 32 1 1 0, (true, true)); (LLin (1 * 16) 24 16, (false, false)) ].
Lemma net_residual_fits : Forall (fun e => fits 32 (fst e) (fst (snd e)) (snd (snd e))) net_residual.
Proof.
  unfold net_residual. repeat apply Forall_cons; try apply Forall_nil; cbn [fst snd].
  - apply (fit_conv 32 1 4 32 1 0 false true); auto; try lia; discriminate.
  - apply (fit_conv 32 1 32 32 1 0 true true); auto; lia.
  - apply (fit_lin 32 1 24 16 false false); try lia; discriminate.
Qed.
Lemma estimate_lemma :
  exists n m pre target ls c f, 0 < m /\ (m | n) /\ Forall (fun e => fits n (fst e) (fst (snd e)) (snd (snd e))) ls /\
    find_plan (network_flops n ls) n m pre target = Some (c, f) /\ f <> network_flops n ls c /\ ~ (inject_Z (network_flops n ls c) < target)%Q.
Proof.
  exists 32, 8, (network_flops 32 net_residual 32), (400 # 1)%Q, net_residual, 8, 352.
  split; [lia|]. split; [exists 4; reflexivity|]. split; [exact net_residual_fits|]. split; [vm_compute; reflexivity|].
  split; [vm_compute; discriminate|]. vm_compute. discriminate.
Qed.
Lemma width_lemma :
  exists flops n m pre target c f c', 0 < m < n /\ (forall x, flops x = 10 * x) /\
    find_plan flops n m pre target = Some (c, f) /\ allowed n m c' /\ c < c' /\ (inject_Z (flops c') < target)%Q.
Proof.
  exists (fun x => 10 * x), 20, 8, 200, (170 # 1)%Q, 8, 80, 16. split; [lia|]. split; [reflexivity|]. split; [vm_compute; reflexivity|].
  split; [split; [lia|exists 2; reflexivity]|]. split; [lia|]. vm_compute. reflexivity.
Qed.

(** the second subgraph has no channels to remove *)
Definition subs_two (it : nat) (t : Q) : list ((Z -> Q) * (Z -> Z) * (Z * Z * Z)) :=
  [(fun _ => (1 # 2)%Q, fun c => 10 * c, (16, 8, 160)); (fun _ => (3 # 4)%Q, fun c => 10 * c, (8, 8, 80))].
Lemma subs_two_above :
  (forall it t acc flops s, In (acc, flops, s) (subs_two it t) -> forall c, (-1 < acc c)%Q) /\
  map (fun s => match s with (acc, flops, (n, m, pre)) => subgraph_job acc flops n m pre (100 # 1) end) (subs_two O 0%Q) = [((1 # 2)%Q, Some 80); ((-1)%Q, None)].
Proof. split; [|vm_compute; reflexivity]. intros it t acc flops s [H|[H|[]]] c; injection H as <- _ _; reflexivity. Qed.
(** Two subgraphs, the second without a plan from the second round on *)
Definition jobs_two (it : nat) (t : Q) : list job :=
  map (fun s => match s with (acc, flops, (n, m, pre)) => subgraph_job acc flops n m pre t end)
    [ (fun c => (inject_Z (c + 40) * (1 # 100))%Q, fun c => 100 * c + 1000, (32, 8, 4200)) ; (fun _ => (1 # 2)%Q, fun c => 4200 - Z.of_nat it - 10 * (16 - c), (16, 8, 4200)) ].
Lemma jobs_two_keep : keeps_target jobs_two.
Proof. exact (jobs_keep (fun it t => [ (fun c => (inject_Z (c + 40) * (1 # 100))%Q, fun c => 100 * c + 1000, (32, 8, 4200)) ; (fun _ => (1 # 2)%Q, fun c => 4200 - Z.of_nat it - 10 * (16 - c), (16, 8, 4200)) ])). Qed.
Lemma jobs_two_above : accuracies_above jobs_two.
Proof.
  intros it t a o H. unfold jobs_two, subgraph_job in H. cbn [map] in H.
  destruct H as [H|[H|[]]].
  - destruct (find_plan (fun c => 100 * c + 1000) 32 8 4200 t) as [[c f]|] eqn:P; injection H as <- <-; [|reflexivity].
    apply Qlt_le_trans with 0%Q; [reflexivity|]. apply Qmult_le_0_compat; [|discriminate]. change 0%Q with (inject_Z 0). rewrite <- Zle_Qle.
    unfold find_plan in P. change (candidates 32 8) with [32; 24; 16; 8] in P. apply plan_below in P.
    destruct P as [[<-|[<-|[<-|[]]]] _]; lia.
  - destruct (find_plan (fun c => 4200 - Z.of_nat it - 10 * (16 - c)) 16 8 4200 t) as [[c f]|]; injection H as <- <-; reflexivity.
Qed.
Lemma jobs_two_run :
  rounds_loop jobs_two (1 # 100) (9 # 10) 2000 None 2201 0 4200 = Some ([3400; 2600; 1800], Reached) /\
  rounds_loop jobs_two (1 # 100) (9 # 10) 2000 (Some 1%nat) 2201 0 4200 = Some ([3400], NoRounds) /\
  rounds_loop jobs_two (1 # 100) (9 # 10) 1500 None 2701 0 4200 = Some ([3400; 2600; 1800], AllInvalid).
Proof. vm_compute. repeat split. Qed.
(** a validation function that returns the negated loss *)
Lemma negative_lemma :
  exists (jobs : nat -> Q -> list job) r d budget cur, (0 <= r)%Q /\ (0 <= d)%Q /\ 0 <= budget < cur /\ keeps_target jobs /\
    rounds_loop jobs r d budget None (S (Z.to_nat (cur - budget))) 0 cur = Some ([], AllInvalid) /\
    exists a f, In (a, Some f) (jobs 0%nat (round_target r d 0 cur)) /\ f <= budget.
Proof.
  exists (fun it t => map (fun s => match s with (acc, flops, (n, m, pre)) => subgraph_job acc flops n m pre t end)
            [ (fun c => (-5 # 2)%Q, fun c => 10 * c, (32, 8, 320)) ; (fun _ => (0 # 1)%Q, fun c => 10 * c, (8, 8, 320)) ]),
         (1 # 10), (9 # 10), 250, 320.
  split; [discriminate|]. split; [discriminate|]. split; [lia|].
  split; [exact (jobs_keep (fun it t => [ (fun c => (-5 # 2)%Q, fun c => 10 * c, (32, 8, 320)) ; (fun _ => (0 # 1)%Q, fun c => 10 * c, (8, 8, 320)) ]))|].
  split; [vm_compute; reflexivity|]. exists (-5 # 2)%Q, 240. split; [vm_compute; now left|lia].
Qed.
