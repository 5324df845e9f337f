(** The NetAdapt pruner: its plans, its count of operations, its rounds. *)
From Coq Require Import List ZArith QArith Bool Lia Znumtheory.
From Verif Require Import NetAdaptModel NetAdaptSpec NetAdaptProofs NetAdaptExample.
Import ListNotations.
Local Open Scope Z_scope.

(** C129: [find_prune_plan] keeps as many channels as the target allows and reports the operations that remain, although
    it stops counting once the steps look constant. *)
Theorem C129_plan_exact_partial :
  forall flops n m pre target a b k, 0 < m -> 0 < n -> (m | n) -> quadratic flops n a b k ->
  (a <> 0 -> k <> a * (n - m) * (n - 2 * m)) ->
  (forall c f, find_plan flops n m pre target = Some (c, f) <-> least_cut flops n m target c f) /\
  (find_plan flops n m pre target = None <-> forall c, allowed n m c -> ~ (inject_Z (flops c) < target)%Q).
Proof. exact plan_exact_lemma. Qed.
Print Assumptions C129_plan_exact_partial.
Example C129_plan_exact_partial_example :
  let flops := fun c => 3 * c * c + 5 * c + 100 in
  quadratic flops 40 3 5 100 /\ 100 <> 3 * (40 - 8) * (40 - 2 * 8) /\
  find_plan flops 40 8 (flops 40) (1000 # 1) = Some (16, 948) /\ least_cut flops 40 8 (1000 # 1) 16 948 /\
  find_plan flops 40 8 (flops 40) (300 # 1) = None.
Proof.
  cbv zeta. assert (Q : quadratic (fun c => 3 * c * c + 5 * c + 100) 40 3 5 100) by (intros c _; reflexivity).
  split; [exact Q|]. split; [lia|]. assert (E : find_plan (fun c => 3 * c * c + 5 * c + 100) 40 8 (3 * 40 * 40 + 5 * 40 + 100) (1000 # 1) = Some (16, 948)) by (vm_compute; reflexivity).
  split; [exact E|]. split; [|vm_compute; reflexivity].
  apply (proj1 (C129_plan_exact_partial _ 40 8 (3 * 40 * 40 + 5 * 40 + 100) (1000 # 1) 3 5 100 ltac:(lia) ltac:(lia) ltac:(exists 5; reflexivity) Q ltac:(lia)) 16 948). exact E.
Qed.

(** of other widths only the multiples below the first one are tried *)
Theorem C129_plan_width_partial :
  forall flops n m pre target a b k, 0 < m -> m <= n -> quadratic flops n a b k ->
  (a <> 0 -> k <> a * (n / m * m - m) * (n / m * m - 2 * m)) ->
  (forall c f, find_plan flops n m pre target = Some (c, f) <-> least_cut flops (n / m * m) m target c f) /\
  (find_plan flops n m pre target = None <-> forall c, allowed (n / m * m) m c -> ~ (inject_Z (flops c) < target)%Q).
Proof. exact width_exact_lemma. Qed.
Print Assumptions C129_plan_width_partial.
Example C129_plan_width_partial_example :
  let flops := fun c => 3 * c * c + 5 * c + 100 in
  quadratic flops 43 3 5 100 /\ 100 <> 3 * (43 / 8 * 8 - 8) * (43 / 8 * 8 - 2 * 8) /\ find_plan flops 43 8 (flops 43) (1000 # 1) = Some (16, 948).
Proof. cbv zeta. split; [intros c _; reflexivity|]. split; [vm_compute; discriminate|vm_compute; reflexivity]. Qed.

(** no condition on the numbers if no layer but depthwise convolutions has the channels on both sides *)
Theorem C129_plan_of_network_partial :
  forall n m pre target ls, 0 < m -> 0 < n -> (m | n) ->
  Forall (fun e => fits n (fst e) (fst (snd e)) (snd (snd e))) ls -> Forall (fun e => one_sided (fst e) (fst (snd e)) (snd (snd e))) ls ->
  (forall c f, find_plan (network_flops n ls) n m pre target = Some (c, f) <-> least_cut (network_flops n ls) n m target c f) /\
  (find_plan (network_flops n ls) n m pre target = None <-> forall c, allowed n m c -> ~ (inject_Z (network_flops n ls c) < target)%Q).
Proof. exact plan_network_lemma. Qed.
Print Assumptions C129_plan_of_network_partial.
Example C129_plan_of_network_partial_example :
  Forall (fun e => fits 32 (fst e) (fst (snd e)) (snd (snd e))) net_chain /\ Forall (fun e => one_sided (fst e) (fst (snd e)) (snd (snd e))) net_chain /\
  find_plan (network_flops 32 net_chain) 32 8 (network_flops 32 net_chain 32) (28000 # 1) = Some (16, 27008).
Proof. exact (conj net_chain_fits (conj net_chain_one net_chain_plan)). Qed.

(** the reported number is below the target for every count *)
Theorem C129_plan_below :
  forall flops n m pre target c f, find_plan flops n m pre target = Some (c, f) -> (inject_Z f < target)%Q.
Proof. exact plan_below_lemma. Qed.
Print Assumptions C129_plan_below.
Example C129_plan_below_example : find_plan (network_flops 32 net_residual) 32 8 1536 (400 # 1) = Some (8, 352).
Proof. vm_compute. reflexivity. Qed.

(** with a layer on both sides equal quotients do not mean proportional counts: the plan may miss the target *)
Theorem C129_estimate_refuted :
  exists n m pre target ls c f, 0 < m /\ (m | n) /\ Forall (fun e => fits n (fst e) (fst (snd e)) (snd (snd e))) ls /\
    find_plan (network_flops n ls) n m pre target = Some (c, f) /\ f <> network_flops n ls c /\ ~ (inject_Z (network_flops n ls c) < target)%Q.
Proof. exact estimate_lemma. Qed.
Print Assumptions C129_estimate_refuted.

(** the first multiple is skipped even if it is less than the number of channels *)
Theorem C129_width_refuted :
  exists flops n m pre target c f c', 0 < m < n /\ (forall x, flops x = 10 * x) /\
    find_plan flops n m pre target = Some (c, f) /\ allowed n m c' /\ c < c' /\ (inject_Z (flops c') < target)%Q.
Proof. exact width_lemma. Qed.
Print Assumptions C129_width_refuted.

(** C130: the count with masks is the count of the network without the masked channels. *)
Theorem C130_flops_of_smaller_network :
  forall ls, Forall (fun e => channels_left (fst e) (fst (snd e)) (snd (snd e))) ls ->
  calc_flops (map (fun e => (smaller (fst e) (fst (snd e)) (snd (snd e)), (0, 0))) ls) = calc_flops ls.
Proof. exact smaller_lemma. Qed.
Print Assumptions C130_flops_of_smaller_network.
Example C130_flops_of_smaller_network_example :
  let ls := masked 32 20 net_chain in
  Forall (fun e => channels_left (fst e) (fst (snd e)) (snd (snd e))) ls /\ calc_flops ls = Some 33600 /\
  calc_flops (map (fun e => (smaller (fst e) (fst (snd e)) (snd (snd e)), (0, 0))) ls) = Some 33600.
Proof.
  cbv zeta. split; [|split; vm_compute; reflexivity].
  unfold masked, net_chain, removed. cbn [map fst snd]. repeat apply Forall_cons; try apply Forall_nil; cbn [fst snd channels_left]; lia.
Qed.

(** the count is a polynomial of degree two in the number of channels that stay *)
Theorem C130_flops_quadratic :
  forall n ls, Forall (fun e => fits n (fst e) (fst (snd e)) (snd (snd e))) ls ->
  exists a b k, forall c, 0 < c <= n -> calc_flops (masked n c ls) = Some (a * c * c + b * c + k).
Proof. exact flops_quadratic_lemma. Qed.
Print Assumptions C130_flops_quadratic.
Example C130_flops_quadratic_example :
  Forall (fun e => fits 32 (fst e) (fst (snd e)) (snd (snd e))) net_residual /\
  map (fun c => calc_flops (masked 32 c net_residual)) [32; 24; 5] = map (fun c => Some (1 * c * c + 4 * c + 384)) [32; 24; 5].
Proof. split; [exact net_residual_fits|vm_compute; reflexivity]. Qed.

(** C131: the rounds end, each with fewer operations than the one before, taken from a subgraph of highest accuracy. *)
Theorem C131_rounds :
  forall jobs r d budget rounds, (0 <= r)%Q -> (0 <= d)%Q -> 0 <= budget -> keeps_target jobs ->
  forall fuel it cur, (Z.to_nat (cur - budget) < fuel)%nat ->
  exists trace st, rounds_loop jobs r d budget rounds fuel it cur = Some (trace, st) /\ falling jobs r d budget it cur trace /\
    match st with
    | Reached => final cur trace <= budget
    | NoRounds => exists k, rounds = Some k /\ (k <= it + length trace)%nat /\ (trace <> [] -> (it + length trace = k)%nat)
    | AllInvalid => budget < final cur trace /\ exists a, In (a, None) (jobs (it + length trace)%nat (round_target r d (it + length trace) (final cur trace))) /\
                      forall j, In j (jobs (it + length trace)%nat (round_target r d (it + length trace) (final cur trace))) -> (fst j <= a)%Q
    | NoSubgraph => budget < final cur trace /\ jobs (it + length trace)%nat (round_target r d (it + length trace) (final cur trace)) = []
    end.
Proof. exact rounds_lemma. Qed.
Print Assumptions C131_rounds.
Example C131_rounds_example :
  keeps_target jobs_two /\
  rounds_loop jobs_two (1 # 100) (9 # 10) 2000 None 2201 0 4200 = Some ([3400; 2600; 1800], Reached) /\
  rounds_loop jobs_two (1 # 100) (9 # 10) 2000 (Some 1%nat) 2201 0 4200 = Some ([3400], NoRounds) /\
  rounds_loop jobs_two (1 # 100) (9 # 10) 1500 None 2701 0 4200 = Some ([3400; 2600; 1800], AllInvalid).
Proof. exact (conj jobs_two_keep jobs_two_run). Qed.

(** the plans of [find_prune_plan] keep the targets *)
Theorem C131_plans_keep_target :
  forall (sub : nat -> Q -> list ((Z -> Q) * (Z -> Z) * (Z * Z * Z))),
  keeps_target (fun it t => map (fun s => match s with (acc, flops, (n, m, pre)) => subgraph_job acc flops n m pre t end) (sub it t)).
Proof. exact jobs_keep. Qed.
Print Assumptions C131_plans_keep_target.
Example C131_plans_keep_target_example : keeps_target jobs_two /\ map snd (jobs_two 0 (4158 # 1)) = [Some 3400; Some 4120].
Proof. split; [exact jobs_two_keep|]. vm_compute. reflexivity. Qed.

(** with a validation function above -1, a subgraph without a plan is behind every one with a plan *)
Theorem C131_plans_accuracy :
  forall (sub : nat -> Q -> list ((Z -> Q) * (Z -> Z) * (Z * Z * Z))),
  (forall it t acc flops s, In (acc, flops, s) (sub it t) -> forall c, (-1 < acc c)%Q) ->
  accuracies_above (fun it t => map (fun s => match s with (acc, flops, (n, m, pre)) => subgraph_job acc flops n m pre t end) (sub it t)).
Proof. exact jobs_above. Qed.
Print Assumptions C131_plans_accuracy.
Example C131_plans_accuracy_example :
  (forall it t acc flops s, In (acc, flops, s) (subs_two it t) -> forall c, (-1 < acc c)%Q) /\
  map (fun s => match s with (acc, flops, (n, m, pre)) => subgraph_job acc flops n m pre (100 # 1) end) (subs_two O 0%Q) = [((1 # 2)%Q, Some 80); ((-1)%Q, None)].
Proof. exact subs_two_above. Qed.

(** with accuracies above -1 the rounds are given up only if no subgraph has a plan *)
Theorem C131_given_up_partial :
  forall jobs r d budget rounds fuel cur trace, (0 <= r)%Q -> (0 <= d)%Q -> 0 <= budget -> keeps_target jobs ->
  accuracies_above jobs -> (Z.to_nat (cur - budget) < fuel)%nat -> rounds_loop jobs r d budget rounds fuel 0 cur = Some (trace, AllInvalid) ->
  forall a o, In (a, o) (jobs (length trace) (round_target r d (length trace) (final cur trace))) -> o = None.
Proof. exact invalid_lemma. Qed.
Print Assumptions C131_given_up_partial.
Example C131_given_up_partial_example :
  keeps_target jobs_two /\ accuracies_above jobs_two /\
  rounds_loop jobs_two (1 # 100) (9 # 10) 1500 None 2701 0 4200 = Some ([3400; 2600; 1800], AllInvalid) /\
  length (jobs_two 3 (round_target (1 # 100) (9 # 10) 3 1800)) = 2%nat.
Proof. exact (conj jobs_two_keep (conj jobs_two_above (conj (proj2 (proj2 jobs_two_run)) eq_refl))). Qed.

(** with lower accuracies, such as a negated loss, they are given up although a subgraph would reach the budget *)
Theorem C131_negative_accuracy_refuted :
  exists (jobs : nat -> Q -> list job) r d budget cur, (0 <= r)%Q /\ (0 <= d)%Q /\ 0 <= budget < cur /\ keeps_target jobs /\
    rounds_loop jobs r d budget None (S (Z.to_nat (cur - budget))) 0 cur = Some ([], AllInvalid) /\
    exists a f, In (a, Some f) (jobs 0%nat (round_target r d 0 cur)) /\ f <= budget.
Proof. exact negative_lemma. Qed.
Print Assumptions C131_negative_accuracy_refuted.
