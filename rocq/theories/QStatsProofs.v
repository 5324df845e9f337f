(** Proofs about quantization parameters set by hand. *)
From Coq Require Import List Arith ZArith Bool Reals Lia Lra.
From Verif Require Import QuantSpec QStatsModel QStatsSpec.
Import ListNotations.
Local Open Scope R_scope.

Lemma affine_exact eps qmin qmax mean std : (qmin < qmax)%Z -> (qmin <= mean <= qmax)%Z -> 0 < std -> eps <= 1 / std ->
  qparams_affine eps qmin qmax (1 / std * IZR (qmin - mean)) (1 / std * IZR (qmax - mean)) = (1 / std, mean).
Proof.
  intros Q M S E. assert (I : 0 < 1 / std) by (apply Rdiv_lt_0_compat; lra). unfold qparams_affine.
  assert (H1 : 0 <= 1 / std * IZR (qmax - mean)) by (apply Rmult_le_pos; [lra|]; apply IZR_le; lia).
  assert (H2 : 1 / std * IZR (qmin - mean) <= 0).
  { rewrite <- (Rmult_0_r (1 / std)). apply Rmult_le_compat_l; [lra|]. apply IZR_le. lia. }
  rewrite (Rmin_left _ _ H2), (Rmax_left _ _ H1).
  assert (X : (1 / std * IZR (qmax - mean) - 1 / std * IZR (qmin - mean)) / IZR (qmax - qmin) = 1 / std).
  { rewrite !minus_IZR. assert (IZR qmin < IZR qmax) by now apply IZR_lt. field. split; lra. }
  rewrite X, Rmax_left by exact E. f_equal.
  replace (1 / std * IZR (qmin - mean) / (1 / std)) with (IZR (qmin - mean)) by (field; lra). rewrite rne_IZR. lia.
Qed.
Lemma limits_codes m : ac_limits m = torch_codes m.
Proof. unfold ac_limits, torch_codes. destruct (ac_range m); [reflexivity|]. destruct (ac_reduce m); reflexivity. Qed.
Lemma set_module_lemma eps m mean std : can_set m -> stats_fit eps mean std m -> has_stats eps mean std (set_module m mean std).
Proof.
  unfold can_set, stats_fit, has_stats. rewrite <- !limits_codes. intros [K L] (M & S & E). unfold set_module.
  assert (LM : ac_limits (set_module m mean std) = ac_limits m) by (unfold set_module, ac_limits; destruct (ac_kind m); reflexivity).
  unfold set_module in LM. destruct K as [K|[K I]]; rewrite K in *; cbn [ac_observing ac_kind ac_scale ac_zero ac_lo ac_hi] in *; rewrite LM.
  - split; [reflexivity|]. split; [discriminate|]. now apply affine_exact.
  - rewrite I. split; [reflexivity|]. split; [auto|]. now apply affine_exact.
Qed.
Lemma inputs_lemma eps stats : forall stubs, length stats = length stubs ->
  Forall2 (fun st ms => exists mean std, st = Some (mean, std) /\ Forall can_set ms /\ Forall (stats_fit eps mean std) ms) stats stubs ->
  exists res, prepare_inputs stats stubs = Some res /\
    Forall2 (fun st ms => exists mean std, st = Some (mean, std) /\ Forall (has_stats eps mean std) ms) stats res /\
    map (@length acp) res = map (@length acp) stubs.
Proof.
  induction stats as [|st stats IH]; intros stubs L F; inversion F as [|? ms ? stubs' H F']; subst.
  - exists []. repeat split. constructor.
  - destruct H as (mean & std & -> & C & S). destruct (IH stubs' ltac:(cbn in L; lia) F') as (res & E & R & Q).
    exists (map (fun m => set_module m mean std) ms :: res). cbn [prepare_inputs]. rewrite E. split; [reflexivity|]. split.
    + constructor; [|exact R]. exists mean, std. split; [reflexivity|]. apply Forall_forall. intros x X. apply in_map_iff in X.
      destruct X as (m & <- & X). rewrite Forall_forall in C, S. apply set_module_lemma; auto.
    + cbn [map]. now rewrite map_length, Q.
Qed.

(** * Rescaling *)
Lemma rescale_mod_other qmin qmax st m f : ~ touches f m -> rescale_mod qmin qmax st m f = st f.
Proof.
  destruct m as [g|g [|]]; cbn; intros N; [|reflexivity|].
  - destruct ((qmin =? 0) && (qmax =? 65535))%Z; [|reflexivity]. unfold f_upd. destruct (f =? g) eqn:E; [apply Nat.eqb_eq in E; congruence|reflexivity].
  - destruct (q_obs (st g)); [|reflexivity]. unfold f_upd. destruct (f =? g) eqn:E; [apply Nat.eqb_eq in E; elim N; auto|reflexivity].
Qed.
Lemma rescale_other qmin qmax ms f : Forall (fun m => ~ touches f m) ms -> forall st, rescale qmin qmax ms st f = st f.
Proof.
  unfold rescale. induction 1 as [|m ms H F IH]; intros st; cbn [fold_left]; [reflexivity|]. rewrite IH. now apply rescale_mod_other.
Qed.
Lemma rescale_app qmin qmax a b st : rescale qmin qmax (a ++ b) st = rescale qmin qmax b (rescale qmin qmax a st).
Proof. unfold rescale. now rewrite fold_left_app. Qed.

Lemma range_lemma qmax before after f st : Forall (fun m => ~ touches f m) (before ++ after) -> q_obs (st f) = true ->
  q_min (st f) = 0%Z -> (0 < q_max (st f))%Z -> (0 < qmax)%Z ->
  (q_zero (st f) = 0%Z \/ ((2 * q_zero (st f) = q_max (st f) + 1)%Z /\ Z.even (qmax + 1) = true)) ->
  let p := rescale 0 qmax (before ++ RFq f false :: after) st f in
  lowest p = lowest (st f) /\ beyond p = beyond (st f) /\ q_min p = 0%Z /\ q_max p = qmax.
Proof.
  intros F O M X Q Z. apply Forall_app in F. destruct F as [F1 F2]. cbv zeta.
  rewrite rescale_app. change (RFq f false :: after) with ([RFq f false] ++ after). rewrite rescale_app, (rescale_other _ _ after f F2).
  assert (E : rescale 0 qmax before st f = st f) by now apply rescale_other.
  set (st1 := rescale 0 qmax before st) in *. unfold rescale. cbn [fold_left rescale_mod]. rewrite E, O.
  unfold f_upd. rewrite Nat.eqb_refl. unfold lowest, beyond. cbn [q_scale q_zero q_min q_max]. rewrite M. rewrite !Z.sub_0_r.
  assert (P1 : IZR (qmax + 1) <> 0) by (apply not_0_IZR; lia).
  destruct Z as [Z|[Z EV]].
  - rewrite Z. cbn [Z.eqb]. rewrite !Z.sub_0_r. repeat split; try (field; exact P1); cbn [Z.sub]; lra.
  - assert (NZ : (q_zero (st f) =? 0)%Z = false) by (apply Z.eqb_neq; lia). rewrite NZ.
    apply Z.even_spec in EV. destruct EV as [h EV]. rewrite EV. replace (2 * h / 2)%Z with h by (rewrite Z.mul_comm, Z.div_mul; lia).
    assert (H0 : IZR h <> 0) by (apply not_0_IZR; lia).
    replace (q_max (st f) + 1)%Z with (2 * q_zero (st f))%Z by exact Z.
    replace (2 * q_zero (st f) - q_zero (st f))%Z with (q_zero (st f)) by lia.
    replace (2 * h - h)%Z with h by lia. rewrite !minus_IZR, !mult_IZR.
    repeat split; field; exact H0.
Qed.
Lemma weights_lemma qmin qmax ms f st : (forall w, In (RFq f w) ms -> w = true) -> ~ In (RSig f) ms -> rescale qmin qmax ms st f = st f.
Proof.
  intros W S. apply rescale_other. apply Forall_forall. intros m H T. destruct m as [g|g w]; cbn in T.
  - now subst.
  - destruct T as [-> ->]. now apply W in H.
Qed.
Lemma sigmoid_lemma before between after f st : Forall (fun m => ~ touches f m) (before ++ between ++ after) -> q_obs (st f) = true ->
  q_scale (st f) = 1 / 256 -> q_zero (st f) = 0%Z -> q_min (st f) = 0%Z -> q_max (st f) = 255%Z ->
  rescale 0 65535 (before ++ RSig f :: between ++ RFq f false :: after) st f = mkFP (1 / 32768) 32768 0 65535 true.
Proof.
  intros F O S Z M X. apply Forall_app in F. destruct F as [F1 F]. apply Forall_app in F. destruct F as [F2 F3].
  rewrite rescale_app. change (RSig f :: between ++ RFq f false :: after) with ([RSig f] ++ between ++ [RFq f false] ++ after).
  rewrite !rescale_app, (rescale_other _ _ after f F3).
  set (st1 := rescale 0 65535 before st) in *. assert (E : st1 f = st f) by now apply rescale_other.
  set (st2 := rescale 0 65535 between (rescale 0 65535 [RSig f] st1)).
  assert (E2 : st2 f = mkFP (1 / 256 * 2) 32768 0 255 true).
  { subst st2. rewrite (rescale_other _ _ between f F2). change (rescale 0 65535 [RSig f] st1)
      with (f_upd st1 f (mkFP (q_scale (st1 f) * 2) 32768 (q_min (st1 f)) (q_max (st1 f)) (q_obs (st1 f)))). unfold f_upd.
    rewrite Nat.eqb_refl, E, S, M, X, O. reflexivity. }
  unfold rescale. cbn [fold_left rescale_mod]. rewrite E2. cbn [q_obs q_zero q_max q_min q_scale]. unfold f_upd. rewrite Nat.eqb_refl.
  change ((if (32768 =? 0)%Z then 0 else (65535 - 0 + 1) / 2)%Z) with 32768%Z.
  change (255 - 0 + 1)%Z with 256%Z. change (65535 - 0 + 1)%Z with 65536%Z. f_equal. lra.
Qed.

(** * Where it goes wrong *)
Definition stub : acp := mkA AObs (Some (0, 255)%Z) false true 1 0 0 0 true.
Lemma stub_can : can_set stub.
Proof. split; [left; reflexivity|]. cbn. lia. Qed.
Lemma none_lemma : exists stats stubs, length stats = length stubs /\ Forall (Forall can_set) stubs /\
  (forall mean std, In (Some (mean, std)) stats -> Forall (Forall (stats_fit 0 mean std)) stubs) /\ prepare_inputs stats stubs = None.
Proof.
  exists [Some (0%Z, 255); None], [[stub]; [stub]]. split; [reflexivity|]. split; [|split; [|reflexivity]].
  - repeat apply Forall_cons; try apply Forall_nil; exact stub_can.
  - intros mean std [E|[E|[]]]; inversion E; subst. repeat apply Forall_cons; try apply Forall_nil; repeat split; cbn; try lia; lra.
Qed.
Lemma symmetric_lemma : exists m mean std, can_set m /\ stats_fit 0 mean std m /\
  qparams_symmetric 0 (fst (torch_codes m)) (snd (torch_codes m)) 128 (ac_lo (set_module m mean std)) (ac_hi (set_module m mean std)) = (2 / 255, 128%Z) /\
  (2 / 255, 128%Z) <> (1 / std, mean).
Proof.
  exists stub, 0%Z, 255. split; [apply stub_can|]. split; [|split].
  - repeat split; cbn; try lia; lra.
  - assert (L : ac_lo (set_module stub 0 255) = 0) by (cbn; lra). assert (H : ac_hi (set_module stub 0 255) = 1) by (cbn; lra).
    rewrite L, H. cbn [torch_codes stub ac_range fst snd]. unfold qparams_symmetric. change (255 - 0)%Z with 255%Z. f_equal.
    rewrite (Rmin_left 0 0) by lra. rewrite (Rmax_left 1 0) by lra. rewrite (Rmax_right (- 0) 1) by lra. rewrite Rmax_left; lra.
  - intros E. inversion E.
Qed.
Lemma outside_lemma : exists m, can_set m /\ (torch_codes m = (0, 127))%Z /\
  let m' := set_module m 255 16 in
  qparams_affine 0 0 127 (ac_lo m') (ac_hi m') = (255 / 127 / 16, 127%Z) /\ (255 / 127 / 16, 127%Z) <> (1 / 16, 255%Z).
Proof.
  exists (mkA AObs None true true 1 0 0 0 true). split; [split; [now left|cbn; lia]|]. split; [reflexivity|]. cbv zeta. split.
  - cbn [ac_lo ac_hi set_module ac_kind torch_codes ac_range ac_reduce fst snd]. unfold qparams_affine.
    change (0 - 255)%Z with (-255)%Z. change (127 - 255)%Z with (-128)%Z. change (127 - 0)%Z with 127%Z.
    rewrite (Rmin_left (1 / 16 * -255)) by lra. rewrite (Rmax_right (1 / 16 * -128)) by lra.
    rewrite Rmax_left by lra. replace ((0 - 1 / 16 * -255) / 127) with (255 / 127 / 16) by lra. f_equal.
    replace (1 / 16 * -255 / (255 / 127 / 16)) with (IZR (-127)) by field. now rewrite rne_IZR.
  - intros E. inversion E.
Qed.
Definition q_one (p : fqp) : nat -> fqp := fun _ => p.
Lemma asym_lemma : exists st, q_obs (st 0%nat) = true /\ q_min (st 0%nat) = 0%Z /\ q_max (st 0%nat) = 255%Z /\ q_zero (st 0%nat) = 100%Z /\
  let p := rescale 0 65535 [RFq 0 false] st 0%nat in beyond p = 128 /\ beyond (st 0%nat) = 156.
Proof.
  exists (q_one (mkFP 1 100 0 255 true)). repeat split; unfold rescale, beyond; cbn; try lra.
Qed.
Lemma signed_lemma : exists st, q_obs (st 0%nat) = true /\ q_min (st 0%nat) = 0%Z /\ (2 * q_zero (st 0%nat) = q_max (st 0%nat) + 1)%Z /\
  let p := rescale (-32768) 32767 [RFq 0 false] st 0%nat in (q_max p < q_zero p)%Z.
Proof.
  exists (q_one (mkFP 1 128 0 255 true)). repeat split.
Qed.
Lemma shared_lemma : exists st, st 0%nat = mkFP (1 / 256) 0 0 255 true /\
  rescale 0 65535 [RSig 0; RFq 0 false; RSig 0] st 0%nat = mkFP (1 / 16384) 32768 0 65535 true.
Proof.
  exists (q_one (mkFP (1 / 256) 0 0 255 true)). split; [reflexivity|]. unfold rescale. cbn [fold_left rescale_mod Z.eqb andb q_one q_obs].
  unfold f_upd. cbn. f_equal. lra.
Qed.
