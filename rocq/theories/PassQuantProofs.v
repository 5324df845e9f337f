(** Proofs about the passes on QUANTIZE and DEQUANTIZE. *)
From Coq Require Import List Arith ZArith Bool Reals Lia Lra Psatz.
From Verif Require Import Tensor ConvSpec QuantSpec FuseModel EltSpec AtenEltProofs FuseMiscProofs PassQuantSpec PassQuantModel.
Import ListNotations.
Local Open Scope R_scope.

(* ------------------------------------------------------------------ *)
(** * Rounding *)

Lemma quant_mono lo hi s z x y : 0 < s -> x <= y -> (tflite_quant lo hi s z x <= tflite_quant lo hi s z y)%Z.
Proof.
  intros Hs H. unfold tflite_quant, clampZ.
  assert (Hxy : x / s <= y / s) by (apply Rmult_le_compat_r; [left; apply Rinv_0_lt_compat; exact Hs | exact H]).
  set (u := x / s) in *. set (v := y / s) in *.
  assert (Hr : (rha u <= rha v)%Z).
  { unfold rha. destruct (Rle_dec 0 u) as [Hu | Hu], (Rle_dec 0 v) as [Hv | Hv]; try lra.
    - pose proof (Int_part_bound (u + 1 / 2)) as B1. pose proof (Int_part_bound (v + 1 / 2)) as B2.
      assert (IZR (Int_part (u + 1 / 2)) < IZR (Int_part (v + 1 / 2) + 1)) by (rewrite plus_IZR; lra).
      apply lt_IZR in H0. lia.
    - pose proof (Int_part_bound (- u + 1 / 2)) as B1. pose proof (Int_part_bound (v + 1 / 2)) as B2.
      assert (IZR (- Int_part (- u + 1 / 2)) < IZR (Int_part (v + 1 / 2) + 1)) by (rewrite plus_IZR, opp_IZR; lra).
      apply lt_IZR in H0. lia.
    - pose proof (Int_part_bound (- u + 1 / 2)) as B1. pose proof (Int_part_bound (- v + 1 / 2)) as B2.
      assert (IZR (Int_part (- v + 1 / 2)) < IZR (Int_part (- u + 1 / 2) + 1)) by (rewrite plus_IZR; lra).
      apply lt_IZR in H0. lia. }
  lia.
Qed.

Lemma quant_deq q v : scaled q -> in_ity (qi_ty q) v ->
  tflite_quant (ity_lo (qi_ty q)) (ity_hi (qi_ty q)) (qi_s q) (qi_z q) (qi_s q * IZR (v - qi_z q)) = v.
Proof.
  intros Hs Hv. unfold tflite_quant.
  replace (qi_s q * IZR (v - qi_z q) / qi_s q) with (IZR (v - qi_z q)) by (field; unfold scaled in Hs; lra).
  rewrite rha_IZR. unfold clampZ, in_ity in *. lia.
Qed.

Lemma quant_in q x : in_ity (qi_ty q) (tflite_quant (ity_lo (qi_ty q)) (ity_hi (qi_ty q)) (qi_s q) (qi_z q) x).
Proof. unfold tflite_quant, clampZ, in_ity. destruct (qi_ty q); cbn; lia. Qed.

Lemma quant_deq_t q t : scaled q -> stored q t -> teq (quant_t q (deq_t q t)) t.
Proof.
  intros Hs Ht. split; [reflexivity |]. intros idx Hi. cbn in *. apply quant_deq; [exact Hs | apply Ht; exact Hi].
Qed.
Lemma quant_stored q t : stored q (quant_t q t).
Proof. intros idx _. cbn. apply quant_in. Qed.

Lemma deq_t_teq q t u : teq t u -> teq (deq_t q t) (deq_t q u).
Proof. intros [H1 H2]. split; [exact H1 |]. intros idx Hi. cbn in *. rewrite H2 by exact Hi. reflexivity. Qed.
Lemma quant_t_teq q t u : teq t u -> teq (quant_t q t) (quant_t q u).
Proof. intros [H1 H2]. split; [exact H1 |]. intros idx Hi. cbn in *. rewrite H2 by exact Hi. reflexivity. Qed.
Lemma teq_refl {A} (t : tensor A) : teq t t.
Proof. split; [reflexivity | intros; reflexivity]. Qed.
Lemma teq_sym' {A} (t u : tensor A) : teq t u -> teq u t.
Proof. intros [H1 H2]. split; [symmetry; exact H1 |]. intros idx Hi. symmetry. apply H2. rewrite H1. exact Hi. Qed.
Lemma teq_trans' {A} (t u v : tensor A) : teq t u -> teq u v -> teq t v.
Proof.
  intros [H1 H2] [H3 H4]. split; [congruence |]. intros idx Hi. rewrite H2 by exact Hi. apply H4. rewrite <- H1. exact Hi.
Qed.

(* ------------------------------------------------------------------ *)
(** * Which nodes are edited *)

Lemma ity_eqb_eq a b : ity_eqb a b = true <-> a = b.
Proof. destruct a, b; cbn; split; intro H; try discriminate; reflexivity. Qed.

Lemma far_near s c : far s c = false <-> near s c.
Proof. unfold far, near, dec2b. destruct (Rlt_dec _ _); split; intro H; try discriminate; try reflexivity; lra. Qed.
Lemma Reqb_eq a b : Reqb a b = true <-> a = b.
Proof. unfold Reqb, dec2b. destruct (Req_EM_T a b); split; intro H; try discriminate; try reflexivity; tauto. Qed.

Lemma skip_supported k q : skip_quant k q = false <-> supported k q.
Proof.
  destruct k; cbn [skip_quant supported];
    try (rewrite negb_false_iff, orb_true_iff, !ity_eqb_eq; reflexivity);
    try (rewrite negb_false_iff, ity_eqb_eq; reflexivity); try tauto.
  - destruct (qi_ty q); try tauto.
    + rewrite orb_false_iff, negb_false_iff, far_near, Z.eqb_eq. reflexivity.
    + rewrite orb_false_iff, negb_false_iff, far_near, Z.eqb_eq. reflexivity.
  - destruct (qi_ty q); try (rewrite orb_false_iff, !negb_false_iff, Reqb_eq, Z.eqb_eq; reflexivity).
    split; [discriminate | tauto].
Qed.

Definition deqs (l : list opnd) : list nat := concat (map (fun o => match o_src o with SDeq _ => [o_name o] | _ => [] end) l).
Definition other (o : opnd) : bool := match o_src o with SConst _ | SOther => true | _ => false end.
Lemma count_data l : (length (deqs l) + length (filter mapped l) + length (filter other l) = length l)%nat.
Proof.
  unfold deqs. induction l as [| o l IH]; [reflexivity |].
  cbn [map concat filter]. rewrite app_length. unfold mapped at 1, other at 1.
  destruct (o_src o); cbn [length]; lia.
Qed.
Lemma nodup_le l : (length (nodup Nat.eq_dec l) <= length l)%nat.
Proof. induction l as [| a l IH]; [reflexivity |]. cbn. destruct (in_dec _ _ _); cbn; lia. Qed.
Lemma nodup_full l : length (nodup Nat.eq_dec l) = length l -> NoDup l.
Proof.
  induction l as [| a l IH]; [constructor |]. cbn. pose proof (nodup_le l).
  destruct (in_dec Nat.eq_dec a l) as [H1 | H1]; cbn; intro H2; [lia |]. constructor; [exact H1 | apply IH; lia].
Qed.

Definition data_of (n : qnode) (ins : list opnd) : list opnd :=
  concat (map (fun i => match nth_error ins i with Some o => [o] | None => [] end) (input_indices (n_kind n) ins)).

(** the condition on the counts says: one reader, a usable QUANTIZE, and distinct dequantized or quantized operands *)
Lemma fold_entry k outs e : fold_left (fun e r => match r with
                        | RQuant q => if skip_quant k q then e else Some q
                        | _ => e
                        end) outs e =
  match fold_left (fun e r => match r with
                        | RQuant q => if skip_quant k q then e else Some q
                        | _ => e
                        end) outs None with Some q => Some q | None => e end.
Proof.
  revert e. induction outs as [| r outs IH]; intro e; [reflexivity |]. cbn [fold_left].
  destruct r as [q | |]; [destruct (skip_quant k q) | |]; try apply IH.
  rewrite (IH (Some q)). destruct (fold_left _ outs None); reflexivity.
Qed.
Lemma entry_cons k r outs : out_entry k (r :: outs) =
  match out_entry k outs with
  | Some q => Some q
  | None => match r with RQuant q => if skip_quant k q then None else Some q | _ => None end
  end.
Proof.
  unfold out_entry. cbn [fold_left]. rewrite fold_entry.
  destruct (fold_left _ outs None); [reflexivity |]. destruct r as [q | |]; [destruct (skip_quant k q) | |]; reflexivity.
Qed.
Lemma entry_none k outs : filter (fun r => negb (is_output r)) outs = [] -> out_entry k outs = None.
Proof.
  induction outs as [| r outs IH]; [reflexivity |]. rewrite entry_cons.
  destruct r; cbn [filter is_output negb]; intro H; try discriminate. rewrite (IH H). reflexivity.
Qed.
Lemma entry_single k outs q : length (filter (fun r => negb (is_output r)) outs) = 1%nat -> out_entry k outs = Some q ->
  filter (fun r => negb (is_output r)) outs = [RQuant q] /\ skip_quant k q = false.
Proof.
  induction outs as [| r outs IH]; [discriminate |]. rewrite entry_cons.
  destruct r as [p | |]; cbn [filter is_output negb length]; intros H1 H2.
  - assert (E : filter (fun r => negb (is_output r)) outs = []) by (apply length_zero_iff_nil; lia).
    rewrite (entry_none k outs E) in H2. rewrite E. destruct (skip_quant k p) eqn:E1; [discriminate |].
    injection H2 as ->. split; [reflexivity | exact E1].
  - assert (E : filter (fun r => negb (is_output r)) outs = []) by (apply length_zero_iff_nil; lia).
    rewrite (entry_none k outs E) in H2. discriminate.
  - apply IH; [exact H1 |]. destruct (out_entry k outs); [exact H2 | discriminate].
Qed.

Lemma counts k data outs :
  let next := filter (fun r => negb (is_output r)) outs in
  let cur := (length (deq_names data) + match out_entry k outs with Some _ => 1 | None => 0 end)%nat in
  ((length next =? 0) || (cur <? length data + length next - length (filter mapped data)))%nat = false ->
  exists q, out_entry k outs = Some q /\ next = [RQuant q] /\ supported k q /\ NoDup (deqs data) /\ filter other data = [].
Proof.
  intros next cur H. apply orb_false_iff in H. destruct H as [H1 H2].
  apply Nat.eqb_neq in H1. apply Nat.ltb_ge in H2.
  pose proof (count_data data) as C. pose proof (nodup_le (deqs data)) as L.
  change (deq_names data) with (nodup Nat.eq_dec (deqs data)) in cur.
  subst cur. destruct (out_entry k outs) as [q |] eqn:E.
  - assert (N : length next = 1%nat) by lia.
    destruct (entry_single k outs q N E) as [E1 E2].
    exists q. split; [reflexivity |]. split; [exact E1 |]. split; [apply skip_supported; exact E2 |].
    split; [apply nodup_full; lia |]. apply length_zero_iff_nil. lia.
  - exfalso. lia.
Qed.

Lemma filter_nil {A} (p : A -> bool) l : filter p l = [] -> forall x, In x l -> p x = false.
Proof.
  induction l as [| a l IH]; [intros _ x [] |]. cbn. destruct (p a) eqn:E; [discriminate |].
  intros H x [<- | Hx]; [exact E | apply IH; assumption].
Qed.

Lemma new_operands_some ix ins : forall i,
  (forall j o, nth_error ins j = Some o -> In (i + j)%nat ix -> other o = false) ->
  exists l, new_operands ix i ins = Some l /\ length l = length ins /\
    forall j o, nth_error ins j = Some o ->
      if existsb (Nat.eqb (i + j)) ix then nth_error l j = new_operand o else nth_error l j = Some NKeep.
Proof.
  induction ins as [| a ins IH]; intros i H.
  - exists []. split; [reflexivity |]. split; [reflexivity |]. intros [| j] o Ho; discriminate.
  - cbn [new_operands].
    assert (Ha : exists b, (if existsb (Nat.eqb i) ix then new_operand a else Some NKeep) = Some b).
    { destruct (existsb (Nat.eqb i) ix) eqn:E; [| eexists; reflexivity].
      apply existsb_exists in E. destruct E as [j [E1 E2]]. apply Nat.eqb_eq in E2. subst j.
      specialize (H 0%nat a eq_refl). rewrite Nat.add_0_r in H. specialize (H E1).
      unfold other in H. unfold new_operand. destruct (o_src a); try discriminate; eexists; reflexivity. }
    destruct Ha as [b Hb]. rewrite Hb. cbn [obind].
    destruct (IH (S i)) as [l [Hl [Hn Hj]]].
    { intros j o Ho Hin. apply (H (S j) o Ho). replace (i + S j)%nat with (S i + j)%nat by lia. exact Hin. }
    rewrite Hl. cbn [obind]. exists (b :: l). split; [reflexivity |]. split; [cbn; lia |].
    intros [| j] o Ho.
    + cbn in Ho. injection Ho as <-. rewrite Nat.add_0_r. cbn [nth_error].
      destruct (existsb (Nat.eqb i) ix); [symmetry; exact Hb | congruence].
    + cbn [nth_error] in *. specialize (Hj j o Ho). replace (i + S j)%nat with (S i + j)%nat by lia. exact Hj.
Qed.

Lemma in_data n ins j o : In j (input_indices (n_kind n) ins) -> nth_error ins j = Some o -> In o (data_of n ins).
Proof.
  intros Hj Ho. unfold data_of. apply in_concat. exists [o]. split; [| left; reflexivity].
  apply in_map_iff. exists j. rewrite Ho. split; [reflexivity | exact Hj].
Qed.


Lemma consts_total n : two_operands n -> quantize_consts (n_kind n) (n_ins n) = None -> stuck n.
Proof.
  intros H2 H. unfold quantize_consts in H.
  assert (HK : n_kind n = KMaximum \/ n_kind n = KMinimum) by (destruct (n_kind n); try discriminate; tauto).
  split; [exact HK |]. specialize (H2 HK).
  destruct (n_ins n) as [| a [| b [| c l]]]; try discriminate.
  assert (E : match o_src b with
         | SConst c => match o_src a with
                       | SDeq q => Some [a; mkO (o_name b) (o_shape b) (SMapped q (quantize_const q c))]
                       | _ => None
                       end
         | _ => Some [a; b]
         end = None) by (destruct HK as [E | E]; rewrite E in H; exact H).
  destruct (o_src b) as [| c | |] eqn:Eb; try discriminate.
  exists a, b, c. split; [reflexivity |]. split; [exact Eb |].
  intros q Hq. rewrite Hq in E. discriminate.
Qed.

Lemma passthrough_total n : two_operands n -> (passthrough n = None <-> stuck n).
Proof.
  intro H2. split.
  - intro H. apply (consts_total n H2). unfold passthrough in H.
    destruct (quantize_consts (n_kind n) (n_ins n)) as [ins |] eqn:E; [| reflexivity].
    exfalso. cbn [obind] in H. destruct (_ || _)%nat eqn:EC in H; [discriminate |].
    apply counts in EC. destruct EC as [q [E1 [_ [_ [_ E5]]]]].
    destruct (new_operands_some (input_indices (n_kind n) ins) ins 0) as [l [Hl _]].
    { intros j o Ho Hin. apply (filter_nil _ _ E5). apply (in_data n ins j o); assumption. }
    rewrite Hl in H. cbn [obind] in H. rewrite E1 in H. discriminate.
  - intros [HK [a [b [c [Hi [Hb Ha]]]]]]. unfold passthrough, quantize_consts. rewrite Hi.
    destruct HK as [-> | ->]; rewrite Hb; destruct (o_src a) as [q | | |] eqn:Ea; try reflexivity; exfalso; exact (Ha q eq_refl).
Qed.

(** what is known of an edited node *)
Lemma edited n l q : passthrough n = Some (Some (l, q)) ->
  exists ins, quantize_consts (n_kind n) (n_ins n) = Some ins /\
    filter (fun r => negb (is_output r)) (n_outs n) = [RQuant q] /\ supported (n_kind n) q /\
    NoDup (deqs (data_of n ins)) /\ length l = length ins /\
    (forall j o, nth_error ins j = Some o ->
       if existsb (Nat.eqb j) (input_indices (n_kind n) ins)
       then nth_error l j = new_operand o /\ new_operand o <> None
       else nth_error l j = Some NKeep).
Proof.
  unfold passthrough. intro H.
  destruct (quantize_consts (n_kind n) (n_ins n)) as [ins |] eqn:E; [| discriminate].
  cbn [obind] in H. destruct (_ || _)%nat eqn:EC in H; [discriminate |].
  apply counts in EC. destruct EC as [q' [E1 [E2 [E3 [E4 E5]]]]].
  destruct (new_operands_some (input_indices (n_kind n) ins) ins 0) as [l' [Hl [Hn Hj]]].
  { intros j o Ho Hin. apply (filter_nil _ _ E5). apply (in_data n ins j o); assumption. }
  rewrite Hl in H. cbn [obind] in H. rewrite E1 in H. cbn [obind] in H.
  assert (l' = l) by congruence. assert (q' = q) by congruence. subst l' q'.
  exists ins. split; [reflexivity |]. split; [exact E2 |]. split; [exact E3 |]. split; [exact E4 |].
  split; [exact Hn |]. intros j o Ho. specialize (Hj j o Ho). cbn [Nat.add] in Hj.
  destruct (existsb (Nat.eqb j) (input_indices (n_kind n) ins)) eqn:E6; [| exact Hj].
  split; [exact Hj |]. apply existsb_exists in E6. destruct E6 as [i [E6 E7]]. apply Nat.eqb_eq in E7. subst i.
  pose proof (filter_nil _ _ E5 o (in_data n ins j o E6 Ho)) as HO.
  unfold other in HO. unfold new_operand. destruct (o_src o); try discriminate; intro X; discriminate.
Qed.

(* ------------------------------------------------------------------ *)
(** * Values *)


Lemma is_one_false sh : sh <> [1%nat] -> is_one sh = false.
Proof. intro H. destruct sh as [| [| [| x]] [| y l]]; try reflexivity. congruence. Qed.

Lemma covered_all n : ~ comparison (n_kind n) -> covered n ->
  forall j o, nth_error (n_ins n) j = Some o -> existsb (Nat.eqb j) (input_indices (n_kind n) (n_ins n)) = true.
Proof.
  intros HK HC j o Ho. unfold covered in HC. unfold comparison in HK.
  destruct (n_kind n) eqn:EK; destruct (n_ins n) as [| a [| b [| c l]]]; try tauto;
    cbn [input_indices];
    try (match type of HC with _ /\ _ => idtac end; destruct HC as [H1 H2]; rewrite (is_one_false _ H1), (is_one_false _ H2));
    destruct j as [| [| [| j]]]; cbn in Ho; try discriminate; reflexivity.
Qed.

(** the quantized operands denote the float ones *)
Lemma operands_denote xs fs ty : forall ins l,
  length l = length ins ->
  (forall j o, nth_error ins j = Some o -> nth_error l j = new_operand o /\ new_operand o <> None) ->
  (forall o, In o ins -> match o_src o with SDeq p | SMapped p _ => qi_ty p = ty | _ => True end) ->
  (forall o, In o ins -> match o_src o with
    | SDeq q => scaled q /\ stored q (xs (o_name o))
    | SMapped q c => scaled q /\ stored q c
    | _ => True
    end) ->
  exists m, all_q ty (new_values xs fs ins l) = Some m /\
    Forall2 teq (map (fun x => deq_t (fst x) (snd x)) m) (map (fvalue xs fs) ins).
Proof.
  induction ins as [| o ins IH]; intros l Hl Hj Ht Hs.
  - destruct l; [| discriminate]. exists []. split; [reflexivity | constructor].
  - destruct l as [| a l]; [discriminate |].
    destruct (IH l) as [m [Hm Hf]].
    { cbn in Hl. lia. }
    { intros j o' Ho'. exact (Hj (S j) o' Ho'). }
    { intros o' Ho'. apply Ht. right. exact Ho'. }
    { intros o' Ho'. apply Hs. right. exact Ho'. }
    destruct (Hj 0%nat o eq_refl) as [H1 H2]. cbn in H1.
    specialize (Ht o (or_introl eq_refl)). specialize (Hs o (or_introl eq_refl)).
    unfold new_values. cbn [combine map fst snd]. fold (new_values xs fs ins l).
    unfold new_operand in H1, H2. destruct (o_src o) as [q | c | q c |] eqn:Eo; try congruence.
    + assert (a = NQuant q) by congruence. subst a. cbn [new_value all_q].
      rewrite (proj2 (ity_eqb_eq _ _) Ht). rewrite Hm. cbn [option_map].
      eexists. split; [reflexivity |]. cbn [map fst snd]. constructor; [| exact Hf].
      unfold fvalue. rewrite Eo. apply deq_t_teq. apply quant_deq_t; apply Hs.
    + assert (a = NConst q c) by congruence. subst a. cbn [new_value all_q].
      rewrite (proj2 (ity_eqb_eq _ _) Ht). rewrite Hm. cbn [option_map].
      eexists. split; [reflexivity |]. cbn [map fst snd]. constructor; [| exact Hf].
      unfold fvalue. rewrite Eo. apply teq_refl.
Qed.

Lemma passthrough_value f n l q xs fs y :
  passthrough n = Some (Some (l, q)) -> ~ comparison (n_kind n) -> covered n -> one_type n (qi_ty q) ->
  respects f -> scaled q -> stored_ins n xs -> float_result f n xs fs = Some y ->
  exists y', new_result f n l q xs fs = Some y' /\ teq (quant_t q y') (quant_t q y).
Proof.
  intros HP HK HC HT HR HQ HS HY. destruct (edited n l q HP) as [ins [E1 [_ [_ [_ [E5 E6]]]]]].
  assert (ins = n_ins n).
  { unfold quantize_consts in E1. unfold comparison in HK. destruct (n_kind n); try congruence; exfalso; tauto. }
  subst ins.
  destruct (operands_denote xs fs (qi_ty q) (n_ins n) l E5) as [m [Hm Hf]].
  { intros j o Ho. specialize (E6 j o Ho). rewrite (covered_all n HK HC j o Ho) in E6. exact E6. }
  { exact HT. }
  { exact HS. }
  unfold new_result, tfl_kernel. rewrite Hm.
  assert (HY' : f (map (fvalue xs fs) (n_ins n)) = Some y).
  { unfold float_result, fmeaning in HY. unfold comparison in HK. destruct (n_kind n); try exact HY; exfalso; tauto. }
  specialize (HR _ _ Hf). rewrite HY' in HR.
  destruct (f (map (fun x => deq_t (fst x) (snd x)) m)) as [z |] eqn:Ez; [| contradiction].
  assert (G : match n_kind n with
              | KMaximum => match m with [x; y0] => binop Z.max (snd x) (snd y0) | _ => None end
              | KMinimum => match m with [x; y0] => binop Z.min (snd x) (snd y0) | _ => None end
              | _ => option_map (quant_t q) (Some z)
              end = Some (quant_t q z)).
  { unfold comparison in HK. destruct (n_kind n); try reflexivity; exfalso; tauto. }
  destruct (n_kind n); try (exfalso; unfold comparison in HK; tauto);
    cbn [option_map]; (exists (deq_t q (quant_t q z)); split; [reflexivity |];
      apply (teq_trans' _ (quant_t q z));
      [apply quant_deq_t; [exact HQ | apply quant_stored] | apply quant_t_teq; exact HR]).
Qed.

(** ** Comparisons *)




Lemma within_teq t u : within 0 t u -> teq t u.
Proof. intros [H1 H2]. split; [exact H1 |]. intros idx Hi. specialize (H2 idx Hi). lia. Qed.
Lemma teq_within d t u : (0 <= d)%Z -> teq t u -> within d t u.
Proof. intros Hd [H1 H2]. split; [exact H1 |]. intros idx Hi. rewrite H2 by exact Hi. lia. Qed.

Lemma quantize_const_close q c : within 1 (quantize_const q c) (quant_t q c) /\ stored q (quantize_const q c).
Proof.
  assert (HT : (ity_lo (qi_ty q) <= ity_hi (qi_ty q))%Z) by (destruct (qi_ty q); cbn; lia).
  split.
  - split; [reflexivity |]. intros idx Hi. cbn. set (u := tget c idx / qi_s q) in *.
    assert (E : (Z.abs (rne (u + IZR (qi_z q)) - (qi_z q + rha u)) <= 1)%Z).
    { pose proof (rne_half (u + IZR (qi_z q))) as B1. pose proof (rha_half u) as B2.
      apply Rabs_between in B1. apply Rabs_between in B2.
      assert (IZR (rne (u + IZR (qi_z q))) < IZR (qi_z q + rha u + 2)) by (rewrite !plus_IZR; lra).
      assert (IZR (qi_z q + rha u) < IZR (rne (u + IZR (qi_z q)) + 2)) by (rewrite !plus_IZR; lra).
      apply lt_IZR in H. apply lt_IZR in H0. lia. }
    set (v := rne (u + IZR (qi_z q))) in *. unfold tflite_quant. fold u. unfold clampZ.
    destruct (Z.ltb_spec (ity_hi (qi_ty q)) v);
      match goal with |- context [(?a <? ity_lo (qi_ty q))%Z] => destruct (Z.ltb_spec a (ity_lo (qi_ty q))) end; lia.
  - intros idx Hi. cbn. set (v := rne _). unfold in_ity.
    destruct (Z.ltb_spec (ity_hi (qi_ty q)) v);
      match goal with |- context [(?a <? ity_lo (qi_ty q))%Z] => destruct (Z.ltb_spec a (ity_lo (qi_ty q))) end; lia.
Qed.

Lemma quantize_const_quant q c : scaled q -> no_tie q c -> teq (quantize_const q c) (quant_t q c).
Proof.
  intros Hs Ht. split; [reflexivity |]. intros idx Hi. specialize (Ht idx Hi). cbn.
  set (u := tget c idx / qi_s q) in *.
  assert (E : rne (u + IZR (qi_z q)) = (qi_z q + rha u)%Z).
  { apply rne_unique. rewrite plus_IZR.
    replace (u + IZR (qi_z q) - (IZR (qi_z q) + IZR (rha u))) with (u - IZR (rha u)) by ring.
    pose proof (rha_half u) as B. destruct (Rle_lt_or_eq_dec _ _ B) as [H | H]; [exact H |]. exfalso.
    unfold Rabs in H. destruct (Rcase_abs _) in H.
    - apply (Ht (rha u - 1)%Z). rewrite minus_IZR. lra.
    - apply (Ht (rha u)). lra. }
  rewrite E. unfold tflite_quant. fold u. unfold clampZ.
  assert (ity_lo (qi_ty q) <= ity_hi (qi_ty q))%Z by (destruct (qi_ty q); cbn; lia).
  destruct (Z.ltb_spec (ity_hi (qi_ty q)) (qi_z q + rha u)).
  - destruct (Z.ltb_spec (ity_hi (qi_ty q)) (ity_lo (qi_ty q))); lia.
  - destruct (Z.ltb_spec (qi_z q + rha u) (ity_lo (qi_ty q))); lia.
Qed.

Definition cmpR (k : kind) : R -> R -> R := match k with KMaximum => Rmax | _ => Rmin end.
Definition cmpZ (k : kind) : Z -> Z -> Z := match k with KMaximum => Z.max | _ => Z.min end.

Lemma quant_cmp k q x y : scaled q ->
  tflite_quant (ity_lo (qi_ty q)) (ity_hi (qi_ty q)) (qi_s q) (qi_z q) (cmpR k x y) =
  cmpZ k (tflite_quant (ity_lo (qi_ty q)) (ity_hi (qi_ty q)) (qi_s q) (qi_z q) x)
         (tflite_quant (ity_lo (qi_ty q)) (ity_hi (qi_ty q)) (qi_s q) (qi_z q) y).
Proof.
  intro Hs. unfold cmpR, cmpZ.
  destruct (Rle_dec x y) as [H | H].
  - pose proof (quant_mono (ity_lo (qi_ty q)) (ity_hi (qi_ty q)) (qi_s q) (qi_z q) x y Hs H).
    destruct k; rewrite ?(Rmax_right x y H), ?(Rmin_left x y H); lia.
  - assert (H' : y <= x) by lra.
    pose proof (quant_mono (ity_lo (qi_ty q)) (ity_hi (qi_ty q)) (qi_s q) (qi_z q) y x Hs H').
    destruct k; rewrite ?(Rmax_left x y H'), ?(Rmin_right x y H'); lia.
Qed.

Lemma compare_kernel d k q v1 v2 x1 x2 y : scaled q -> stored q x1 -> stored q x2 ->
  within d x1 (quant_t q v1) -> within d x2 (quant_t q v2) -> binop (cmpR k) v1 v2 = Some y ->
  exists z, binop (cmpZ k) x1 x2 = Some z /\ within d (quant_t q (deq_t q z)) (quant_t q y).
Proof.
  intros Hs S1 S2 [A1 B1] [A2 B2] HY. cbn in A1, A2. unfold binop in *. rewrite A1, A2.
  destruct (bshape (tshape v1) (tshape v2)) as [s |] eqn:Eb; [| discriminate].
  assert (EY : y = mkT s (fun idx => cmpR k (tget v1 (bidx (tshape v1) idx)) (tget v2 (bidx (tshape v2) idx)))) by congruence.
  eexists. split; [reflexivity |]. split; [subst y; reflexivity |]. subst y.
  intros idx Hi. cbn [quant_t deq_t tshape tget] in *.
  destruct (bidx_valid _ _ _ _ Eb Hi) as [V1 V2].
  rewrite <- A1 in V1. rewrite <- A2 in V2. specialize (B1 _ V1). specialize (B2 _ V2).
  specialize (S1 _ V1). specialize (S2 _ V2). rewrite A1 in B1, S1. rewrite A2 in B2, S2.
  cbn [quant_t tget] in B1, B2. rewrite quant_cmp by exact Hs. rewrite quant_deq.
  - unfold cmpZ. destruct k; lia.
  - exact Hs.
  - unfold in_ity, cmpZ in *. destruct k; lia.
Qed.


Lemma passthrough_compare d f n l q xs fs y a b :
  passthrough n = Some (Some (l, q)) -> comparison (n_kind n) -> n_ins n = [a; b] ->
  same_params q a -> same_params q b ->
  d = 1%Z \/ d = 0%Z /\ (forall c, o_src b = SConst c -> no_tie q c) ->
  scaled q -> stored_ins n xs -> float_result f n xs fs = Some y ->
  exists y', new_result f n l q xs fs = Some y' /\ within d (quant_t q y') (quant_t q y).
Proof.
  intros HP HK HI HA HB HD HQ HS HY. destruct (edited n l q HP) as [ins [E1 [_ [_ [_ [E5 E6]]]]]].
  assert (IX : forall i, input_indices (n_kind n) i = [0; 1]%nat) by (intro i; destruct HK as [-> | ->]; reflexivity).
  rewrite IX in E6.
  assert (HC : exists b', ins = [a; b'] /\ (o_src b' = o_src b \/
            exists c p, o_src b = SConst c /\ o_src a = SDeq p /\ o_src b' = SMapped p (quantize_const p c))).
  { assert (E1' : match o_src b with
                  | SConst c => match o_src a with
                                | SDeq q => Some [a; mkO (o_name b) (o_shape b) (SMapped q (quantize_const q c))]
                                | _ => None
                                end
                  | _ => Some [a; b]
                  end = Some ins) by (rewrite HI in E1; destruct HK as [E | E]; rewrite E in E1; exact E1).
    destruct (o_src b) as [| c | |] eqn:Eb.
    - exists b. split; [congruence | left; exact Eb].
    - destruct (o_src a) as [p | | |] eqn:Ea; try discriminate.
      eexists. split; [symmetry; injection E1' as <-; reflexivity |]. right. exists c, p. cbn. auto.
    - exists b. split; [congruence | left; exact Eb].
    - exists b. split; [congruence | left; exact Eb]. }
  destruct HC as [b' [-> HB']]. destruct l as [| a1 [| b1 [| ? ?]]]; try discriminate.
  destruct (E6 0%nat a eq_refl) as [Ea Na]. destruct (E6 1%nat b' eq_refl) as [Eb Nb]. cbn in Ea, Eb.
  assert (HY' : binop (cmpR (n_kind n)) (fvalue xs fs a) (fvalue xs fs b) = Some y).
  { unfold float_result in HY. rewrite HI in HY. destruct HK as [E | E]; rewrite E in HY |- *; exact HY. }
  assert (Hd0 : (0 <= d)%Z) by lia.
  assert (SA := HS a). assert (SB := HS b). rewrite HI in SA, SB.
  specialize (SA (or_introl eq_refl)). specialize (SB (or_intror (or_introl eq_refl))).
  assert (K1 : exists x1, new_value xs fs a a1 = VQ q x1 /\ stored q x1 /\ within d x1 (quant_t q (fvalue xs fs a))).
  { unfold new_operand in Ea, Na. unfold same_params in HA. unfold fvalue.
    destruct (o_src a) as [p | c | p c |] eqn:E; try congruence.
    - subst p. assert (a1 = NQuant q) by congruence. subst a1. eexists. split; [reflexivity |]. split; [apply quant_stored |].
      unfold fvalue. rewrite E. apply teq_within; [exact Hd0 | apply teq_refl].
    - subst p. assert (a1 = NConst q c) by congruence. subst a1. eexists. split; [reflexivity |]. split; [apply SA |].
      apply teq_within; [exact Hd0 |]. apply teq_sym'. apply quant_deq_t; apply SA. }
  assert (K2 : exists x2, new_value xs fs b b1 = VQ q x2 /\ stored q x2 /\ within d x2 (quant_t q (fvalue xs fs b))).
  { unfold new_operand in Eb, Nb. unfold same_params in HB. unfold fvalue.
    destruct HB' as [HB' | [c [p [H1 [H2 H3]]]]].
    - rewrite HB' in Eb, Nb. destruct (o_src b) as [p | c | p c |] eqn:E; try congruence.
      + subst p. assert (b1 = NQuant q) by congruence. subst b1. eexists. split; [reflexivity |]. split; [apply quant_stored |].
        unfold fvalue. rewrite E. apply teq_within; [exact Hd0 | apply teq_refl].
      + subst p. assert (b1 = NConst q c) by congruence. subst b1. eexists. split; [reflexivity |]. split; [apply SB |].
        apply teq_within; [exact Hd0 |]. apply teq_sym'. apply quant_deq_t; apply SB.
    - rewrite H3 in Eb. unfold same_params in HA. rewrite H2 in HA. subst p.
      assert (b1 = NConst q (quantize_const q c)) by congruence. subst b1.
      eexists. split; [reflexivity |]. split; [apply quantize_const_close |].
      rewrite H1. destruct HD as [-> | [-> HD]]; [apply quantize_const_close |].
      apply teq_within; [lia |]. apply quantize_const_quant; [exact HQ | apply HD; exact H1]. }
  destruct K1 as [x1 [V1 [S1 W1]]]. destruct K2 as [x2 [V2 [S2 W2]]].
  destruct (compare_kernel d (n_kind n) q _ _ x1 x2 y HQ S1 S2 W1 W2 HY') as [z [Hz Wz]].
  exists (deq_t q z). split; [| exact Wz].
  unfold new_result, tfl_kernel, new_values. rewrite HI. cbn [combine map fst snd]. rewrite V1, V2. cbn [all_q].
  rewrite (proj2 (ity_eqb_eq _ _) eq_refl). cbn [option_map].
  destruct HK as [E | E]; rewrite E in *; cbn [snd]; unfold cmpZ in Hz; rewrite Hz; reflexivity.
Qed.

(* ------------------------------------------------------------------ *)
(** * Chains of QUANTIZE and DEQUANTIZE *)

Lemma requant_pair p q t v : chain_value [Deq p; Quant None q] (VQ p t) = Some v ->
  exists w, chain_value [Quant (Some p) q] (VQ p t) = Some w /\ same_value v w.
Proof.
  cbn. intro H. injection H as <-. eexists. split; [reflexivity |]. cbn. split; [reflexivity |].
  split; [reflexivity |]. intros idx _. cbn. unfold tflite_quant, requantize. rewrite Z.add_comm. reflexivity.
Qed.


Lemma pairs_value n p t : scaled p -> stored p t ->
  exists u, chain_value (pairs n p) (VQ p t) = Some (VQ p u) /\ teq u t.
Proof.
  intros Hs. revert t. induction n as [| n IH]; intros t Ht; cbn [pairs].
  - exists t. split; [reflexivity | apply teq_refl].
  - destruct (IH (quant_t p (deq_t p t)) (quant_stored _ _)) as [u [H1 H2]].
    exists u. split; [exact H1 |]. apply (teq_trans' _ _ _ H2). apply quant_deq_t; assumption.
Qed.

Lemma pairs_last n q : exists r, rev (pairs (S n) q) = Quant None q :: r.
Proof.
  induction n as [| n [r IH]]; [eexists; reflexivity |].
  change (pairs (S (S n)) q) with ([Deq q; Quant None q] ++ pairs (S n) q). rewrite rev_app_distr, IH.
  eexists. reflexivity.
Qed.
Lemma mid_last n p q : exists r, rev (Deq p :: Quant None q :: pairs n q) = Quant None q :: r.
Proof.
  destruct n as [| n]; [eexists; reflexivity |].
  change (Deq p :: Quant None q :: pairs (S n) q) with ([Deq p; Quant None q] ++ pairs (S n) q). rewrite rev_app_distr.
  destruct (pairs_last n q) as [r ->]. eexists. reflexivity.
Qed.

Lemma chain_app c d v : chain_value (c ++ d) v = match chain_value c v with Some w => chain_value d w | None => None end.
Proof. revert v. induction c as [| s c IH]; intro v; [reflexivity |]. cbn. destruct (step_value s v); [apply IH | reflexivity]. Qed.


Lemma trim_mid p q n pre post : before_ok p pre -> after_ok q post ->
  let mid := Deq p :: Quant None q :: pairs n q in
  trim false (pre ++ mid ++ post) = (pre, mid, post).
Proof.
  intros Hp Hq mid. destruct (mid_last n p q) as [r Hr]. fold mid in Hr.
  assert (E : match rev (mid ++ post) with
              | s :: r => if Bool.eqb (is_quant s) false then (pre, rev r, [s]) else (pre, mid ++ post, [])
              | [] => (pre, mid ++ post, [])
              end = (pre, mid, post)).
  { destruct Hq as [-> | ->].
    - rewrite app_nil_r, Hr. reflexivity.
    - rewrite rev_app_distr. cbn [rev app is_quant Bool.eqb]. rewrite rev_involutive. reflexivity. }
  destruct Hp as [-> | [s ->]]; exact E.
Qed.

Lemma fuse_mid p q n : fuse_cut (Deq p :: Quant None q :: pairs n q) =
  Some (if Reqb (qi_s q) (qi_s p) && (qi_z q =? qi_z p)%Z then [] else [Quant (Some p) q]).
Proof. unfold fuse_cut. destruct (mid_last n p q) as [r ->]. reflexivity. Qed.

Lemma requant_stored d s1 z1 s2 z2 v : in_ity d (requantize d s1 z1 s2 z2 v).
Proof. unfold requantize, clampZ, in_ity. destruct d; cbn; lia. Qed.

Lemma fuse_value p q n pre post v r :
  before_ok p pre -> after_ok q post -> scaled p -> scaled q -> start_ok p pre v ->
  (qi_s p = qi_s q -> qi_z p = qi_z q -> qi_ty p = qi_ty q) ->
  let c := pre ++ (Deq p :: Quant None q :: pairs n q) ++ post in
  chain_value c v = Some r ->
  exists c' r', fuse_dequant_quant false c = Some c' /\ chain_value c' v = Some r' /\ same_value r r' /\
    (length c' <= 3)%nat.
Proof.
  intros Hb Ha Sp Sq Hv Hty c Hr. unfold c in *. clear c.
  unfold fuse_dequant_quant. rewrite (trim_mid p q n pre post Hb Ha).
  change (length (Deq p :: Quant None q :: pairs n q) <? 2)%nat with false. cbv iota.
  rewrite fuse_mid. cbn [obind].
  (* the value in front of the pairs *)
  rewrite chain_app in Hr. destruct (chain_value pre v) as [w |] eqn:Ew; [| discriminate].
  assert (HW : exists t, w = VQ p t /\ stored p t).
  { destruct Hb as [-> | [s ->]].
    - cbn in Ew. injection Ew as <-. apply Hv. reflexivity.
    - cbn in Ew. destruct s as [s |]; destruct v as [t | p' t]; try discriminate; injection Ew as <-;
        eexists; (split; [reflexivity |]); [intros idx _; apply requant_stored | apply quant_stored]. }
  destruct HW as [t [-> Ht]]. rewrite chain_app in Hr.
  change (Deq p :: Quant None q :: pairs n q) with ([Deq p; Quant None q] ++ pairs n q) in Hr.
  rewrite chain_app in Hr. cbn [chain_value step_value] in Hr.
  destruct (pairs_value n q (quant_t q (deq_t p t)) Sq (quant_stored _ _)) as [u [Hu1 Hu2]].
  rewrite Hu1 in Hr.
  (* what is left of the pairs gives an equal value *)
  assert (HM : exists u', chain_value (if Reqb (qi_s q) (qi_s p) && (qi_z q =? qi_z p)%Z then [] else [Quant (Some p) q]) (VQ p t)
                 = Some (VQ q u') /\ teq u u').
  { destruct (Reqb (qi_s q) (qi_s p) && (qi_z q =? qi_z p)%Z) eqn:E.
    - apply andb_true_iff in E. destruct E as [E1 E2]. apply Reqb_eq in E1. apply Z.eqb_eq in E2.
      assert (p = q) by (destruct p, q; cbn in *; f_equal; auto). subst q.
      exists t. split; [reflexivity |]. apply (teq_trans' _ _ _ Hu2). apply quant_deq_t; assumption.
    - destruct (requant_pair p q t _ eq_refl) as [w [H1 H2]]. rewrite H1.
      destruct w as [w | q' w]; cbn in H2; [contradiction |]. destruct H2 as [<- H2].
      exists w. split; [reflexivity |]. apply (teq_trans' _ _ _ Hu2 H2). }
  destruct HM as [u' [HM1 HM2]].
  set (left := if Reqb (qi_s q) (qi_s p) && (qi_z q =? qi_z p)%Z then [] else [Quant (Some p) q]) in *.
  assert (Hlen : (length (pre ++ left ++ post) <= 3)%nat).
  { assert (length left <= 1)%nat by (unfold left; destruct (_ && _); cbn; lia).
    rewrite !app_length. destruct Hb as [-> | [s ->]], Ha as [-> | ->]; cbn; lia. }
  destruct Ha as [-> | ->].
  - cbn in Hr. injection Hr as <-.
    exists (pre ++ left ++ []), (VQ q u'). split; [reflexivity |].
    rewrite chain_app, Ew, app_nil_r. split; [exact HM1 |]. split; [split; [reflexivity | exact HM2] |].
    rewrite app_nil_r in Hlen. exact Hlen.
  - cbn in Hr. injection Hr as <-.
    exists (pre ++ left ++ [Deq q]), (VF (deq_t q u')). split; [reflexivity |].
    rewrite chain_app, Ew, chain_app, HM1. split; [reflexivity |]. split; [| exact Hlen].
    cbn. apply deq_t_teq. exact HM2.
Qed.

(* ------------------------------------------------------------------ *)
(** * Statements for the properties *)

Lemma selected n l q : passthrough n = Some (Some (l, q)) ->
  filter (fun r => match r with ROutput => false | _ => true end) (n_outs n) = [RQuant q] /\ supported (n_kind n) q /\
  (covered n -> forall o, In o (n_ins n) ->
     (exists p, o_src o = SDeq p) \/ (exists p c, o_src o = SMapped p c) \/ (comparison (n_kind n) /\ exists c, o_src o = SConst c)).
Proof.
  intro HP. destruct (edited n l q HP) as [ins [E1 [E2 [E3 [E4 [E5 E6]]]]]].
  split.
  { rewrite <- E2. apply filter_ext. intros []; reflexivity. }
  split; [exact E3 |]. intros HC o Ho.
  assert (DC : comparison (n_kind n) \/ ~ comparison (n_kind n)) by (unfold comparison; destruct (n_kind n); (left; tauto) || (right; intros [? | ?]; discriminate)).
  destruct DC as [HK | HK].
  - destruct (o_src o) as [p | c | p c |] eqn:Eo; eauto 6.
    exfalso.
    assert (IX : forall i, input_indices (n_kind n) i = [0; 1]%nat) by (intro i; destruct HK as [-> | ->]; reflexivity).
    rewrite IX in E6. unfold covered in HC.
    assert (HI : exists a b, n_ins n = [a; b]).
    { destruct (n_ins n) as [| a [| b [| c r]]]; destruct HK as [HK | HK]; rewrite HK in HC; try contradiction; eauto. }
    destruct HI as [a [b HI]]. rewrite HI in *.
    assert (E1' : match o_src b with
                  | SConst c => match o_src a with
                                | SDeq q => Some [a; mkO (o_name b) (o_shape b) (SMapped q (quantize_const q c))]
                                | _ => None
                                end
                  | _ => Some [a; b]
                  end = Some ins) by (destruct HK as [E | E]; rewrite E in E1; exact E1).
    destruct Ho as [<- | [<- | []]].
    + destruct (o_src b) as [| c | |] eqn:Eb; [| rewrite Eo in E1'; discriminate | |];
        (assert (ins = [a; b]) by congruence; subst ins;
         destruct (E6 0%nat a eq_refl) as [_ N]; unfold new_operand in N; rewrite Eo in N; congruence).
    + rewrite Eo in E1'. assert (ins = [a; b]) by congruence. subst ins.
      destruct (E6 1%nat b eq_refl) as [_ N]. unfold new_operand in N. rewrite Eo in N. congruence.
  - assert (ins = n_ins n).
    { unfold quantize_consts in E1. unfold comparison in HK. destruct (n_kind n); try congruence; exfalso; tauto. }
    subst ins. apply In_nth_error in Ho. destruct Ho as [j Hj]. specialize (E6 j o Hj).
    rewrite (covered_all n HK HC j o Hj) in E6. destruct E6 as [_ N]. unfold new_operand in N.
    destruct (o_src o) as [p | c | p c |]; try congruence; eauto.
Qed.

Lemma compare_exact f n l q xs fs y a b :
  passthrough n = Some (Some (l, q)) -> comparison (n_kind n) -> n_ins n = [a; b] ->
  same_params q a -> same_params q b -> (forall c, o_src b = SConst c -> no_tie q c) ->
  scaled q -> stored_ins n xs -> float_result f n xs fs = Some y ->
  exists y', new_result f n l q xs fs = Some y' /\ teq (quant_t q y') (quant_t q y).
Proof.
  intros H1 H2 H3 H4 H5 H6 H7 H8 H9.
  destruct (passthrough_compare 0 f n l q xs fs y a b H1 H2 H3 H4 H5 (or_intror (conj eq_refl H6)) H7 H8 H9) as [y' [A B]].
  exists y'. split; [exact A | apply within_teq; exact B].
Qed.
Lemma compare_close f n l q xs fs y a b :
  passthrough n = Some (Some (l, q)) -> comparison (n_kind n) -> n_ins n = [a; b] ->
  same_params q a -> same_params q b ->
  scaled q -> stored_ins n xs -> float_result f n xs fs = Some y ->
  exists y', new_result f n l q xs fs = Some y' /\ within 1 (quant_t q y') (quant_t q y).
Proof.
  intros H1 H2 H3 H4 H5 H7 H8 H9.
  exact (passthrough_compare 1 f n l q xs fs y a b H1 H2 H3 H4 H5 (or_introl eq_refl) H7 H8 H9).
Qed.

(* ------------------------------------------------------------------ *)
(** * Witnesses *)

Ltac rha_is n := match goal with |- context [rha ?x] => replace (rha x) with n by (symmetry; unfold rha; destruct (Rle_dec 0 x) as [? | ?]; [| exfalso; lra]; apply Int_part_unique; lra) end.

Definition w_a : opnd := mkO 0 [2%nat] (SDeq (mkQI S8 1 0)).
Definition w_b : opnd := mkO 1 [2%nat] (SDeq (mkQI S8 2 0)).
Definition w_x (k : nat) : tensor Z := mkT [2%nat] (fun _ => match k with O => 10%Z | _ => 8%Z end).

Lemma scales_refuted : exists n l q xs,
  passthrough n = Some (Some (l, q)) /\ n_kind n = KMaximum /\ scaled q /\ stored_ins n xs /\ one_type n (qi_ty q) /\
  forall f fs, exists y y', float_result f n xs fs = Some y /\ new_result f n l q xs fs = Some y' /\
    tget (quant_t q y) [0%nat] = 8%Z /\ tget (quant_t q y') [0%nat] = 10%Z.
Proof.
  exists (mkN KMaximum [w_a; w_b] [RQuant (mkQI S8 2 0)]), [NQuant (mkQI S8 1 0); NQuant (mkQI S8 2 0)], (mkQI S8 2 0), w_x.
  split; [reflexivity |]. split; [reflexivity |]. split; [unfold scaled; cbn; lra |]. split.
  { intros o [<- | [<- | []]]; cbn; (split; [unfold scaled; cbn; lra |]); intros idx _; unfold in_ity; cbn; lia. }
  split; [intros o [<- | [<- | []]]; reflexivity |].
  intros f fs. do 2 eexists. split; [reflexivity |]. split; [reflexivity |]. split.
  - cbn. unfold tflite_quant.
    replace (Rmax (1 * 10) (2 * 8) / 2) with 8 by (rewrite Rmax_right by lra; lra). rewrite (rha_IZR 8). reflexivity.
  - cbn. unfold tflite_quant.
    replace (1 * 10 / 1) with 10 by lra. replace (2 * 8 / 2) with 8 by lra. rewrite (rha_IZR 10), (rha_IZR 8).
    change (IZR (Z.max (clampZ (-128) 127 (0 + 10)) (clampZ (-128) 127 (0 + 8)) - 0)) with 10.
    replace (2 * 10 / 2) with 10 by lra.
    rewrite (rha_IZR 10). reflexivity.
Qed.

Lemma scalar_div_rejected : exists n l q, passthrough n = Some (Some (l, q)) /\ n_kind n = KDiv /\ supported KDiv q /\
  (exists a b c, n_ins n = [a; b] /\ o_src b = SConst c /\ tshape c = [1%nat]) /\
  (forall f xs fs, new_result f n l q xs fs = None).
Proof.
  exists (mkN KDiv [mkO 0 [2%nat] (SDeq (mkQI U8 1 0)); mkO 1 [1%nat] (SConst (mkT [1%nat] (fun _ => 2)))] [RQuant (mkQI U8 1 0)]),
         [NQuant (mkQI U8 1 0); NKeep], (mkQI U8 1 0).
  split; [reflexivity |]. split; [reflexivity |]. split; [reflexivity |]. split.
  { do 3 eexists. split; [reflexivity |]. split; reflexivity. }
  intros f xs fs. reflexivity.
Qed.

Lemma output_refuted : exists n l q xs,
  passthrough n = Some (Some (l, q)) /\ n_kind n = KAbs /\ covered n /\ one_type n (qi_ty q) /\ scaled q /\ stored_ins n xs /\
  In ROutput (n_outs n) /\
  let f := fun l => option_map (tmap Rabs) (hd_error l) in
  forall fs, exists y y', float_result f n xs fs = Some y /\ new_result f n l q xs fs = Some y' /\
    tget y [0%nat] = 3 /\ tget y' [0%nat] = 4.
Proof.
  exists (mkN KAbs [w_a] [ROutput; RQuant (mkQI S8 2 0)]), [NQuant (mkQI S8 1 0)], (mkQI S8 2 0),
         (fun _ => mkT [2%nat] (fun _ => (-3)%Z)).
  split; [reflexivity |]. split; [reflexivity |]. split; [exact I |].
  split; [intros o [<- | []]; reflexivity |]. split; [unfold scaled; cbn; lra |]. split.
  { intros o [<- | []]. cbn. split; [unfold scaled; cbn; lra |]. intros idx _; unfold in_ity; cbn; lia. }
  split; [left; reflexivity |]. intros f fs. do 2 eexists. split; [reflexivity |]. split; [reflexivity |]. split.
  - cbn. unfold Rabs. destruct (Rcase_abs _); lra.
  - cbn. unfold tflite_quant. replace (1 * -3 / 1) with (-3) by lra. rewrite (rha_IZR (-3)).
    change (IZR (clampZ (-128) 127 (0 + -3) - 0)) with (-3).
    replace (Rabs (1 * -3) / 2) with (3 / 2) by (unfold Rabs; destruct (Rcase_abs _); lra).
    rha_is 2%Z. change (IZR (clampZ (-128) 127 (0 + 2) - 0)) with 2. lra.
Qed.

Lemma tie_refuted : exists n l q xs,
  passthrough n = Some (Some (l, q)) /\ n_kind n = KMaximum /\ scaled q /\ stored_ins n xs /\
  (exists a b, n_ins n = [a; b] /\ same_params q a /\ same_params q b) /\
  forall f fs, exists y y', float_result f n xs fs = Some y /\ new_result f n l q xs fs = Some y' /\
    tget (quant_t q y) [0%nat] = 1%Z /\ tget (quant_t q y') [0%nat] = 0%Z.
Proof.
  exists (mkN KMaximum [w_a; mkO 1 [1%nat] (SConst (mkT [1%nat] (fun _ => 1 / 2)))] [RQuant (mkQI S8 1 0)]).
  eexists. exists (mkQI S8 1 0), (fun _ => mkT [2%nat] (fun _ => (-3)%Z)).
  split; [reflexivity |]. split; [reflexivity |]. split; [unfold scaled; cbn; lra |]. split.
  { intros o [<- | [<- | []]]; cbn; [| exact I]. split; [unfold scaled; cbn; lra |]. intros idx _; unfold in_ity; cbn; lia. }
  split; [do 2 eexists; split; [reflexivity |]; split; [reflexivity | exact I] |].
  intros f fs. do 2 eexists. split; [reflexivity |]. split; [reflexivity |]. split.
  - cbn. unfold tflite_quant. replace (Rmax (1 * -3) (1 / 2) / 1) with (1 / 2) by (rewrite Rmax_right by lra; lra).
    rha_is 1%Z. reflexivity.
  - cbn. unfold tflite_quant.
    replace (rne (1 / 2 / 1 + 0)) with 0%Z.
    2:{ unfold rne. rewrite (Int_part_unique _ 0) by lra. destruct (Rlt_dec _ _); [lra |]. destruct (Rlt_dec _ _); [lra |]. reflexivity. }
    replace (1 * -3 / 1) with (-3) by lra. rewrite (rha_IZR (-3)). cbn [Z.ltb Z.compare].
    change (Z.max (clampZ (-128) 127 (0 + -3)) 0 - 0)%Z with 0%Z.
    replace (1 * 0 / 1) with 0 by lra. rewrite (rha_IZR 0). reflexivity.
Qed.

(** chains *)
Lemma middle_refuted : exists p m v r, scaled p /\ scaled m /\ qi_ty p = qi_ty m /\
  let c := [Deq p; Quant None m; Deq m; Quant None p] in
  (exists t, v = VQ p t /\ stored p t) /\ chain_value c v = Some r /\
  fuse_dequant_quant false c = Some [] /\ ~ same_value r v.
Proof.
  exists (mkQI S8 1 0), (mkQI S8 2 0), (VQ (mkQI S8 1 0) (mkT [1%nat] (fun _ => 1%Z))). eexists.
  split; [unfold scaled; cbn; lra |]. split; [unfold scaled; cbn; lra |]. split; [reflexivity |]. cbv zeta.
  split; [eexists; split; [reflexivity |]; intros idx _; unfold in_ity; cbn; lia |].
  split; [reflexivity |]. split.
  - unfold fuse_dequant_quant. cbn. rewrite (proj2 (Reqb_eq 1 1) eq_refl). reflexivity.
  - cbn. intros [_ [_ H]]. specialize (H [0%nat]). cbn in H. unfold tflite_quant in H.
    replace (1 * 1 / 2) with (1 / 2) in H by lra.
    assert (E : rha (1 / 2) = 1%Z) by (unfold rha; destruct (Rle_dec 0 (1 / 2)); [apply Int_part_unique; lra | lra]).
    rewrite E in H. change (clampZ (-128) 127 (0 + 1) - 0)%Z with 1%Z in H.
    replace (2 * 1 / 1) with 2 in H by lra. rewrite (rha_IZR 2) in H.
    assert (V : valid [1%nat] [0%nat]) by (repeat constructor). specialize (H V). discriminate.
Qed.

Lemma type_refuted : exists p q v r, scaled p /\ scaled q /\
  (exists t, v = VQ p t /\ stored p t) /\ chain_value [Deq p; Quant None q] v = Some r /\
  fuse_dequant_quant false [Deq p; Quant None q] = Some [] /\ ~ same_value r v.
Proof.
  exists (mkQI U8 1 0), (mkQI S8 1 0), (VQ (mkQI U8 1 0) (mkT [1%nat] (fun _ => 200%Z))). eexists.
  split; [unfold scaled; cbn; lra |]. split; [unfold scaled; cbn; lra |].
  split; [eexists; split; [reflexivity |]; intros idx _; unfold in_ity; cbn; lia |].
  split; [reflexivity |]. split.
  - unfold fuse_dequant_quant. cbn. rewrite (proj2 (Reqb_eq 1 1) eq_refl). reflexivity.
  - cbn. intros [H _]. discriminate.
Qed.

Lemma quant_first_refuted : exists p v r, scaled p /\
  chain_value [Quant None p; Deq p] v = Some r /\ fuse_dequant_quant true [Quant None p; Deq p] = Some [] /\ ~ same_value r v.
Proof.
  exists (mkQI S8 1 0), (VF (mkT [1%nat] (fun _ => 1 / 4))). eexists.
  split; [unfold scaled; cbn; lra |]. split; [reflexivity |]. split; [reflexivity |].
  cbn. intros [_ H]. specialize (H [0%nat]). cbn in H. unfold tflite_quant in H.
  replace (1 / 4 / 1) with (1 / 4) in H by lra.
  assert (E : rha (1 / 4) = 0%Z) by (unfold rha; destruct (Rle_dec 0 (1 / 4)); [apply Int_part_unique; lra | lra]).
  rewrite E in H. change (IZR (clampZ (-128) 127 (0 + 0) - 0)) with 0 in H.
  assert (V : valid [1%nat] [0%nat]) by (repeat constructor). specialize (H V). lra.
Qed.

Lemma requant_raises p q : qi_s p <> qi_s q \/ qi_z p <> qi_z q ->
  exists c, fuse_dequant_quant false [Deq p; Quant None q; Deq q] = Some c /\ fuse_dequant_quant true c = None.
Proof.
  intro H. exists [Quant (Some p) q; Deq q]. split; [| reflexivity].
  unfold fuse_dequant_quant. cbn.
  destruct (Reqb (qi_s q) (qi_s p)) eqn:E1; [| reflexivity]. apply Reqb_eq in E1.
  destruct (Z.eqb_spec (qi_z q) (qi_z p)); [| reflexivity]. exfalso. destruct H as [H | H]; congruence.
Qed.
