(** Proofs about the files and the inputs of the converter. *)
From Coq Require Import String List Arith Bool ZArith Lia.
From Verif Require Import CfgModel CfgSpec.
Import ListNotations.

(** * Paths *)
Lemma prefix_app p s : prefix p s = true -> exists r, s = (p ++ r)%string.
Proof.
  revert s. induction p as [|c p IH]; intros s H; [exists s; reflexivity|]. destruct s as [|d s]; [discriminate|].
  cbn [prefix] in H. destruct (Ascii.ascii_dec c d) as [->|]; [|discriminate]. destruct (IH s H) as (r & ->). now exists r.
Qed.
Lemma replace_once new base : ~ has ".pt" base -> replace_all ".pt" new (base ++ ".pt") = (base ++ new)%string.
Proof.
  unfold replace_all. intros H. induction base as [|c base IH].
  - cbn. now induction new as [|a new IHn]; [|cbn; f_equal].
  - assert (N : ~ has ".pt" base) by (intros (a & b & E); apply H; exists (String c a), b; rewrite E; reflexivity).
    specialize (IH N). change (String c base ++ ".pt")%string with (String c (base ++ ".pt")). cbn [replace_from].
    destruct (prefix ".pt" (String c (base ++ ".pt"))) eqn:P; [|rewrite IH; reflexivity].
    exfalso. apply prefix_app in P. destruct P as (r & P). cbn [append] in P. injection P as -> P.
    destruct base as [|d base]; [discriminate P|]. cbn [append] in P. injection P as -> P.
    destruct base as [|e base]; [discriminate P|]. cbn [append] in P. injection P as -> P.
    apply H. exists ""%string, base. reflexivity.
Qed.

(** * Flags *)
Lemma config_flags ts : forall fs wf, List.length ts = List.length fs ->
  map ce_trans (tensor_config ts fs wf) = map (fun p => own (fst p) (snd p)) (combine fs ts).
Proof.
  induction ts as [|t ts IH]; intros [|f fs] wf L; try discriminate; [reflexivity|]. unfold tensor_config in *. cbn [combine map fst snd ce_trans]. f_equal.
  apply IH. now injection L.
Qed.
Lemma config_repeat f ts wf : forall n, List.length ts <= n -> map ce_trans (tensor_config ts (repeat f n) wf) = map (own f) ts.
Proof.
  induction ts as [|t ts IH]; intros n L; [reflexivity|]. destruct n as [|n]; [cbn in L; lia|]. unfold tensor_config in *.
  cbn [repeat combine map fst snd ce_trans]. f_equal. apply IH. cbn in L. lia.
Qed.
Lemma config_length ts fs wf : List.length ts <= List.length fs -> List.length (tensor_config ts fs wf) = List.length ts.
Proof. intros L. unfold tensor_config. rewrite map_length, combine_length. lia. Qed.
Lemma some_flags (l : list (option bool)) flags : Forall2 (fun f b => f = Some b) l flags -> forallb is_some l = true /\ l = map Some flags.
Proof. induction 1 as [|f b l flags -> F [A B]]; [now split|]. cbn. rewrite A. split; [reflexivity|now rewrite B]. Qed.
Lemma own_some flags ts : List.length flags = List.length ts -> map (fun p => own (fst p) (snd p)) (combine (map Some flags) ts) = flags.
Proof.
  revert ts. induction flags as [|b flags IH]; intros [|t ts] L; try discriminate; [reflexivity|]. cbn. f_equal. apply IH. now injection L.
Qed.
(** the flags that are used *)
Lemma arg_asked a ts flags times : asked a ts flags -> (match a with TOne _ => List.length ts <= times | _ => True end) ->
  exists fs, arg_flags a (List.length ts) times = Some fs /\ List.length ts <= List.length fs /\
    forall wf, map ce_trans (tensor_config ts fs wf) = flags.
Proof.
  assert (L : forall l, Forall2 (fun f b => f = Some b) l flags /\ List.length l = List.length ts ->
    (if (List.length l =? List.length ts) && forallb is_some l then Some l else None) = Some l /\ List.length ts <= List.length l /\
    forall wf, map ce_trans (tensor_config ts l wf) = flags).
  { intros l [F L]. destruct (some_flags _ _ F) as [A ->]. rewrite A, L, Nat.eqb_refl. split; [reflexivity|]. split; [lia|].
    intros wf. rewrite config_flags by auto. apply own_some. now rewrite map_length in L. }
  destruct a as [l|l|f]; cbn [asked arg_flags]; intros A T; [exists l; now apply L|exists l; now apply L|].
  exists (repeat f times). split; [reflexivity|]. split; [rewrite repeat_length; lia|]. intros wf. rewrite A. now apply config_repeat.
Qed.

(** * Zeros *)
Lemma four (s : list nat) : List.length s = 4 -> exists a b c d, s = [a; b; c; d].
Proof. destruct s as [|a [|b [|c [|d [|]]]]]; try discriminate. intros _. now exists a, b, c, d. Qed.
Lemma parse_inputs ts : forall fs, List.length ts <= List.length fs ->
  Forall (fun t => match c_dt t with DExt _ => False | _ => True end) ts ->
  Forall2 (fun t (b : bool) => b = true -> List.length (c_shape t) = 4) ts (map ce_trans (tensor_config ts fs true)) ->
  exists arrs zs, all_of (map input_array (tensor_config ts fs true)) = Some arrs /\
    all_of (map to_torch (combine arrs (map ce_trans (tensor_config ts fs true)))) = Some zs /\ Forall2 zeros_like ts zs.
Proof.
  induction ts as [|t ts IH]; intros [|f fs] L D F; cbn in L; try lia.
  - exists [], []. repeat split. constructor.
  - exists [], []. repeat split. constructor.
  - inversion D as [|? ? D1 D2]; subst. unfold tensor_config in *. cbn [combine map fst snd ce_trans] in F |- *. inversion F as [|? ? ? ? F1 F2]; subst.
    destruct (IH fs ltac:(lia) D2 F2) as (arrs & zs & A & Z & Q).
    assert (X : exists n, type_name (c_dt t) = TNp n /\ DNp n = match c_dt t with DQ n => DNp n | d => d end)
      by (destruct (c_dt t) as [n|n|n]; [now exists n|now exists n|destruct D1]).
    destruct X as (n & X1 & X2). unfold input_array at 1. cbn [ce_shape ce_type ce_trans]. rewrite X1.
    destruct (match f with Some b => b | None => _ end) eqn:E.
    + destruct (four _ (F1 eq_refl)) as (a & b & c & d & S). rewrite S. cbn [permute c_shape List.length Nat.eqb all_of map].
      rewrite A. eexists. eexists. split; [reflexivity|]. cbn [combine map to_torch snd fst permute c_shape List.length Nat.eqb nth all_of]. rewrite Z.
      split; [reflexivity|]. constructor; [|exact Q]. split; [now rewrite S|]. split; [exact X2|reflexivity].
    + cbn [all_of]. rewrite A. eexists. eexists. split; [reflexivity|]. cbn [combine map to_torch snd fst all_of]. rewrite Z. split; [reflexivity|].
      constructor; [|exact Q]. split; [reflexivity|]. split; [exact X2|reflexivity].
Qed.
Lemma tensors_flat os ts : tensors_of os ts -> ts = flat_outs os.
Proof. unfold flat_outs. induction 1; cbn [flat_map app]; congruence. Qed.
Lemma written_name t : written t (type_name (c_dt t)).
Proof. unfold written. now destruct (c_dt t). Qed.
Lemma round_trip_lemma ins os ts it ot base fi fo : tensors_of os ts -> ~ has ".pt" base -> usable it ins -> asked it ins fi -> asked ot ts fo ->
  (match ot with TOne _ => List.length ts <= List.length ins | _ => True end) ->
  exists c zs, export_files ins os it ot (base ++ ".pt") = Some ((base ++ ".json")%string, c) /\
    parse_config c true = Some ((base ++ ".pt")%string, (base ++ ".tflite")%string, fi, zs, fo) /\ Forall2 zeros_like ins zs /\
    Forall2 (fun t e => written t (ce_type e)) ts (cf_outs c).
Proof.
  intros TS B [D U] AI AO L. apply tensors_flat in TS. subst ts. unfold export_files, generate_config.
  destruct (arg_asked it ins fi (List.length ins) AI) as (gi & I1 & I2 & I3); [destruct it; auto|].
  destruct (arg_asked ot (flat_outs os) fo (List.length ins) AO) as (go & O1 & O2 & O3); [exact L|].
  rewrite I1, O1, !replace_once by exact B.
  specialize (U fi AI). destruct (parse_inputs ins gi I2 D) as (arrs & zs & A & Z & Q); [now rewrite I3|].
  eexists. exists zs. split; [reflexivity|]. split; [|split; [exact Q|]].
  - cbn [parse_config cf_ins cf_src cf_dst cf_outs]. rewrite A, Z, I3, O3. reflexivity.
  - cbn [cf_outs]. unfold tensor_config.
    clear -O2. revert go O2. generalize (flat_outs os) as ts. induction ts as [|t ts IH]; intros [|g go] O2; cbn in O2; try lia; [constructor|constructor|].
    cbn [combine map]. constructor; [apply written_name|]. apply IH. lia.
Qed.
Lemma reject_lemma ins os ts it ot export : tensors_of os ts ->
  (forall fi, ~ asked it ins fi) \/ (forall fo, ~ asked ot ts fo) -> export_files ins os it ot export = None.
Proof.
  intros TS. apply tensors_flat in TS. subst ts.
  assert (R : forall a ts n, (forall fl, ~ asked a ts fl) -> arg_flags a (List.length ts) n = None).
  { intros a ts n H.
    assert (L : forall l, (forall fl : list bool, ~ (Forall2 (fun (f : option bool) b => f = Some b) l fl /\ List.length l = List.length ts)) ->
      (if (List.length l =? List.length ts) && forallb is_some l then Some l else None) = None).
    { intros l N. destruct (List.length l =? List.length ts) eqn:E; [|reflexivity]. apply Nat.eqb_eq in E. cbn [andb].
      destruct (forallb is_some l) eqn:S; [|reflexivity]. elim (N (map (fun f => match f with Some b => b | None => false end) l)). split; [|exact E].
      clear -S. induction l as [|[b|] l IH]; cbn in S; [constructor| |discriminate]. constructor; [reflexivity|now apply IH]. }
    destruct a as [l|l|f]; cbn [arg_flags]; [now apply L|now apply L|]. elim (H (map (own f) ts)). reflexivity. }
  unfold export_files, generate_config. intros [H|H]; rewrite (R _ _ _ H); [reflexivity|]. now destruct (arg_flags it _ _).
Qed.

(** * Counterexamples *)
Definition img (n : nat) : cten := mkCT [1; n; 8; 8] (DNp 0) (fun i => Z.of_nat (nth 1 i 0)).
Definition vec (n : nat) : cten := mkCT [1; n] (DNp 0) (fun i => Z.of_nat (nth 1 i 0)).
Lemma has_dec_pt s : (fix go s := match s with EmptyString => false | String _ r => prefix ".pt" s || go r end) s = false -> ~ has ".pt" s.
Proof.
  intros H (a & b & ->). induction a as [|c a IH].
  - destruct b; vm_compute in H; discriminate H.
  - cbn [append] in H. apply orb_false_iff in H. apply IH. exact (proj2 H).
Qed.
Lemma outputs_lemma : exists ins os ts base fi fo c zs fo', tensors_of os ts /\
  ~ has ".pt" base /\ usable (TOne None) ins /\ asked (TOne None) ins fi /\ asked (TOne None) ts fo /\
  export_files ins os (TOne None) (TOne None) (base ++ ".pt") = Some ((base ++ ".json")%string, c) /\
  parse_config c true = Some ((base ++ ".pt")%string, (base ++ ".tflite")%string, fi, zs, fo') /\ List.length fo' < List.length fo.
Proof.
  exists [img 3], [IT (vec 10); IL [img 4; vec 2]], [vec 10; img 4; vec 2], "out/net"%string, [true], [false; true; false]. eexists. eexists. exists [false].
  split; [constructor; change [img 4; vec 2] with ([img 4; vec 2] ++ []) at 2; repeat constructor|]. split; [apply has_dec_pt; reflexivity|]. split; [split; [repeat constructor|]|].
  { intros fl E. cbn in E. rewrite E. repeat constructor. }
  split; [reflexivity|]. split; [reflexivity|]. split; [vm_compute; reflexivity|]. split; [vm_compute; reflexivity|]. cbn. lia.
Qed.
Lemma directory_lemma : exists dir name c, has ".pt" dir /\ ~ has ".pt" name /\
  export_files [vec 3] [IT (vec 2)] (TOne None) (TOne None) (dir ++ "/" ++ name ++ ".pt") = Some ("/w/net.jsonq/m.json"%string, c) /\ dir = "/w/net.ptq"%string /\ name = "m"%string.
Proof.
  exists "/w/net.ptq"%string, "m"%string. eexists. split; [exists "/w/net"%string, "q"%string; reflexivity|]. split; [apply has_dec_pt; reflexivity|].
  split; [vm_compute; reflexivity|]. split; reflexivity.
Qed.
Lemma unprepared_lemma : exists ins os base c r, export_files ins os (TOne None) (TOne None) (base ++ ".pt") = Some ((base ++ ".json")%string, c) /\
  parse_config c true = Some r /\ parse_config c false = None.
Proof.
  exists [img 3], [IT (vec 10)], "net"%string. eexists. eexists. split; [vm_compute; reflexivity|]. split; [vm_compute; reflexivity|reflexivity].
Qed.

(** * The converter *)
Lemma fill_open tup ts : forall l, List.length l = List.length ts -> (tup = true -> forallb is_some l = true) ->
  fill_flags tup (map IT ts) l = Some (map Some (map (fun p => own (fst p) (snd p)) (combine l ts))).
Proof.
  induction ts as [|t ts IH]; intros [|f l] L S; try discriminate; [reflexivity|]. cbn [map fill_flags combine fst snd].
  assert (X : tup && negb (is_some f) = false) by (destruct tup; [specialize (S eq_refl); cbn in S; destruct f; [reflexivity|discriminate]|reflexivity]).
  rewrite X, IH; [destruct f; reflexivity|now injection L|intros T; specialize (S T); cbn in S; now apply andb_true_iff in S].
Qed.
Lemma repeat_own f ts : map (fun p => own (fst p) (snd p)) (combine (repeat f (List.length ts)) ts) = map (own f) ts.
Proof. induction ts as [|t ts IH]; [reflexivity|]. cbn. now f_equal. Qed.
Lemma flags_lemma ds ts a flags : flat_inputs ds = map IT ts -> asked_open a ts flags ->
  (match a with TTup l => forallb is_some l = true | _ => True end) ->
  exists a', init_transpose a (flat_inputs ds) = Some (map Some flags, a').
Proof.
  intros D A T. rewrite D. destruct a as [l|l|f]; cbn [asked_open init_transpose] in *.
  - destruct A as [L ->]. rewrite fill_open by (auto; discriminate). eauto.
  - destruct A as [L ->]. rewrite fill_open by auto. eauto.
  - rewrite map_length, fill_open by (rewrite ?repeat_length; auto; discriminate). rewrite repeat_own, A. eauto.
Qed.
Lemma last_lemma t : List.length (c_shape t) = 4 -> exists a, permute [0; 2; 3; 1] t = Some a /\ channels_last t a.
Proof.
  intros L. destruct (four _ L) as (n & c & h & w & S). unfold permute. rewrite L. cbn [List.length Nat.eqb].
  eexists. split; [reflexivity|]. exists n, c, h, w. split; [exact S|]. cbn [c_shape c_dt c_at]. rewrite S. split; [reflexivity|]. split; reflexivity.
Qed.
Lemma arrays_lemma ts : forall flags, Forall2 (fun t (b : bool) => b = true -> List.length (c_shape t) = 4) ts flags ->
  exists arrs, inputs_for_tflite (map IT ts) (map Some flags) = Some arrs /\
    Forall2 (fun (p : cten * bool) x => if snd p then channels_last (fst p) x else x = fst p) (combine ts flags) arrs.
Proof.
  unfold inputs_for_tflite. induction 1 as [|t b ts flags H F (arrs & E & Q)]; [exists []; split; [reflexivity|constructor]|].
  cbn [map combine]. destruct b.
  - destruct (last_lemma t (H eq_refl)) as (a & P & C). rewrite P. cbn [all_of]. rewrite E. exists (a :: arrs). split; [reflexivity|]. constructor; [exact C|exact Q].
  - cbn [all_of]. rewrite E. exists (t :: arrs). split; [reflexivity|]. constructor; [reflexivity|exact Q].
Qed.
Lemma inputs_lemma ts a flags : asked_open a ts flags -> (match a with TTup l => forallb is_some l = true | _ => True end) ->
  Forall2 (fun t (b : bool) => b = true -> List.length (c_shape t) = 4) ts flags ->
  exists fl a' arrs, init_transpose a (flat_inputs (map IT ts)) = Some (fl, a') /\ inputs_for_tflite (map IT ts) fl = Some arrs /\
    Forall2 (fun (p : cten * bool) x => if snd p then channels_last (fst p) x else x = fst p) (combine ts flags) arrs.
Proof.
  intros A T F.
  assert (D : flat_inputs (map IT ts) = map IT ts) by (clear; unfold flat_inputs; induction ts as [|t ts IH]; [reflexivity|cbn; now f_equal]).
  destruct (flags_lemma (map IT ts) ts a flags D A T) as (a' & E). destruct (arrays_lemma ts flags F) as (arrs & X & Y).
  exists (map Some flags), a', arrs. auto.
Qed.
Lemma nested_lemma : exists ds ts flags, flat_inputs ds = map IT ts /\ asked_open (TOne None) ts flags /\
  Forall2 (fun t (b : bool) => b = true -> List.length (c_shape t) = 4) ts flags /\
  inputs_for_tflite ds (map Some flags) = None /\ dump_flags ds (map Some flags) = None.
Proof.
  exists [IT (vec 3); IL [img 3; vec 4]], [vec 3; img 3; vec 4], [false; true; false]. split; [reflexivity|]. split; [reflexivity|].
  split; [repeat constructor; discriminate|]. split; reflexivity.
Qed.
Lemma reuse_lemma : exists l ts ts' fl a' fl' a'' flags', init_transpose (TList l) (map IT ts) = Some (fl, a') /\
  asked_open (TList l) ts' flags' /\ init_transpose a' (map IT ts') = Some (fl', a'') /\ fl' <> map Some flags'.
Proof.
  exists [None], [img 3], [vec 3], [Some true], (TList [Some true]), [Some true], (TList [Some true]), [false].
  split; [reflexivity|]. split; [split; reflexivity|]. split; [reflexivity|discriminate].
Qed.
Lemma tuple_lemma : exists l ts flags, asked_open (TTup l) ts flags /\ init_transpose (TTup l) (map IT ts) = None /\
  exists a', init_transpose (TList l) (map IT ts) = Some (map Some flags, a').
Proof.
  exists [Some false; None], [img 3; vec 3], [false; false]. split; [split; reflexivity|]. split; [reflexivity|]. eexists. reflexivity.
Qed.
