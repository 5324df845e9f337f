(** C146, C147: the files for the converter and the inputs of the converter. *)
From Coq Require Import String List Arith Bool ZArith.
From Verif Require Import CfgModel CfgSpec CfgProofs.
Import ListNotations.

(** What [export_converter_files] writes, [parse_config] reads: the paths, the flags that were asked for, and zeros
    of the shapes and types of the inputs. *)
Theorem C146_round_trip_partial :
  forall ins os ts it ot base fi fo, tensors_of os ts -> ~ has ".pt" base -> usable it ins -> asked it ins fi -> asked ot ts fo ->
  (match ot with TOne _ => List.length ts <= List.length ins | _ => True end) ->
  exists c zs, export_files ins os it ot (base ++ ".pt") = Some ((base ++ ".json")%string, c) /\
    parse_config c true = Some ((base ++ ".pt")%string, (base ++ ".tflite")%string, fi, zs, fo) /\ Forall2 zeros_like ins zs /\
    Forall2 (fun t e => written t (ce_type e)) ts (cf_outs c).
Proof. exact round_trip_lemma. Qed.
Print Assumptions C146_round_trip_partial.
Example C146_round_trip_partial_example :
  let ins := [img 3; mkCT [1; 5] (DQ 7) (fun _ => 1%Z)] in let os := [IL [vec 2; img 4]] in
  tensors_of os [vec 2; img 4] /\ ~ has ".pt" "out/net" /\ usable (TOne None) ins /\ asked (TOne None) ins [true; false] /\ asked (TList [Some false; Some false]) [vec 2; img 4] [false; false] /\
  match export_files ins os (TOne None) (TList [Some false; Some false]) "out/net.pt" with
  | Some (p, c) => p = "out/net.json"%string /\ cf_dst c = "out/net.tflite"%string /\ map ce_trans (cf_ins c) = [true; false] /\ map ce_type (cf_ins c) = [TNp 0; TNp 7]
  | None => False end.
Proof.
  cbv zeta. split; [exact (to_list [vec 2; img 4] [] [] to_nil)|]. split; [apply has_dec_pt; reflexivity|]. split; [split; [repeat constructor|]|].
  { intros fl E. cbn in E. rewrite E. repeat constructor. discriminate. }
  split; [reflexivity|]. split; [split; [repeat constructor|reflexivity]|]. vm_compute. repeat split.
Qed.

(** flags that do not fit are refused *)
Theorem C146_refuses :
  forall ins os ts it ot export, tensors_of os ts -> (forall fi, ~ asked it ins fi) \/ (forall fo, ~ asked ot ts fo) -> export_files ins os it ot export = None.
Proof. exact reject_lemma. Qed.
Print Assumptions C146_refuses.
Example C146_refuses_example : (forall fi, ~ asked (TList [Some true]) [img 3; vec 2] fi) /\ (forall fi, ~ asked (TList [Some true; None]) [img 3; vec 2] fi).
Proof.
  split; intros fi [A B]; [discriminate B|]. inversion A as [|? ? ? ? _ A']; subst. inversion A' as [|? ? ? ? X]; subst. discriminate X.
Qed.

(** with one flag for all outputs, a model with more outputs than inputs loses some of them *)
Theorem C146_outputs_refuted : exists ins os ts base fi fo c zs fo', tensors_of os ts /\
  ~ has ".pt" base /\ usable (TOne None) ins /\ asked (TOne None) ins fi /\ asked (TOne None) ts fo /\
  export_files ins os (TOne None) (TOne None) (base ++ ".pt") = Some ((base ++ ".json")%string, c) /\
  parse_config c true = Some ((base ++ ".pt")%string, (base ++ ".tflite")%string, fi, zs, fo') /\ List.length fo' < List.length fo.
Proof. exact outputs_lemma. Qed.
Print Assumptions C146_outputs_refuted.

(** a directory with .pt in its name is renamed as well *)
Theorem C146_directory_refuted : exists dir name c, has ".pt" dir /\ ~ has ".pt" name /\
  export_files [vec 3] [IT (vec 2)] (TOne None) (TOne None) (dir ++ "/" ++ name ++ ".pt") = Some ("/w/net.jsonq/m.json"%string, c) /\ dir = "/w/net.ptq"%string /\ name = "m"%string.
Proof. exact directory_lemma. Qed.
Print Assumptions C146_directory_refuted.

(** without preparing inputs, a file that can be read otherwise raises *)
Theorem C146_unprepared_refuted : exists ins os base c r, export_files ins os (TOne None) (TOne None) (base ++ ".pt") = Some ((base ++ ".json")%string, c) /\
  parse_config c true = Some r /\ parse_config c false = None.
Proof. exact unprepared_lemma. Qed.
Print Assumptions C146_unprepared_refuted.

(** The flags of the converter belong to the unpacked inputs and are those asked for, or those of tensors with four dimensions. *)
Theorem C147_flags_partial :
  forall ds ts a flags, flat_inputs ds = map IT ts -> asked_open a ts flags -> (match a with TTup l => forallb is_some l = true | _ => True end) ->
  exists a', init_transpose a (flat_inputs ds) = Some (map Some flags, a').
Proof. exact flags_lemma. Qed.
Print Assumptions C147_flags_partial.
Example C147_flags_partial_example :
  flat_inputs [IT (vec 3); IL [img 3; vec 4]] = map IT [vec 3; img 3; vec 4] /\ asked_open (TList [None; None; Some false]) [vec 3; img 3; vec 4] [false; true; false].
Proof. split; [reflexivity|]. split; reflexivity. Qed.

(** The arrays for TFLite are the inputs in their order, with the channels last where the flag is set. *)
Theorem C147_inputs_partial :
  forall ts a flags, asked_open a ts flags -> (match a with TTup l => forallb is_some l = true | _ => True end) ->
  Forall2 (fun t (b : bool) => b = true -> List.length (c_shape t) = 4) ts flags ->
  exists fl a' arrs, init_transpose a (flat_inputs (map IT ts)) = Some (fl, a') /\ inputs_for_tflite (map IT ts) fl = Some arrs /\
    Forall2 (fun (p : cten * bool) x => if snd p then channels_last (fst p) x else x = fst p) (combine ts flags) arrs.
Proof. exact inputs_lemma. Qed.
Print Assumptions C147_inputs_partial.
Example C147_inputs_partial_example :
  asked_open (TOne None) [vec 3; img 3] [false; true] /\ Forall2 (fun t (b : bool) => b = true -> List.length (c_shape t) = 4) [vec 3; img 3] [false; true] /\
  match inputs_for_tflite [IT (vec 3); IT (img 3)] [Some false; Some true] with
  | Some [_; a] => c_shape a = [1; 8; 8; 3] /\ c_at a [0; 5; 6; 2] = 2%Z
  | _ => False end.
Proof. split; [reflexivity|]. split; [repeat constructor; discriminate|]. vm_compute. split; reflexivity. Qed.

(** with a nested input, neither the arrays nor the dumped configuration can be made *)
Theorem C147_nested_refuted : exists ds ts flags, flat_inputs ds = map IT ts /\ asked_open (TOne None) ts flags /\
  Forall2 (fun t (b : bool) => b = true -> List.length (c_shape t) = 4) ts flags /\
  inputs_for_tflite ds (map Some flags) = None /\ dump_flags ds (map Some flags) = None.
Proof. exact nested_lemma. Qed.
Print Assumptions C147_nested_refuted.

(** a list of flags is written to, so that the next converter with the same list takes the dimensions of the old inputs *)
Theorem C147_reuse_refuted : exists l ts ts' fl a' fl' a'' flags', init_transpose (TList l) (map IT ts) = Some (fl, a') /\
  asked_open (TList l) ts' flags' /\ init_transpose a' (map IT ts') = Some (fl', a'') /\ fl' <> map Some flags'.
Proof. exact reuse_lemma. Qed.
Print Assumptions C147_reuse_refuted.

(** a tuple with an open flag raises where a list does not *)
Theorem C147_tuple_refuted : exists l ts flags, asked_open (TTup l) ts flags /\ init_transpose (TTup l) (map IT ts) = None /\
  exists a', init_transpose (TList l) (map IT ts) = Some (map Some flags, a').
Proof. exact tuple_lemma. Qed.
Print Assumptions C147_tuple_refuted.
