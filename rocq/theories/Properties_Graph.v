(** Properties of the operator graph: C18 (schedule), C19 (index tables), C20 (operator versions),
    C26 (dead-node cleanup), C27 (names), C29 (constant sharing), C30 (boundary folding),
    C31 (requantize splitting). *)
From Coq Require Import List Arith Bool ZArith String Permutation Lia.
From Verif Require Import GraphModel GraphProofs GraphTableProofs GraphMiscProofs GraphFoldProofs VersionModel VersionProofs.
Import ListNotations.
Local Open Scope nat_scope.

(** ** C18: the emitted operator list holds every operator once, producers first; the search
    terminates (the fuel is never exhausted). *)
Theorem C18_schedule : forall g, wf_graph g -> acyclic g -> roles g ->
  exists l, collect_operators g = Some l /\
    Permutation l (filter (is_op g) (seq 0 (gsize g))) /\
    (forall u v, edge g u v -> In u l -> In v l -> before l u v).
Proof. exact collect_operators_ok. Qed.
Print Assumptions C18_schedule.
(** and in the full vertex order every source, operator or not, is placed before its target *)
Theorem C18_vertex_order : forall g, wf_graph g -> acyclic g -> roles g ->
  exists l, topological_sort g = Some l /\ NoDup l /\ (forall v, In v l -> v < gsize g) /\
    (forall v, v < gsize g -> (0 <= ty g v)%Z -> In v l) /\
    (forall u v, edge g u v -> In v l -> before l u v).
Proof. exact topological_sort_ok. Qed.
Print Assumptions C18_vertex_order.
(** input 0, constant 1, ADD 2 (0, 1), RELU 3 (2), MUL 4 (2, 3), output 5, constant 6, an operator 7
    fed by constants only (1, 6) and read by 8, which also reads 4 *)
Definition ex_graph : graph :=
  {| g_types := [-1; -3; 0; 19; 18; -2; -3; 0; 41]%Z;
     g_out := [[2]; [2; 7]; [3; 4]; [4]; [5; 8]; []; [7]; [8]; []];
     g_in := [[]; []; [0; 1]; [2]; [3; 2]; [4]; []; [1; 6]; [4; 7]] |}.
Lemma ex_graph_ok : wf_graph ex_graph /\ acyclic ex_graph /\ roles ex_graph.
Proof.
  assert (W : forall u v, In v (outs ex_graph u) <-> In u (ins ex_graph v)).
  { intros u v. split; intro H.
    - do 9 (destruct u as [|u]; [cbn in H; intuition subst; cbn; tauto|]). destruct u; cbn in H; destruct H.
    - do 9 (destruct v as [|v]; [cbn in H; intuition subst; cbn; tauto|]). destruct v; cbn in H; destruct H. }
  split; [|split].
  - repeat split; apply W.
  - exists (fun v => nth v [0; 0; 1; 2; 3; 9; 0; 1; 8] 0). intros u v H. unfold edge in H.
    do 9 (destruct u as [|u]; [cbn in H; intuition subst; cbn; lia|]). destruct u; cbn in H; destruct H.
  - split; intros u v H; unfold edge in H;
      do 9 (destruct u as [|u]; [cbn in H; repeat (destruct H as [H|H]; [subst v; cbn; unfold t_input, t_const; lia|]); destruct H|]);
      destruct u; cbn in H; destruct H.
Qed.
Example C18_schedule_case :
  (wf_graph ex_graph /\ acyclic ex_graph /\ roles ex_graph) /\ collect_operators ex_graph = Some [2; 3; 4; 7; 8].
Proof. split; [exact ex_graph_ok|reflexivity]. Qed.

(** ** C19: tables and indices. *)
Theorem C19_index_tables : forall tm bidx labels inputs outputs st,
  NoDup labels -> NoDup inputs -> var_unshared tm labels ->
  collect_tensor_buffers tm bidx labels inputs outputs = Some st ->
  NoDup (c_tensors st) /\
  (forall n, In n (c_tensors st) <-> (In n labels /\ real tm n) \/ In n inputs) /\
  (forall n, In n (c_tensors st) -> at_pos (c_tensors st) (c_tidx st n) n) /\
  (forall n, In n labels -> ~ real tm n -> ~ In n inputs -> c_tidx st n = (-1)%Z) /\
  nth_error (c_buffers st) 0 = Some None /\
  (forall n b, In n labels -> real tm n -> t_var (tm n) = false -> t_buf (tm n) = Some b ->
     at_pos (c_buffers st) (written_buffer tm st n) (Some b)) /\
  (forall n, In n labels -> real tm n -> ~ is_const tm n -> written_buffer tm st n = 0%Z) /\
  Forall2 (fun n i => at_pos (c_tensors st) i n) inputs (c_in st) /\
  Forall2 (fun n i => at_pos (c_tensors st) i n) outputs (c_out st).
Proof. exact collect_ok. Qed.
Print Assumptions C19_index_tables.
Theorem C19_no_assertion : forall tm bidx labels inputs outputs,
  NoDup labels -> var_unshared tm labels ->
  (forall n, In n labels -> t_var (tm n) = true -> t_buf (tm n) <> None) ->
  (forall n, In n outputs -> In n labels /\ real tm n) ->
  exists st, collect_tensor_buffers tm bidx labels inputs outputs = Some st.
Proof. exact collect_total. Qed.
Print Assumptions C19_no_assertion.
(** names: 0, 1 inputs (1 unused), 2 and 3 constants sharing buffer 7, 4 a variable, 5 the output
    (listed twice), 6 an optional tensor *)
Definition ex_tm (n : nat) : tensor :=
  nth n [ {| t_index := 0; t_var := false; t_buf := None |}; {| t_index := 0; t_var := false; t_buf := None |};
          {| t_index := 0; t_var := false; t_buf := Some 7 |}; {| t_index := 0; t_var := false; t_buf := Some 7 |};
          {| t_index := 0; t_var := true; t_buf := Some 8 |}; {| t_index := 0; t_var := false; t_buf := None |};
          {| t_index := -1; t_var := false; t_buf := None |} ] {| t_index := 0; t_var := false; t_buf := None |}.
Example C19_index_tables_case :
  NoDup [5; 3; 6; 0; 4; 2] /\ NoDup [1; 0] /\ var_unshared ex_tm [5; 3; 6; 0; 4; 2] /\
  match collect_tensor_buffers ex_tm (fun _ => 0%Z) [5; 3; 6; 0; 4; 2] [1; 0] [5; 5] with
  | Some st => c_tensors st = [5; 3; 0; 4; 2; 1] /\ c_buffers st = [None; Some 7; Some 7] /\
               c_in st = [5%Z; 2%Z] /\ c_out st = [0%Z; 0%Z] /\ written_buffer ex_tm st 3 = 2%Z /\
               written_buffer ex_tm st 4 = 0%Z
  | None => False
  end.
Proof.
  split; [repeat constructor; cbn; intuition lia|]. split; [repeat constructor; cbn; intuition lia|].
  split; [|vm_compute; repeat split; reflexivity].
  intros a b Ha Hb Va Vb _. cbn in Ha, Hb. intuition subst; cbn in *; congruence.
Qed.
(** An unused input listed twice gets an index in the first slot only and enters the table twice. *)
Theorem C19_duplicate_missing_input_refuted : exists tm bidx labels inputs outputs st,
  NoDup labels /\ var_unshared tm labels /\
  collect_tensor_buffers tm bidx labels inputs outputs = Some st /\
  ~ Forall2 (fun n i => at_pos (c_tensors st) i n) inputs (c_in st) /\ ~ NoDup (c_tensors st).
Proof.
  exists ex_tm, (fun _ => 0%Z), [0], [1; 1; 0], [0]. eexists.
  split; [repeat constructor; cbn; tauto|].
  split; [intros a b [<-|[]] [<-|[]]; cbn; congruence|].
  split; [reflexivity|]. cbn. split.
  - intro H. inversion H as [|? ? ? ? _ H2]; subst. inversion H2 as [|? ? ? ? (k & E & _) _]; subst. lia.
  - intro H. inversion H as [|? ? _ H2]; subst. inversion H2 as [|? ? N _]; subst. apply N. now left.
Qed.
Print Assumptions C19_duplicate_missing_input_refuted.

(** ** C20: operator versions.  Every row that tests the operator code gives signed 8-bit operands
    at least version 2 ... *)
Theorem C20_int8_version_partial : forall o c d, small_version o -> In (c, d) int8_table -> vo_code o = c ->
  operand_i8 o d -> (2 <= process_op o)%Z.
Proof. exact int8_ok. Qed.
Print Assumptions C20_int8_version_partial.
Theorem C20_int8_weights_version : forall o r0 r1 r2,
  (vo_code o = c_CONV_2D \/ vo_code o = c_DEPTHWISE_CONV_2D \/ vo_code o = c_FULLY_CONNECTED) ->
  nth_error (vo_in o) 0 = Some (I8, r0) -> nth_error (vo_in o) 1 = Some (I8, r1) ->
  nth_error (vo_out o) 0 = Some (I8, r2) -> (3 <= process_op o)%Z.
Proof. exact int8_weights_ok. Qed.
Print Assumptions C20_int8_weights_version.
(** ... and the result neither leaves the range of versions nor depends on the version found. *)
Theorem C20_version_range : forall o, (1 <= process_op o <= 6)%Z.
Proof. exact version_range. Qed.
Print Assumptions C20_version_range.
Theorem C20_version_stable : forall o v, small_version o -> (1 <= v <= 6)%Z ->
  process_op (with_version o v) = process_op o.
Proof. exact version_indep. Qed.
Print Assumptions C20_version_stable.
Definition ex_vop (c : Z) (ins outs : list (dtype * nat)) : vop :=
  {| vo_code := c; vo_version := 1; vo_in := ins; vo_out := outs; vo_dilated := false; vo_narrow := false;
     vo_keep_dims := false; vo_shuffled := false; vo_mul_ge1 := false; vo_lstm_full := false;
     vo_lstm_basic := false; vo_half_pixel := false |}.
Example C20_int8_version_case :
  let o := ex_vop c_SPLIT [(I32, 0); (I8, 4)] [(I8, 4); (I8, 4)] in
  small_version o /\ In (c_SPLIT, AtInput 1) int8_table /\ operand_i8 o (AtInput 1) /\ process_op o = 2%Z.
Proof. repeat split; cbn; try lia; [|eauto]. tauto. Qed.
Example C20_int8_weights_version_case :
  process_op (ex_vop c_CONV_2D [(I8, 4); (I8, 4); (I32, 1)] [(I8, 4)]) = 3%Z /\
  process_op (ex_vop c_FULLY_CONNECTED [(I8, 2); (I8, 2); (I32, 1)] [(I8, 2)]) = 4%Z.
Proof. split; reflexivity. Qed.
(** SUB, SPACE_TO_BATCH_ND and BATCH_TO_SPACE_ND: their rows compare the version with the operator
    code, so they are never reached and the version is 1. *)
Theorem C20_int8_version_refuted : exists o c d, small_version o /\ In (c, d) int8_missed /\ vo_code o = c /\
  operand_i8 o d /\ process_op o = 1%Z.
Proof.
  exists (ex_vop c_SUB [(I8, 4); (I8, 4)] [(I8, 4)]), c_SUB, (AtInput 0). repeat split; cbn; try lia; eauto.
Qed.
Print Assumptions C20_int8_version_refuted.
Theorem C20_missed_rows : forall o c d, small_version o -> In (c, d) int8_missed -> vo_code o = c -> process_op o = 1%Z.
Proof. exact int8_missed_v1. Qed.
Print Assumptions C20_missed_rows.

(** ** C26: cleanup keeps model inputs, outputs and everything an output needs; when it runs
    ([is_connected] is false), everything left is needed. *)
Theorem C26_cleanup_safe : forall g connected, wf_graph g -> exists r, cleanup_dead_nodes g connected = Some r /\
  NoDup r /\ (forall v, In v r -> v < gsize g) /\
  (forall v, v < gsize g -> ty g v = t_input \/ is_sink g v \/ live g v -> In v r).
Proof. exact cleanup_ok. Qed.
Print Assumptions C26_cleanup_safe.
Theorem C26_cleanup_complete : forall g r, wf_graph g -> acyclic g -> roles g ->
  cleanup_dead_nodes g false = Some r -> forall v, In v r -> ty g v = t_input \/ live g v.
Proof. exact cleanup_complete. Qed.
Print Assumptions C26_cleanup_complete.
(** [ex_graph]: 8 is not read by an output; 7, 6 die with it, 1 stays (read by 2) *)
Example C26_cleanup_case :
  (wf_graph ex_graph /\ acyclic ex_graph /\ roles ex_graph) /\
  cleanup_dead_nodes ex_graph false = Some [0; 1; 2; 3; 4; 5].
Proof. split; [exact ex_graph_ok|reflexivity]. Qed.
(** On a weakly connected graph nothing is removed: operator 8 of [ex_graph] stays though no
    output needs it. *)
Inductive linked (g : graph) : nat -> nat -> Prop :=
| link_refl v : linked g v v
| link_out u v w : edge g u v -> linked g v w -> linked g u w
| link_in u v w : edge g v u -> linked g v w -> linked g u w.
Theorem C26_connected_graph_refuted : exists g r v, wf_graph g /\ acyclic g /\ roles g /\
  (forall u w, u < gsize g -> w < gsize g -> linked g u w) /\
  cleanup_dead_nodes g true = Some r /\ In v r /\ ty g v <> t_input /\ ~ live g v.
Proof.
  exists ex_graph, (seq 0 9), 8. destruct ex_graph_ok as (W & A & R). do 3 (split; auto). split.
  - assert (to4 : forall u, u < 9 -> linked ex_graph u 4).
    { intros u H.
      assert (l4 : linked ex_graph 4 4) by constructor.
      assert (l2 : linked ex_graph 2 4) by (apply (link_out _ 2 4 4); auto; cbn; auto).
      assert (l8 : linked ex_graph 8 4) by (apply (link_in _ 8 4 4); auto; cbn; auto).
      assert (l7 : linked ex_graph 7 4) by (apply (link_out _ 7 8 4); auto; cbn; auto).
      destruct u as [|[|[|[|[|[|[|[|[|u]]]]]]]]]; try lia; auto.
      - apply (link_out _ 0 2 4); auto; cbn; auto.
      - apply (link_out _ 1 2 4); auto; cbn; auto.
      - apply (link_out _ 3 4 4); auto; cbn; auto.
      - apply (link_in _ 5 4 4); auto; cbn; auto.
      - apply (link_out _ 6 7 4); auto; cbn; auto. }
    assert (sym1 : forall u v w, linked ex_graph u v -> linked ex_graph v w -> linked ex_graph u w).
    { intros u v w H. induction H; auto; intro; [eapply link_out|eapply link_in]; eauto. }
    assert (sym : forall u v, linked ex_graph u v -> linked ex_graph v u).
    { intros u v H. induction H; [constructor| |]; apply (sym1 _ _ _ IHlinked).
      - eapply link_in; [eassumption|constructor].
      - eapply link_out; [eassumption|constructor]. }
    intros u w Hu Hw. apply (sym1 u 4 w); auto.
  - split; [reflexivity|]. split; [cbn; tauto|]. split; [discriminate|].
    intros (w & _ & S & Rw). inversion Rw; subst; [destruct S as [S|S]; discriminate S|].
    cbn in H. destruct H.
Qed.
Print Assumptions C26_connected_graph_refuted.

(** ** C27: names of output and unused nodes are new and distinct, keep the prefix the passes rely
    on, and the search ends. *)
Theorem C27_output_names_fresh : forall tensors keys, exists r,
  add_output_names keys tensors = Some (r, keys ++ r) /\ NoDup r /\ (forall s, In s r -> ~ In s keys) /\
  Forall2 (fun t s => exists suffix, s = (t ++ "_output" ++ suffix)%string) tensors r.
Proof. exact add_output_names_ok. Qed.
Print Assumptions C27_output_names_fresh.
Example C27_output_names_case :
  add_output_names ["x"; "x_output"; "x_output_1"]%string ["x"; "y"; "x"]%string =
  Some (["x_output_2"; "y_output"; "x_output_3"]%string,
        ["x"; "x_output"; "x_output_1"; "x_output_2"; "y_output"; "x_output_3"]%string).
Proof. reflexivity. Qed.
(** The counting generators never repeat a name, and the two kinds of one owner do not collide. *)
Theorem C27_counter_names_distinct : forall base suffix i j,
  counter_name base suffix i = counter_name base suffix j -> i = j.
Proof. exact counter_name_inj. Qed.
Print Assumptions C27_counter_names_distinct.
Theorem C27_counter_kinds_distinct : forall base i j,
  counter_name base "_attr" i <> counter_name base "_transform" j.
Proof. exact counter_name_kinds. Qed.
Print Assumptions C27_counter_kinds_distinct.
Example C27_counter_names_case :
  counter_name "fuse" "_attr" 0 = "fuse_attr"%string /\ counter_name "fuse" "_attr" 12 = "fuse_attr_12"%string.
Proof. split; reflexivity. Qed.
(** But they look at no existing name: a tensor of the traced model called [x_attr_1] has the name
    of the second constant made for an operator whose result is [x]. *)
Theorem C27_counter_name_refuted : exists existing base k,
  In base existing /\ In (counter_name base "_attr" k) existing.
Proof. exists ["x"; "x_attr_1"]%string, "x"%string, 1. split; cbn; auto. Qed.
Print Assumptions C27_counter_name_refuted.

(** ** C29: sharing of equal constants.  Every operand keeps its contents (bytes, type, shape,
    quantization), other operands keep their name, in-edges and operands still agree, and
    every operator reached by an edge reads the first of the equal constants. *)
Theorem C29_sharing : forall info targets consts ops ops', NoDup consts ->
  group_tensors info targets consts ops = Some ops' ->
  (forall o, List.length (o_in (ops' o)) = List.length (o_in (ops o))) /\
  (forall o i n, nth_error (o_in (ops o)) i = Some n -> exists n',
     nth_error (o_in (ops' o)) i = Some n' /\ info n' = info n /\ (~ In n consts -> n' = n) /\
     (In n consts -> In o (targets n) -> n' = rep info consts n)) /\
  ((forall o, Permutation (o_edges (ops o)) (o_in (ops o))) ->
   forall o, Permutation (o_edges (ops' o)) (o_in (ops' o))).
Proof. exact group_tensors_ok. Qed.
Print Assumptions C29_sharing.
Theorem C29_sharing_defined_partial : forall info targets consts ops,
  (forall c, In c consts -> k_buf (info c) <> None) -> exists ops', group_tensors info targets consts ops = Some ops'.
Proof. exact group_tensors_total. Qed.
Print Assumptions C29_sharing_defined_partial.
(** constants 10, 11, 12; 12 equals 10; operator 0 reads 12 twice, operator 1 reads 10 and 11 *)
Definition ex_info (n : nat) : tinfo :=
  {| k_buf := Some [Z.of_nat (n mod 2)]; k_dtype := 0; k_shape := [1]; k_quant := None |}.
Definition ex_targets (n : nat) : list nat := match n with 10 => [1] | 11 => [1] | 12 => [0; 0] | _ => [] end.
Definition ex_ops (o : nat) : opnode :=
  match o with
  | 0 => {| o_in := [12; 3; 12]; o_edges := [3; 12; 12] |}
  | 1 => {| o_in := [10; 11]; o_edges := [10; 11] |}
  | _ => {| o_in := []; o_edges := [] |}
  end.
Example C29_sharing_case :
  NoDup [10; 11; 12] /\
  match group_tensors ex_info ex_targets [10; 11; 12] ex_ops with
  | Some ops' => o_in (ops' 0) = [10; 3; 10] /\ o_in (ops' 1) = [10; 11]
  | None => False
  end.
Proof. split; [repeat constructor; cbn; intuition lia|]. split; reflexivity. Qed.
(** A graph with an optional tensor (the unused gate operands of an LSTM) makes the pass raise. *)
Theorem C29_optional_tensor_refuted : exists info targets consts ops,
  NoDup consts /\ (exists c, In c consts /\ k_buf (info c) = None) /\ group_tensors info targets consts ops = None.
Proof.
  exists (fun n => {| k_buf := if n =? 2 then None else Some [1%Z]; k_dtype := 0; k_shape := [1]; k_quant := None |}),
    (fun _ => [0]), [1; 2], (fun _ => {| o_in := [1; 2]; o_edges := [1; 2] |}).
  split; [repeat constructor; cbn; intuition lia|]. split; [exists 2; cbn; auto|reflexivity].
Qed.
Print Assumptions C29_optional_tensor_refuted.

(** ** C30: boundary folding keeps every consumer and its producers, when the boundary tensors
    have boundary consumers only. *)
Theorem C30_boundary_folding_partial : forall inputs outputs fin fout vs edges vs' rm edges' ins' outs',
  (forall x, v_ty (vs x) = t_dequantize -> v_op (vs x) <> None) ->
  (forall u w, In (u, w) edges -> v_ty (vs u) <> t_output) ->
  (forall e e', In e edges -> In e' edges -> fst e = fst e' -> qdq_edge vs e = true -> qdq_edge vs e' = true) ->
  fuse_quant_dequant inputs outputs fin fout vs edges = Some (vs', rm, edges', ins', outs') ->
  forall u w, In (u, w) edges -> producer vs u -> ~ In w rm -> consumer vs' w ->
    In (u, w) edges' /\ ~ In u rm /\ producer vs' u.
Proof. exact fuse_qdq_ok. Qed.
Print Assumptions C30_boundary_folding_partial.
(** input 0 (tensor 10) → QUANTIZE 1 (10 → 11) → ADD 2 (11 → 12) → DEQUANTIZE 3 (12 → 13) → output 4 *)
Definition ex_vs (x : nat) : vtx :=
  nth x [ {| v_ty := t_input; v_outs := [10]; v_op := None |};
          {| v_ty := t_quantize; v_outs := [11]; v_op := Some (10, 11) |};
          {| v_ty := 0; v_outs := [12]; v_op := Some (11, 12) |};
          {| v_ty := t_dequantize; v_outs := [13]; v_op := Some (12, 13) |};
          {| v_ty := t_output; v_outs := [14]; v_op := None |};
          {| v_ty := 0; v_outs := [15]; v_op := Some (10, 15) |};
          {| v_ty := 0; v_outs := [16]; v_op := Some (13, 16) |} ]
        {| v_ty := t_unused; v_outs := []; v_op := None |}.
Example C30_boundary_folding_case :
  let edges := [(0, 1); (1, 2); (2, 3); (3, 4)] in
  (forall e e', In e edges -> In e' edges -> fst e = fst e' -> qdq_edge ex_vs e = true -> qdq_edge ex_vs e' = true) /\
  match fuse_quant_dequant [10] [13] None None ex_vs edges with
  | Some (vs', rm, edges', ins', outs') =>
      rm = [0; 4] /\ edges' = [(1, 2); (2, 3)] /\ ins' = [11] /\ outs' = [12] /\
      v_ty (vs' 1) = t_input /\ v_ty (vs' 3) = t_output /\ consumer vs' 2 /\ consumer vs' 3
  | None => False
  end.
Proof.
  cbv zeta. split.
  - intros e e' H H' E Q. cbn in H, H'. intuition subst; cbn in *; try congruence; try discriminate.
  - cbn. repeat split; auto; [right; cbn; congruence|left; reflexivity].
Qed.
(** The boundary names: an input gives way to the outputs of the quantize vertices that read it, an output to the inputs
    of the dequantize vertices that write it, when it is selected and only then. *)
Theorem C30_boundary_names : forall inputs outputs fin fout vs edges vs' rm edges' ins' outs',
  (forall x, v_ty (vs x) = t_dequantize -> v_op (vs x) <> None) ->
  fuse_quant_dequant inputs outputs fin fout vs edges = Some (vs', rm, edges', ins', outs') ->
  (exists g, ins' = flat_map g inputs /\ forall n, exists p,
     (forall e, In e edges -> (p e = true <-> in_fold vs inputs fin n e)) /\
     g n = match filter p edges with [] => [n] | es => flat_map (fun e => v_outs (vs (snd e))) es end) /\
  (exists g, outs' = flat_map g outputs /\ forall o, exists us, NoDup us /\
     (forall u, In u us <-> exists w, In (u, w) edges /\ out_fold vs outputs fout o (u, w)) /\
     match us with [] => g o = [o] | _ => Forall2 (fun u i => v_op (vs u) = Some (i, o)) us (g o) end).
Proof. exact fuse_qdq_names. Qed.
Print Assumptions C30_boundary_names.
(** Exactly the selected boundary vertices change. *)
Theorem C30_boundary_vertices : forall inputs outputs fin fout vs edges vs' rm edges' ins' outs',
  (forall x, v_ty (vs x) = t_dequantize -> v_op (vs x) <> None) ->
  fuse_quant_dequant inputs outputs fin fout vs edges = Some (vs', rm, edges', ins', outs') ->
  (forall e, In e edges -> (exists n, in_fold vs inputs fin n e) -> In (fst e) rm /\ v_ty (vs' (snd e)) = t_input /\ v_outs (vs' (snd e)) = v_outs (vs (snd e))) /\
  (forall e, In e edges -> (exists o, out_fold vs outputs fout o e) -> In (snd e) rm /\ v_ty (vs' (fst e)) = t_output) /\
  (forall x, vs' x = vs x \/ (exists u n, In (u, x) edges /\ in_fold vs inputs fin n (u, x)) \/ (exists w o, In (x, w) edges /\ out_fold vs outputs fout o (x, w))).
Proof. exact fuse_qdq_vertices. Qed.
Print Assumptions C30_boundary_vertices.
(** the input is selected, the output is not *)
Example C30_selection_case :
  match fuse_quant_dequant [10] [13] (Some [0]) (Some [1]) ex_vs [(0, 1); (1, 2); (2, 3); (3, 4)] with
  | Some (vs', rm, edges', ins', outs') => rm = [0] /\ ins' = [11] /\ outs' = [13] /\ v_ty (vs' 3) = t_dequantize
  | None => False
  end.
Proof. cbn. auto. Qed.
(** An input that two quantize operators read becomes two inputs. *)
Theorem C30_input_count_refuted : exists inputs outputs vs edges vs' rm edges' ins' outs',
  (forall x, v_ty (vs x) = t_dequantize -> v_op (vs x) <> None) /\
  fuse_quant_dequant inputs outputs None None vs edges = Some (vs', rm, edges', ins', outs') /\
  List.length inputs = 1 /\ List.length ins' = 2.
Proof.
  exists [10], [13], (fun x => nth x [ {| v_ty := t_input; v_outs := [10]; v_op := None |}; {| v_ty := t_quantize; v_outs := [11]; v_op := Some (10, 11) |};
          {| v_ty := t_quantize; v_outs := [12]; v_op := Some (10, 12) |} ] {| v_ty := t_unused; v_outs := []; v_op := None |}), [(0, 1); (0, 2)]. do 5 eexists.
  split; [|split; [reflexivity|split; reflexivity]].
  intros x H. do 3 (destruct x as [|x]; [discriminate H|]). destruct x; discriminate H.
Qed.
Print Assumptions C30_input_count_refuted.
(** An operator 5 that also reads the model input loses its producer, and so does an operator 6
    that also reads the dequantized output. *)
Theorem C30_boundary_consumer_refuted : exists inputs outputs vs edges vs' rm edges' ins' outs',
  (forall x, v_ty (vs x) = t_dequantize -> v_op (vs x) <> None) /\
  (forall u w, In (u, w) edges -> v_ty (vs u) <> t_output) /\
  fuse_quant_dequant inputs outputs None None vs edges = Some (vs', rm, edges', ins', outs') /\
  (exists u w, In (u, w) edges /\ producer vs u /\ ~ In w rm /\ consumer vs' w /\ ~ In (u, w) edges') /\
  (exists u w, In (u, w) edges /\ producer vs u /\ ~ In w rm /\ consumer vs' w /\ ~ producer vs' u).
Proof.
  exists [10], [13], ex_vs, [(0, 1); (0, 5); (1, 2); (2, 3); (3, 4); (3, 6)]. do 5 eexists.
  split; [|split; [|split; [reflexivity|split]]].
  - intros x H. do 7 (destruct x as [|x]; [try discriminate H; cbn; congruence|]). destruct x; cbn in H; discriminate H.
  - intros u w H. cbn in H. intuition; match goal with H : (_, _) = (_, _) |- _ => injection H; intros; subst end; discriminate.
  - exists 0, 5. repeat split; [cbn; tauto|left; reflexivity|cbn; intuition lia|right; cbn; congruence|].
    cbn. intros H. intuition congruence.
  - exists 3, 6. repeat split; [cbn; tauto|right; right; cbn; congruence|cbn; intuition lia|right; cbn; congruence|].
    intros [H|[H|H]]; [discriminate H|discriminate H|apply H; reflexivity].
Qed.
Print Assumptions C30_boundary_consumer_refuted.

(** ** C31: one requantize operator is split into two operators, each tensor written once ... *)
Theorem C31_split_one_partial : forall (fresh : nat -> nat) i o, fresh 0 <> o -> fresh 0 <> i ->
  split_requantize fresh [(i, o)] = [(t_dequantize, i, fresh 0); (t_quantize, fresh 0, o)] /\
  writers o (split_requantize fresh [(i, o)]) = 1 /\ writers (fresh 0) (split_requantize fresh [(i, o)]) = 1.
Proof. exact split_one. Qed.
Print Assumptions C31_split_one_partial.
(** ... with [n] of them the output of the j-th (counted from 0) has [n - j] writers ... *)
Theorem C31_writer_count : forall (fresh : nat -> nat) rqs j i o, NoDup (map snd rqs) -> (forall k, fresh k <> o) ->
  nth_error rqs j = Some (i, o) -> writers o (split_requantize fresh rqs) = List.length rqs - j.
Proof. exact split_writers. Qed.
Print Assumptions C31_writer_count.
(** ... and its intermediate tensor as many ... *)
Theorem C31_intermediate_writer_count : forall (fresh : nat -> nat) rqs j, (forall a b, fresh a = fresh b -> a = b) ->
  (forall o, In o (map snd rqs) -> o <> fresh j) -> j < List.length rqs ->
  writers (fresh j) (split_requantize fresh rqs) = List.length rqs - j.
Proof. exact split_fresh_writers. Qed.
Print Assumptions C31_intermediate_writer_count.
Example C31_writer_count_case :
  NoDup (map snd [(1, 2); (3, 4); (5, 6)]) /\
  map (fun t => writers t (split_requantize (fun k => 10 + k) [(1, 2); (3, 4); (5, 6)])) [2; 4; 6; 10; 11; 12] = [3; 2; 1; 3; 2; 1].
Proof. split; [repeat constructor; cbn; intuition lia|reflexivity]. Qed.
(** ... so two are enough for a tensor with two writers. *)
Theorem C31_one_writer_refuted : exists (fresh : nat -> nat) rqs, NoDup (map snd rqs) /\
  (forall k o, In o (map snd rqs) -> fresh k <> o) /\
  exists o, In o (map snd rqs) /\ writers o (split_requantize fresh rqs) <> 1.
Proof.
  exists (fun k => 10 + k), [(1, 2); (3, 4)]. split; [repeat constructor; cbn; intuition lia|].
  split; [intros k o H; cbn in H; lia|]. exists 2. split; cbn; auto.
Qed.
Print Assumptions C31_one_writer_refuted.
