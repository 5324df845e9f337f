(* Properties of the passes that take chains of operators out of the operator graph. *)
From Coq Require Import List Arith Bool String.
From Verif Require Import Tensor ElimModel ElimSpec ElimBase ElimProofs ElimPass ElimLayoutModel ElimLayoutSpec ElimLayout ElimCheck ElimExamples.
Import ListNotations.

(* ------------------------------------------------------------------ C110 *)

Theorem C110_sequences : forall (X : Type) (run : nat -> list X -> nat -> X) (ii : nat) (g : graph X) (l : list (sequence X)),
  good g -> (forall s, In s l -> chain g ii s /\ edits g s /\ neutral run g ii s) -> separate g ii l ->
  exists g', eliminate ii false g l = Some g' /\ good g' /\ same_results run g g'.
Proof. exact @eliminate_correct. Qed.
Print Assumptions C110_sequences.

(* two pairs of operators that undo each other; two additions that become one *)
Example C110_sequences_example :
  (good g_pairs /\ (forall s, In s [pair 2 3; pair 4 5] -> chain g_pairs 0 s /\ edits g_pairs s /\ neutral ex_run g_pairs 0 s) /\
   separate g_pairs 0 [pair 2 3; pair 4 5] /\
   option_map (fun g => map v_id (g_vs g)) (eliminate 0 false g_pairs [pair 2 3; pair 4 5]) = Some [0; 1; 6; 7]) /\
  (good g_sum /\ (forall s, In s [seq_sum] -> chain g_sum 0 s /\ edits g_sum s /\ neutral ex_run g_sum 0 s) /\
   separate g_sum 0 [seq_sum] /\
   option_map (fun g => eval ex_run g (fun _ => Some 3) 9 "y"%string) (eliminate 0 false g_sum [seq_sum]) = Some (Some 31) /\
   eval ex_run g_sum (fun _ => Some 3) 9 "y"%string = Some 31).
Proof.
  split.
  - split; [exact good_pairs|]. split; [exact pairs_ok|]. split; [exact pairs_separate|]. vm_compute. reflexivity.
  - split; [exact good_sum|]. split; [exact sum_ok|]. split; [exact sum_separate|]. split; vm_compute; reflexivity.
Qed.

Theorem C110_nodes_gone : forall (X : Type) (run : nat -> list X -> nat -> X) (ii : nat) (g : graph X) (l : list (sequence X)) (g' : graph X),
  good g -> (forall s, In s l -> chain g ii s /\ edits g s /\ neutral run g ii s) -> separate g ii l ->
  eliminate ii false g l = Some g' ->
  forall s v, In s l -> inner g (last (s_nodes s) 0) -> In v (g_vs g') -> ~ In (v_id v) (gone s).
Proof. exact @eliminate_removes. Qed.
Print Assumptions C110_nodes_gone.

Example C110_nodes_gone_example :
  inner g_pairs (last (s_nodes (pair 4 5)) 0) /\ gone (pair 4 5) = [4; 5].
Proof.
  split; [|reflexivity]. intros e v He Se Hv Iv. simpl in He, Hv, Se.
  each He; subst e; try discriminate Se; each Hv; subst v; try discriminate Iv; reflexivity.
Qed.

(* the sequence behind is taken out first: the assertion of [connect_next_tensors] fails *)
Theorem C110_order_refuted : exists (g : graph nat) (l : list (sequence nat)),
  good g /\ (forall s, In s l -> chain g 0 s /\ edits g s /\ neutral ex_run g 0 s) /\ NoDup (flat_map gone l) /\
  eliminate 0 false g (rev l) <> None /\ eliminate 0 false g l = None.
Proof.
  exists g_pairs, [pair 4 5; pair 2 3]. split; [exact good_pairs|]. split; [apply pairs_wrong_order|].
  split; [apply pairs_wrong_order|]. split; [vm_compute; discriminate|apply pairs_wrong_order].
Qed.
Print Assumptions C110_order_refuted.

(* a constant in front of a sequence whose last node stays loses its buffer *)
Theorem C110_kept_last_refuted : exists (g g' : graph nat) (s : sequence nat),
  good g /\ s_rf s = true /\ s_rl s = false /\ eliminate 0 false g [s] = Some g' /\
  computes ex_run g (fun _ => None) "y"%string 15 /\ (forall x, ~ computes ex_run g' (fun _ => None) "y"%string x) /\
  exists v n, In v (g_vs g') /\ v_kind v = KConst /\ v_outs v = [n] /\ g_buf g' n = None.
Proof.
  destruct kept_result as [g' [E [C [N [v [Hv [K [O [B _]]]]]]]]]. exists g_kept, g', seq_kept. split; [exact good_kept|].
  do 2 (split; [reflexivity|]). do 3 (split; [assumption|]). exists v, "b"%string. auto.
Qed.
Print Assumptions C110_kept_last_refuted.

(* ------------------------------------------------------------------ C111 *)

Theorem C111_noops : forall (X : Type) (run : nat -> list X -> nat -> X) (noop : vertex -> bool) (g : graph X), good g ->
  (forall v, In v (g_vs g) -> noop v = true -> hands_on run v) ->
  exists g', remove_noop noop false g = Some g' /\ good g' /\ same_results run g g' /\
    ((forall v, In v (g_vs g) -> noop v = true -> inner g (v_id v)) ->
     forall u v w, reads_first g u v -> noop v = true ->
       List.length (filter (fun e => e_src e =? v_id u) (g_es g)) = 1 -> (exists e, In e (g_es g) /\ e_src e = v_id v) ->
       In w (g_vs g') -> v_id w <> v_id v).
Proof. exact @remove_noop_correct. Qed.
Print Assumptions C111_noops.

Example C111_noops_example : good g_noop /\ (forall v, In v (g_vs g_noop) -> ex_noop v = true -> hands_on ex_run v) /\
  option_map (fun g => map (fun v => (v_id v, v_ins v, v_outs v)) (g_vs g)) (remove_noop ex_noop false g_noop) =
    Some [(0, [], ["x"]); (1, ["x"], ["c"]); (4, ["c"], ["y"]); (5, [], [])]%string /\
  option_map (fun g => eval ex_run g (fun _ => Some 3) 9 "y"%string) (remove_noop ex_noop false g_noop) = Some (Some 15).
Proof. split; [exact good_noop|]. split; [exact noop_hands|]. split; vm_compute; reflexivity. Qed.

Theorem C111_noops_branch : forall (X : Type) (run : nat -> list X -> nat -> X) (noop : vertex -> bool) (g : graph X), good g ->
  (forall v, In v (g_vs g) -> noop v = true -> hands_on run v) ->
  NoDup (map (fun e => (e_src e, e_dst e)) (g_es g)) ->
  (forall u v, reads_first g u v -> noop u = true -> noop v = true -> False) ->
  exists g', remove_noop noop true g = Some g' /\ good g' /\ same_results run g g' /\
    ((forall v, In v (g_vs g) -> noop v = true -> inner g (v_id v)) ->
     forall u v w, reads_first g u v -> noop v = true -> (exists e, In e (g_es g) /\ e_src e = v_id v) ->
       In w (g_vs g') -> v_id w <> v_id v).
Proof. exact @remove_noop_branch_correct. Qed.
Print Assumptions C111_noops_branch.

Example C111_noops_branch_example : good g_branch /\ (forall v, In v (g_vs g_branch) -> ex_noop v = true -> hands_on ex_run v) /\
  NoDup (map (fun e => (e_src e, e_dst e)) (g_es g_branch)) /\
  (forall u v, reads_first g_branch u v -> ex_noop u = true -> ex_noop v = true -> False) /\
  option_map (fun g => map (fun v => (v_id v, v_ins v, v_outs v)) (g_vs g)) (remove_noop ex_noop true g_branch) =
    Some [(0, [], ["x"]); (1, ["x"], ["a"]); (3, ["a"], ["y"]); (4, ["a"], ["z"]); (5, [], []); (6, [], [])]%string.
Proof.
  split; [exact good_branch|]. split; [exact branch_hands|]. split; [exact branch_edges|]. split; [exact branch_apart|].
  vm_compute. reflexivity.
Qed.

(* two no-ops, each beside another reader: the pass without branches leaves them, the one with branches raises *)
Theorem C111_noops_branch_refuted : exists (noop : vertex -> bool) (g : graph nat), good g /\
  (forall v, In v (g_vs g) -> noop v = true -> hands_on ex_run v) /\ NoDup (map (fun e => (e_src e, e_dst e)) (g_es g)) /\
  remove_noop noop false g = Some g /\ remove_noop noop true g = None.
Proof.
  exists ex_noop, g_twice. split; [exact good_twice|]. split; [exact twice_hands|]. split; [exact twice_edges|].
  split; apply twice_none.
Qed.
Print Assumptions C111_noops_branch_refuted.

(* ------------------------------------------------------------------ C112 *)

Theorem C112_chains : forall (X : Type) (run : nat -> list X -> nat -> X) (g : graph X) (cls : vertex -> bool)
    (act comp : X -> X -> X) (meets : X -> X -> Prop), good g -> acting run g cls act -> in_line g cls ->
  (forall u v p q, cls u = true -> cls v = true -> reads_first g u v ->
     constant_of g u p -> constant_of g v q -> meets p q) ->
  (forall p q x, meets p q -> act (act x p) q = act x (comp p q)) ->
  (forall p q r, meets p q -> meets q r -> meets (comp p q) r) ->
  forall (same : list nat -> X -> bool) (name : list nat -> string),
  (forall l v n p0 ps inp x, 2 <= List.length l -> run_of g cls l -> constants g l (p0 :: ps) -> In v (g_vs g) -> v_id v = hd 0 l ->
     nth_error (v_ins v) 0 = Some n -> same l (fold_left comp ps p0) = true ->
     given g inp -> computes run g inp n x -> act x (fold_left comp ps p0) = x) ->
  (forall l, g_node g (name l) = None /\
     forall u, In u (g_vs g) -> ~ In (name l) (v_outs u) /\ ~ In (name l) (v_ins u) /\ name l <> v_name u) ->
  (forall l l', name l = name l' -> l = l') ->
  exists g', fuse_chains (fun u v => cls u && cls v) (simple_plan comp same name g) g = Some g' /\ good g' /\ same_results run g g' /\
    ((forall v, In v (g_vs g) -> cls v = true -> inner g (v_id v)) ->
     forall u v w, cls u = true -> cls v = true -> reads_first g u v ->
       List.length (filter (fun e => e_src e =? v_id u) (g_es g)) = 1 -> In w (g_vs g') -> v_id w <> v_id v).
Proof. exact @fuse_simple_correct. Qed.
Print Assumptions C112_chains.

(* two additions of constants become one *)
Example C112_chains_example :
  good g_sum /\ acting ex_run g_sum ex_sum Nat.add /\ in_line g_sum ex_sum /\
  (forall p q x, x + p + q = x + (p + q)) /\
  option_map (fun g => map (fun v => (v_id v, v_ins v, v_outs v)) (g_vs g))
    (fuse_chains (fun u v => ex_sum u && ex_sum v) (simple_plan Nat.add (fun _ p => p =? 0) ex_name g_sum) g_sum) =
    Some [(0, [], ["x"]); (1, [], ["k"]); (2, [], ["m"]); (3, ["x"; "attr111,1111,"], ["t"]); (5, ["t"], ["y"]); (6, [], []);
          (7, [], ["attr111,1111,"])]%string /\
  option_map (fun g => eval ex_run g (fun _ => Some 3) 9 "y"%string)
    (fuse_chains (fun u v => ex_sum u && ex_sum v) (simple_plan Nat.add (fun _ p => p =? 0) ex_name g_sum) g_sum) = Some (Some 31) /\
  (forall l, g_node g_sum (ex_name l) = None /\
     forall u, In u (g_vs g_sum) -> ~ In (ex_name l) (v_outs u) /\ ~ In (ex_name l) (v_ins u) /\ ex_name l <> v_name u) /\
  (forall l l', ex_name l = ex_name l' -> l = l').
Proof.
  split; [exact good_sum|]. split; [exact sum_acting|]. split; [exact sum_once|]. split; [intros; rewrite Nat.add_assoc; reflexivity|].
  split; [vm_compute; reflexivity|]. split; [vm_compute; reflexivity|].
  split; [intros l; split; [reflexivity|apply names_fresh; reflexivity]|exact ex_name_inj].
Qed.

Theorem C112_transposes : forall (A : Type) (d : A) (run : nat -> list (val A) -> nat -> val A) (g : graph (val A))
    (cls : vertex -> bool) (name : list nat -> string),
  good g -> in_line g cls -> acting run g cls (do_transpose d) ->
  (forall u v p q, cls u = true -> cls v = true -> reads_first g u v ->
     constant_of g u p -> constant_of g v q -> perms_meet p q) ->
  (forall l, g_node g (name l) = None /\
     forall u, In u (g_vs g) -> ~ In (name l) (v_outs u) /\ ~ In (name l) (v_ins u) /\ name l <> v_name u) ->
  (forall l l', name l = name l' -> l = l') ->
  exists g', fuse_transposes cls name g = Some g' /\ good g' /\ same_results run g g' /\
    ((forall v, In v (g_vs g) -> cls v = true -> inner g (v_id v)) ->
     forall u v w, cls u = true -> cls v = true -> reads_first g u v ->
       List.length (filter (fun e => e_src e =? v_id u) (g_es g)) = 1 -> In w (g_vs g') -> v_id w <> v_id v).
Proof. exact @fuse_transposes_correct. Qed.
Print Assumptions C112_transposes.

Example C112_transposes_example :
  good g_transp /\ in_line g_transp (is_op 0) /\ acting lay_run g_transp (is_op 0) (do_transpose 0) /\
  (forall u v p q, is_op 0 u = true -> is_op 0 v = true -> reads_first g_transp u v ->
     constant_of g_transp u p -> constant_of g_transp v q -> perms_meet p q) /\
  (forall l, g_node g_transp (ex_name l) = None /\
     forall u, In u (g_vs g_transp) -> ~ In (ex_name l) (v_outs u) /\ ~ In (ex_name l) (v_ins u) /\ ex_name l <> v_name u) /\
  (forall l l', ex_name l = ex_name l' -> l = l') /\
  option_map (fun g => (map v_id (g_vs g), g_buf g "attr111,1111,"%string)) (fuse_transposes (is_op 0) ex_name g_transp) =
    Some ([0; 1; 2; 3; 5; 6; 7; 8; 11; 12; 13], Some (Ints [2; 1; 0])).
Proof.
  split; [exact good_transp|]. split; [exact transp_once|]. split; [exact transp_acting|]. split; [exact transp_meet|].
  split; [intros l; split; [reflexivity|apply names_fresh; reflexivity]|]. split; [exact ex_name_inj|]. vm_compute. reflexivity.
Qed.

Theorem C112_reshapes : forall (A : Type) (d : A) (run : nat -> list (val A) -> nat -> val A) (g : graph (val A))
    (shape : string -> list nat) (cls : vertex -> bool) (name : list nat -> string),
  good g -> in_line g cls -> acting run g cls (do_reshape d) ->
  (forall u v p q, cls u = true -> cls v = true -> reads_first g u v ->
     constant_of g u p -> constant_of g v q -> shapes_meet p q) ->
  (forall inp v n x, In v (g_vs g) -> cls v = true -> nth_error (v_ins v) 0 = Some n -> given g inp -> computes run g inp n x ->
     has_shape (shape n) x) ->
  (forall l, g_node g (name l) = None /\
     forall u, In u (g_vs g) -> ~ In (name l) (v_outs u) /\ ~ In (name l) (v_ins u) /\ name l <> v_name u) ->
  (forall l l', name l = name l' -> l = l') ->
  exists g', fuse_reshapes shape cls name g = Some g' /\ good g' /\ same_results run g g' /\
    ((forall v, In v (g_vs g) -> cls v = true -> inner g (v_id v)) ->
     forall u v w, cls u = true -> cls v = true -> reads_first g u v ->
       List.length (filter (fun e => e_src e =? v_id u) (g_es g)) = 1 -> In w (g_vs g') -> v_id w <> v_id v).
Proof. exact @fuse_reshapes_correct. Qed.
Print Assumptions C112_reshapes.

Example C112_reshapes_example :
  good g_resh /\ in_line g_resh (is_op 1) /\ acting lay_run g_resh (is_op 1) (do_reshape 0) /\
  (forall u v p q, is_op 1 u = true -> is_op 1 v = true -> reads_first g_resh u v ->
     constant_of g_resh u p -> constant_of g_resh v q -> shapes_meet p q) /\
  (forall inp v n x, In v (g_vs g_resh) -> is_op 1 v = true -> nth_error (v_ins v) 0 = Some n -> given g_resh inp ->
     computes lay_run g_resh inp n x -> has_shape (resh_shape n) x) /\
  (forall l, g_node g_resh (ex_name l) = None /\
     forall u, In u (g_vs g_resh) -> ~ In (ex_name l) (v_outs u) /\ ~ In (ex_name l) (v_ins u) /\ ex_name l <> v_name u) /\
  (forall l l', ex_name l = ex_name l' -> l = l') /\
  option_map (fun g => (map v_id (g_vs g), g_buf g "attr111,1111,"%string)) (fuse_reshapes resh_shape (is_op 1) ex_name g_resh) =
    Some ([0; 1; 2; 3; 5; 6; 7], Some (Ints [3; 2])).
Proof.
  split; [exact good_resh|]. split; [exact resh_once|]. split; [exact resh_acting|]. split; [exact resh_meet|].
  split; [exact resh_shapes|]. split; [intros l; split; [reflexivity|apply names_fresh; reflexivity]|].
  split; [exact ex_name_inj|]. vm_compute. reflexivity.
Qed.
