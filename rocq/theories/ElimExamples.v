(** Graphs for the examples and the counterexamples. *)
From Coq Require Import List Arith Bool String Ascii Lia.
From Verif Require Import Tensor ElimModel ElimSpec ElimBase ElimCheck ElimLayoutModel ElimLayoutSpec.
Import ListNotations.
Local Open Scope string_scope.

Fixpoint assoc {A} (l : list (string * A)) (n : string) : option A :=
  match l with [] => None | (k, a) :: l' => if String.eqb n k then Some a else assoc l' n end.
Definition build {X} (vs : list vertex) (es : list edge) (bufs : list (string * X)) : graph X :=
  mkG vs es (assoc (flat_map (fun v => map (fun n => (n, v_id v)) (v_outs v)) vs)) (assoc bufs).

Definition inputv (i : nat) (n : string) : vertex := mkV i n KIn 0 [] [n].
Definition constv (i : nat) (n : string) : vertex := mkV i n KConst 0 [] [n].
Definition outputv (i : nat) (n : string) : vertex := mkV i n KOut 0 [] [].
Definition opv (i c : nat) (ins : list string) (o : string) : vertex := mkV i o KOp c ins [o].
Definition rd (a b : nat) (n : string) : edge := mkE a b n n.
Definition res (a b : nat) (n : string) : edge := mkE a b (n ++ "_output") n.

(** Operators on numbers: 0 hands on, 1 is a layer, 2 and 3 undo each other, 4 adds. *)
Definition ex_run (c : nat) (xs : list nat) (k : nat) : nat :=
  match c, xs with
  | 0, x :: _ => x
  | 1, x :: _ => 2 * x + 1
  | 2, x :: _ => S x
  | 3, x :: _ => Nat.pred x
  | 4, [x; y] => x + y
  | _, _ => 0
  end.
Definition ex_noop (v : vertex) : bool := is_kop (v_kind v) && (v_op v =? 0)%nat.

(** layer, two no-ops, layer *)
Definition g_noop : graph nat := build
  [inputv 0 "x"; opv 1 1 ["x"] "a"; opv 2 0 ["a"] "b"; opv 3 0 ["b"] "c"; opv 4 1 ["c"] "y"; outputv 5 "y_output"]
  [rd 0 1 "x"; rd 1 2 "a"; rd 2 3 "b"; rd 3 4 "c"; res 4 5 "y"] [].

(** a no-op beside another reader of its input *)
Definition g_branch : graph nat := build
  [inputv 0 "x"; opv 1 1 ["x"] "a"; opv 2 0 ["a"] "b"; opv 3 1 ["a"] "y"; opv 4 1 ["b"] "z"; outputv 5 "y_output"; outputv 6 "z_output"]
  [rd 0 1 "x"; rd 1 2 "a"; rd 1 3 "a"; rd 2 4 "b"; res 3 5 "y"; res 4 6 "z"] [].

(** two no-ops, each beside another reader *)
Definition g_twice : graph nat := build
  [inputv 0 "x"; opv 1 0 ["x"] "a"; opv 2 0 ["a"] "b"; opv 3 1 ["x"] "p"; opv 4 1 ["a"] "q"; opv 5 1 ["b"] "r";
   outputv 6 "p_output"; outputv 7 "q_output"; outputv 8 "r_output"]
  [rd 0 1 "x"; rd 0 3 "x"; rd 1 2 "a"; rd 1 4 "a"; rd 2 5 "b"; res 3 6 "p"; res 4 7 "q"; res 5 8 "r"] [].

(** two pairs that undo each other, one behind the other *)
Definition g_pairs : graph nat := build
  [inputv 0 "x"; opv 1 1 ["x"] "a"; opv 2 2 ["a"] "b"; opv 3 3 ["b"] "c"; opv 4 2 ["c"] "d"; opv 5 3 ["d"] "e";
   opv 6 1 ["e"] "y"; outputv 7 "y_output"]
  [rd 0 1 "x"; rd 1 2 "a"; rd 2 3 "b"; rd 3 4 "c"; rd 4 5 "d"; rd 5 6 "e"; res 6 7 "y"] [].
Definition pair (a b : nat) : sequence nat := mkS [a; b] true true None.

(** two additions of constants *)
Definition g_sum : graph nat := build
  [inputv 0 "x"; constv 1 "k"; constv 2 "m"; opv 3 4 ["x"; "k"] "s"; opv 4 4 ["s"; "m"] "t"; opv 5 1 ["t"] "y"; outputv 6 "y_output"]
  [rd 0 3 "x"; rd 1 3 "k"; rd 3 4 "s"; rd 2 4 "m"; rd 4 5 "t"; res 5 6 "y"] [("k", 7); ("m", 5)].
Definition ex_sum (v : vertex) : bool := is_kop (v_kind v) && (v_op v =? 4)%nat.
Definition seq_sum : sequence nat := mkS [3; 4] false true (Some (4, [(1, "new", 12)])).

(** a constant behind three operators of which the last one stays *)
Definition g_kept : graph nat := build
  [constv 0 "k"; opv 1 0 ["k"] "a"; opv 2 0 ["a"] "b"; opv 3 0 ["b"] "c"; opv 4 1 ["c"] "y"; outputv 5 "y_output"]
  [rd 0 1 "k"; rd 1 2 "a"; rd 2 3 "b"; rd 3 4 "c"; res 4 5 "y"] [("k", 7)].
Definition seq_kept : sequence nat := mkS [1; 2; 3] true false (Some (0, [])).

(** Names for new constants, one for each list of nodes. *)
Fixpoint unary (n : nat) (s : string) : string := match n with 0 => s | S m => String "1" (unary m s) end.
Fixpoint code (l : list nat) : string := match l with [] => "" | n :: l' => unary n (String "," (code l')) end.
Definition ex_name (l : list nat) : string := "attr" ++ code l.

Lemma unary_inj : forall n m s t, unary n (String "," s) = unary m (String "," t) -> n = m /\ s = t.
Proof.
  induction n as [|n IH]; destruct m as [|m]; simpl; intros s t H; try discriminate.
  - injection H as ->. auto.
  - injection H as H. destruct (IH _ _ _ H) as [-> ->]. auto.
Qed.
Lemma code_inj : forall l m, code l = code m -> l = m.
Proof.
  induction l as [|a l IH]; destruct m as [|b m]; simpl; intros H; auto.
  - destruct b; discriminate.
  - destruct a; discriminate.
  - apply unary_inj in H. destruct H as [-> H]. f_equal. auto.
Qed.
Lemma ex_name_inj l m : ex_name l = ex_name m -> l = m.
Proof. unfold ex_name. simpl. intros H. injection H as H. apply code_inj. exact H. Qed.

(** Tensors: operator 0 is TRANSPOSE, 1 RESHAPE, any other hands on. *)
Definition lay_run (c : nat) (xs : list (val nat)) (k : nat) : val nat :=
  match c, xs with
  | 0, [x; y] => do_transpose 0 x y
  | 1, [x; y] => do_reshape 0 x y
  | _, x :: _ => x
  | _, _ => Ints []
  end.
Definition is_op (c : nat) (v : vertex) : bool := is_kop (v_kind v) && (v_op v =? c)%nat.

(** a transpose by [2;0;1] and one by [0;2;1], which is read twice: once by two transposes that undo each other *)
Definition g_transp : graph (val nat) := build
  [inputv 0 "x"; constv 1 "k"; constv 2 "m"; opv 3 0 ["x"; "k"] "s"; opv 4 0 ["s"; "m"] "t"; opv 5 2 ["t"] "y"; outputv 6 "y_output";
   constv 7 "p"; constv 8 "q"; opv 9 0 ["t"; "p"] "u"; opv 10 0 ["u"; "q"] "w"; opv 11 2 ["w"] "z"; outputv 12 "z_output"]
  [rd 7 9 "p"; rd 8 10 "q"; rd 4 9 "t"; rd 9 10 "u"; rd 10 11 "w"; res 11 12 "z";
   rd 0 3 "x"; rd 1 3 "k"; rd 3 4 "s"; rd 2 4 "m"; rd 4 5 "t"; res 5 6 "y"]
  [("k", Ints [2; 0; 1]); ("m", Ints [0; 2; 1]); ("p", Ints [1; 2; 0]); ("q", Ints [2; 0; 1])].

(** a reshape of a constant [2;3] to [6] and one to [3;2] *)
Definition g_resh : graph (val nat) := build
  [constv 0 "x"; constv 1 "k"; constv 2 "m"; opv 3 1 ["x"; "k"] "s"; opv 4 1 ["s"; "m"] "t"; opv 5 2 ["t"] "y"; outputv 6 "y_output"]
  [rd 0 3 "x"; rd 1 3 "k"; rd 3 4 "s"; rd 2 4 "m"; rd 4 5 "t"; res 5 6 "y"]
  [("x", Data [2; 3] [1; 2; 3; 4; 5; 6]); ("k", Ints [6]); ("m", Ints [3; 2])].

(** * The examples meet the hypotheses *)
Lemma good_noop : good g_noop. Proof. apply goodb_good. vm_compute. reflexivity. Qed.
Lemma good_branch : good g_branch. Proof. apply goodb_good. vm_compute. reflexivity. Qed.
Lemma good_twice : good g_twice. Proof. apply goodb_good. vm_compute. reflexivity. Qed.
Lemma good_pairs : good g_pairs. Proof. apply goodb_good. vm_compute. reflexivity. Qed.
Lemma good_sum : good g_sum. Proof. apply goodb_good. vm_compute. reflexivity. Qed.
Lemma good_kept : good g_kept. Proof. apply goodb_good. vm_compute. reflexivity. Qed.
Lemma good_transp : good g_transp. Proof. apply goodb_good. vm_compute. reflexivity. Qed.
Lemma good_resh : good g_resh. Proof. apply goodb_good. vm_compute. reflexivity. Qed.

Ltac each H := match type of H with _ \/ _ => destruct H as [H|H]; [|each H] | False => destruct H | _ => idtac end.

Lemma ex_hands (g : graph nat) : forallb (fun v => negb (ex_noop v) || (List.length (v_outs v) =? 1)%nat) (g_vs g) = true ->
  forall v, In v (g_vs g) -> ex_noop v = true -> hands_on ex_run v.
Proof.
  intros H v Hv N. rewrite forallb_forall in H. specialize (H v Hv). rewrite N in H. simpl in H. apply Nat.eqb_eq in H.
  split; [exact H|]. unfold ex_noop in N. apply andb_true_iff in N. destruct N as [_ N]. apply Nat.eqb_eq in N. rewrite N. reflexivity.
Qed.

Lemma vertex_at {X} (g : graph X) i v u : NoDup (map v_id (g_vs g)) -> vfind g i = Some u -> In v (g_vs g) -> v_id v = i -> v = u.
Proof. intros N F Hv I. rewrite <- I, (in_vfind g v N Hv) in F. congruence. Qed.

Lemma pair_ok a b va vb i1 i2 i3 : vfind g_pairs a = Some va -> vfind g_pairs b = Some vb ->
  va = opv a 2 [i1] i2 -> vb = opv b 3 [i2] i3 ->
  List.length (filter (fun e => e_src e =? a)%nat (g_es g_pairs)) = 1 -> In (rd a b i2) (g_es g_pairs) ->
  writer (g_vs g_pairs) i2 = Some (va, 0) -> writer (g_vs g_pairs) i3 = Some (vb, 0) ->
  chain g_pairs 0 (pair a b) /\ edits g_pairs (pair a b) /\ neutral ex_run g_pairs 0 (pair a b).
Proof.
  intros Fa Fb Ea Eb O IE Wa Wb. assert (N := ok_ids _ good_pairs).
  destruct (vfind_in _ _ _ Fa) as [Ha Ia]. destruct (vfind_in _ _ _ Fb) as [Hb Ib].
  split; [|split].
  - split; [reflexivity|]. split; [simpl; auto|]. split; [|split; [reflexivity|split]].
    + intros k x y Hx Hy. destruct k as [|[|k]]; try discriminate Hy. injection Hx as <-. injection Hy as <-. split.
      * exists va, vb, i2. rewrite Ea, Eb. simpl. rewrite <- Ea, <- Eb. auto 10.
      * intros _ e He Se. destruct (filter (fun e => e_src e =? a)%nat (g_es g_pairs)) as [|e1 [|]] eqn:F; try discriminate.
        assert (In e [e1]) as Q1 by (rewrite <- F; apply filter_In; split; auto; apply Nat.eqb_eq; exact Se).
        assert (In (rd a b i2) [e1]) as Q2 by (rewrite <- F; apply filter_In; split; auto; apply Nat.eqb_refl).
        destruct Q1 as [<-|[]]. destruct Q2 as [->|[]]. reflexivity.
    + intros _. exists va, i1, i2. rewrite Ea. simpl. rewrite <- Ea. auto.
    + intros Q. exfalso. apply Q. reflexivity.
  - intros c l v i n x Q. discriminate.
  - intros inp vl l GV Hvl Il Ol v n x Hv Iv Nv [f CX]. cbn [s_nodes pair last s_rf nth] in *.
    rewrite (vertex_at g_pairs b vl vb N Fb Hvl Il) in Ol. rewrite (vertex_at g_pairs a v va N Fa Hv Iv) in Nv.
    rewrite Eb in Ol. injection Ol as <-. rewrite Ea in Nv. injection Nv as <-.
    exists (S (S f)). cbn [eval]. rewrite Wb, Eb. cbn [v_kind v_ins v_op opv map]. cbn [eval]. rewrite Wa, Ea. cbn [v_kind v_ins v_op opv map].
    cbn [all map]. rewrite CX. reflexivity.
Qed.

Lemma pairs_ok s : In s [pair 2 3; pair 4 5] -> chain g_pairs 0 s /\ edits g_pairs s /\ neutral ex_run g_pairs 0 s.
Proof.
  intros [<-|[<-|[]]]; eapply pair_ok; try reflexivity; simpl; auto 10.
Qed.

Lemma pairs_separate : separate g_pairs 0 [pair 2 3; pair 4 5].
Proof.
  constructor.
  - simpl. repeat constructor; simpl; intuition discriminate.
  - intros s [<-|[<-|[]]]; discriminate.
  - constructor; [|repeat constructor]. constructor; [|constructor]. intros _ u v n Hu Iu Nu Hv Ov. left. intros F. cbn in Iu, F.
    rewrite (vertex_at g_pairs 2 u (opv 2 2 ["a"] "b") (ok_ids _ good_pairs) eq_refl Hu Iu) in Nu. injection Nu as <-.
    rewrite (vertex_at g_pairs 5 v (opv 5 3 ["d"] "e") (ok_ids _ good_pairs) eq_refl Hv F) in Ov. simpl in Ov. intuition discriminate.
  - constructor.
Qed.

Lemma pairs_wrong_order : (forall s, In s [pair 4 5; pair 2 3] -> chain g_pairs 0 s /\ edits g_pairs s /\ neutral ex_run g_pairs 0 s) /\
  NoDup (flat_map gone [pair 4 5; pair 2 3]) /\ eliminate 0 false g_pairs [pair 4 5; pair 2 3] = None.
Proof.
  split; [|split].
  - intros s Hs. apply pairs_ok. simpl in *. intuition auto.
  - simpl. repeat constructor; simpl; intuition discriminate.
  - vm_compute. reflexivity.
Qed.

Lemma sum_ok s : In s [seq_sum] -> chain g_sum 0 s /\ edits g_sum s /\ neutral ex_run g_sum 0 s.
Proof.
  intros [<-|[]]. assert (N := ok_ids _ good_sum). split; [|split].
  - split; [reflexivity|]. split; [simpl; auto|]. split; [|split; [discriminate|split]].
    + intros k x y Hx Hy. destruct k as [|[|k]]; try discriminate Hy. injection Hx as <-. injection Hy as <-. split.
      * exists (opv 3 4 ["x"; "k"] "s"), (opv 4 4 ["s"; "m"] "t"), "s". simpl. auto 20.
      * intros _ e He Se. simpl in He. each He; subst e; try discriminate Se; reflexivity.
    + intros _. exists (opv 3 4 ["x"; "k"] "s"), "x", "s". simpl. auto 20.
    + intros _. reflexivity.
  - intros c l v i n x Q Hin Hv Iv. injection Q as <- <-. destruct Hin as [Q|[]]. injection Q as <- <- <-.
    rewrite (vertex_at g_sum 3 v (opv 3 4 ["x"; "k"] "s") N eq_refl Hv Iv).
    split; [reflexivity|]. split.
    + intros u Hu. simpl in Hu. each Hu; subst u; simpl; repeat split; intuition discriminate.
    + exists "k", (constv 1 "k"). split; [reflexivity|]. split; [intros [|[|[|j]]] E; simpl in E; try discriminate; auto|].
      simpl. auto 20.
  - intros inp vl l GV Hvl Il Ol v xs x Hv Iv F2 [f CX]. cbn [s_nodes seq_sum last hd] in *.
    rewrite (vertex_at g_sum 4 vl (opv 4 4 ["s"; "m"] "t") N eq_refl Hvl Il) in Ol. injection Ol as <-.
    rewrite (vertex_at g_sum 3 v (opv 3 4 ["x"; "k"] "s") N eq_refl Hv Iv) in F2. cbn [v_ins opv] in F2.
    inversion F2 as [|? x1 ? l1 H1 F3]; subst. inversion F3 as [|? x2 ? l2 H2 F4]; subst. inversion F4; subst.
    assert (C : computes ex_run g_sum inp "t" (x1 + 7 + 5)).
    { destruct H1 as [f1 H1]. exists (S (S (S f1))). pose proof (eval_mono ex_run inp g_sum f1 "x" x1 H1 (S f1) ltac:(auto)) as H1'.
      change (eval ex_run g_sum inp (S (S (S f1))) "t") with
        (match all [match all [eval ex_run g_sum inp (S f1) "x"; eval ex_run g_sum inp (S f1) "k"] with
                    | Some xs => Some (ex_run 4 xs 0) | None => None end; eval ex_run g_sum inp (S (S f1)) "m"] with
         | Some xs => Some (ex_run 4 xs 0) | None => None end).
      rewrite H1'. reflexivity. }
    assert (x = x1 + 7 + 5) by (apply (computes_fun ex_run inp g_sum "t"); auto; exists f; exact CX). subst x. cbn. lia.
Qed.

Lemma sum_separate : separate g_sum 0 [seq_sum].
Proof.
  constructor.
  - simpl. repeat constructor; simpl; intuition discriminate.
  - intros s [<-|[]] _. simpl. intuition discriminate.
  - repeat constructor.
  - simpl. repeat constructor; simpl; intuition discriminate.
Qed.

Lemma noop_hands : forall v, In v (g_vs g_noop) -> ex_noop v = true -> hands_on ex_run v.
Proof. apply ex_hands. reflexivity. Qed.
Lemma branch_hands : forall v, In v (g_vs g_branch) -> ex_noop v = true -> hands_on ex_run v.
Proof. apply ex_hands. reflexivity. Qed.
Lemma twice_hands : forall v, In v (g_vs g_twice) -> ex_noop v = true -> hands_on ex_run v.
Proof. apply ex_hands. reflexivity. Qed.
Lemma branch_edges : NoDup (map (fun e => (e_src e, e_dst e)) (g_es g_branch)).
Proof. simpl. repeat constructor; simpl; intuition discriminate. Qed.
Lemma branch_apart : forall u v, reads_first g_branch u v -> ex_noop u = true -> ex_noop v = true -> False.
Proof.
  intros u v [Hu [Hv [K [n [NI NO]]]]] Nu Nv. simpl in Hu, Hv. each Hu; subst u; try discriminate Nu; each Hv; subst v; try discriminate Nv.
  simpl in NI, NO. injection NI as <-. intuition discriminate.
Qed.
Lemma twice_edges : NoDup (map (fun e => (e_src e, e_dst e)) (g_es g_twice)).
Proof. simpl. repeat constructor; simpl; intuition discriminate. Qed.
Lemma twice_none : remove_noop ex_noop true g_twice = None /\ remove_noop ex_noop false g_twice = Some g_twice.
Proof. split; vm_compute; reflexivity. Qed.

Lemma kept_result : exists g', eliminate 0 false g_kept [seq_kept] = Some g' /\
  computes ex_run g_kept (fun _ => None) "y" 15 /\ (forall x, ~ computes ex_run g' (fun _ => None) "y" x) /\
  exists v, In v (g_vs g') /\ v_kind v = KConst /\ v_outs v = ["b"] /\ g_buf g' "b" = None /\ g_buf g' "c" = Some 7.
Proof.
  eexists. split; [vm_compute; reflexivity|]. split; [exists 5; vm_compute; reflexivity|]. split.
  - intros x [f H]. do 5 (destruct f as [|f]; [discriminate|]). vm_compute in H. discriminate.
  - eexists. split; [left; reflexivity|]. vm_compute. auto.
Qed.

Lemma has_edge i (l : list edge) : existsb (fun e => e_src e =? i)%nat l = true -> exists e, In e l /\ e_src e = i.
Proof. intros H. apply existsb_exists in H. destruct H as [e [He E]]. exists e. split; auto. apply Nat.eqb_eq. exact E. Qed.

Lemma sum_acting : acting ex_run g_sum ex_sum Nat.add.
Proof.
  intros v Hv C. simpl in Hv. each Hv; subst v; try discriminate C; (split; [reflexivity|split; [|reflexivity]]).
  - exists "x", "k", (constv 1 "k"). split; [reflexivity|]. split; [discriminate|]. simpl. auto 10.
  - exists "s", "m", (constv 2 "m"). split; [reflexivity|]. split; [discriminate|]. simpl. auto 10.
Qed.
Lemma sum_once : in_line g_sum ex_sum.
Proof. intros v Hv C. simpl in Hv. each Hv; subst v; try discriminate C; (split; [reflexivity|split; [reflexivity|split; [eexists; reflexivity|split; [apply has_edge; reflexivity|]]]]);
    intros w Cw [_ [Hw [_ [n [NI NO]]]]]; simpl in Hw; each Hw; subst w; try discriminate Cw; try reflexivity; simpl in NI, NO; injection NI as <-;
    exfalso; intuition discriminate.
Qed.

Lemma names_fresh {X} (g : graph X) : forallb (fun v => forallb (fun n => negb (String.prefix "attr" n)) (v_name v :: v_ins v ++ v_outs v)) (g_vs g) = true ->
  forall l u, In u (g_vs g) -> ~ In (ex_name l) (v_outs u) /\ ~ In (ex_name l) (v_ins u) /\ ex_name l <> v_name u.
Proof.
  intros H l u Hu. rewrite forallb_forall in H. specialize (H u Hu). rewrite forallb_forall in H.
  assert (P : String.prefix "attr" (ex_name l) = true) by (unfold ex_name; simpl; destruct (code l); reflexivity).
  assert (Q : ~ In (ex_name l) (v_name u :: v_ins u ++ v_outs u)).
  { intros F. specialize (H _ F). rewrite P in H. discriminate. }
  simpl in Q. split; [|split].
  - intros F. apply Q. right. apply in_or_app. auto.
  - intros F. apply Q. right. apply in_or_app. auto.
  - intros F. apply Q. auto.
Qed.

Lemma transp_acting : acting lay_run g_transp (is_op 0) (do_transpose 0).
Proof.
  intros v Hv C. simpl in Hv. each Hv; subst v; try discriminate C; (split; [reflexivity|split; [|reflexivity]]).
  - exists "x", "k", (constv 1 "k"). split; [reflexivity|]. split; [discriminate|]. simpl. auto 10.
  - exists "s", "m", (constv 2 "m"). split; [reflexivity|]. split; [discriminate|]. simpl. auto 10.
  - exists "t", "p", (constv 7 "p"). split; [reflexivity|]. split; [discriminate|]. simpl. auto 20.
  - exists "u", "q", (constv 8 "q"). split; [reflexivity|]. split; [discriminate|]. simpl. auto 20.
Qed.
Lemma transp_once : in_line g_transp (is_op 0).
Proof. intros v Hv C. simpl in Hv. each Hv; subst v; try discriminate C; (split; [reflexivity|split; [reflexivity|split; [eexists; reflexivity|split; [apply has_edge; reflexivity|]]]]);
    intros w Cw [_ [Hw [_ [n [NI NO]]]]]; simpl in Hw; each Hw; subst w; try discriminate Cw; try reflexivity; simpl in NI, NO; injection NI as <-;
    exfalso; intuition discriminate.
Qed.
Lemma transp_meet u v p q : is_op 0 u = true -> is_op 0 v = true -> reads_first g_transp u v ->
  constant_of g_transp u p -> constant_of g_transp v q -> perms_meet p q.
Proof.
  intros Cu Cv [Hu [Hv [_ [n [NI NO]]]]] [a [A1 A2]] [b [B1 B2]].
  assert (P3 : forall x y z : nat, NoDup [x; y; z] -> x < 3 -> y < 3 -> z < 3 -> is_perm 3 [x; y; z]).
  { intros x y z N X Y Z. apply is_perm_intro; [reflexivity|exact N|]. do 3 (constructor; [assumption|]). constructor. }
  simpl in Hu, Hv. each Hu; subst u; try discriminate Cu; each Hv; subst v; try discriminate Cv; simpl in *; injection NI as <-;
    try (destruct NO as [NO|[]]; discriminate NO);
    injection A1 as <-; injection B1 as <-; injection A2 as <-; injection B2 as <-;
    (eexists 3, _, _; split; [reflexivity|]; split; [reflexivity|];
     split; apply P3; try lia; repeat constructor; simpl; intuition lia).
Qed.

Lemma resh_acting : acting lay_run g_resh (is_op 1) (do_reshape 0).
Proof.
  intros v Hv C. simpl in Hv. each Hv; subst v; try discriminate C; (split; [reflexivity|split; [|reflexivity]]).
  - exists "x", "k", (constv 1 "k"). split; [reflexivity|]. split; [discriminate|]. simpl. auto 10.
  - exists "s", "m", (constv 2 "m"). split; [reflexivity|]. split; [discriminate|]. simpl. auto 10.
Qed.
Lemma resh_once : in_line g_resh (is_op 1).
Proof. intros v Hv C. simpl in Hv. each Hv; subst v; try discriminate C; (split; [reflexivity|split; [reflexivity|split; [eexists; reflexivity|split; [apply has_edge; reflexivity|]]]]);
    intros w Cw [_ [Hw [_ [n [NI NO]]]]]; simpl in Hw; each Hw; subst w; try discriminate Cw; try reflexivity; simpl in NI, NO; injection NI as <-;
    exfalso; intuition discriminate.
Qed.
Lemma resh_meet u v p q : is_op 1 u = true -> is_op 1 v = true -> reads_first g_resh u v ->
  constant_of g_resh u p -> constant_of g_resh v q -> shapes_meet p q.
Proof.
  intros Cu Cv [Hu [Hv [_ [n [NI NO]]]]] [a [A1 A2]] [b [B1 B2]].
  simpl in Hu, Hv. each Hu; subst u; try discriminate Cu; each Hv; subst v; try discriminate Cv; simpl in *; injection NI as <-;
    try (destruct NO as [NO|[]]; discriminate NO).
  injection A1 as <-. injection B1 as <-. injection A2 as <-. injection B2 as <-.
  exists [6], [3; 2]. auto.
Qed.
Definition resh_shape (n : string) : list nat := if String.eqb n "x" then [2; 3] else [6].
Lemma resh_shapes inp v n x : In v (g_vs g_resh) -> is_op 1 v = true -> nth_error (v_ins v) 0 = Some n -> given g_resh inp ->
  computes lay_run g_resh inp n x -> has_shape (resh_shape n) x.
Proof.
  intros Hv C NI _ CX. simpl in Hv. each Hv; subst v; try discriminate C; simpl in NI; injection NI as <-.
  - assert (x = Data [2; 3] [1; 2; 3; 4; 5; 6]) as -> by (apply (computes_fun lay_run inp g_resh "x"); auto; exists 1; reflexivity).
    eexists. split; reflexivity.
  - assert (x = Data [6] [1; 2; 3; 4; 5; 6]) as -> by (apply (computes_fun lay_run inp g_resh "s"); auto; exists 2; vm_compute; reflexivity).
    eexists. split; reflexivity.
Qed.
