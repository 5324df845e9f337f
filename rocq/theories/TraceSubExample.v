(* Small traced graphs for the removal of dead nodes and the extraction of a
   part, and extractions that do not keep the meaning. *)
From Coq Require Import List Arith Bool Lia.
From Verif Require Import TraceSpec TraceModel TraceSubSpec TraceSubModel TraceExample TraceInsertExample TraceInsertRefuted.
Import ListNotations.

Lemma of_table_sources : forall l ins fwd outs consts tensors,
  forallb (fun x => negb (nonempty (n_prevs (table l x)))) ins = true ->
  forallb (fun n => implb (is_const (n_kind n)) (negb (nonempty (n_prevs n)))) l = true ->
  sources (of_table l ins fwd outs consts tensors).
Proof.
  intros l ins fwd outs consts tensors H1 H2 x H. rewrite forallb_forall in H1, H2. cbn in H. cbn.
  destruct H as [H|H].
  - specialize (H1 x H). destruct (n_prevs (table l x)); [reflexivity|discriminate].
  - destruct (Nat.lt_ge_cases x (length l)) as [Hx|Hx].
    + specialize (H2 (table l x) (nth_In l nobody Hx)). rewrite H in H2. cbn in H2.
      destruct (n_prevs (table l x)); [reflexivity|discriminate].
    + unfold table. now rewrite nth_overflow.
Qed.

(* what is needed stays inside a list *)
Lemma needed_within : forall g stop roots l,
  forallb (fun x => inb x l) roots = true ->
  forallb (fun x => inb x stop || forallb (fun p => inb p l) (n_prevs (g_node g x))) l = true ->
  forall x, needed g stop roots x -> In x l.
Proof.
  intros g stop roots l H1 H2 x H. rewrite forallb_forall in H1, H2.
  induction H as [x Hx|x p Hx IH Hs Hp]; [apply inb_In; now apply H1|].
  specialize (H2 x IH). apply orb_prop in H2 as [H2|H2]; [apply inb_In in H2; contradiction|].
  rewrite forallb_forall in H2. apply inb_In. now apply H2.
Qed.

(* y = b(a(x)), and z + weight is computed for nothing *)
Definition wasteful : graph := of_table [
    mknode KIn [] [2] [] [TT 0] [] 0 false;
    mknode KIn [] [3] [] [TT 1] [] 0 false;
    mknode KMod [0] [5] [0] [TT 2] [[]] 0 false;
    mknode (KFun false [mkref false 1 []; mkref true 4 []])
      [1; 4] [] [1; 4] [TT 3] [[]; []] 0 false;
    mknode KConst [] [3] [] [TT 4] [] 0 false;
    mknode KMod [2] [6] [2] [TT 5] [[]] 0 false;
    mknode KOut [5] [] [5] [] [[]] 0 false]
  [0; 1] [2; 3; 5] [6] [4] 6.

Lemma wasteful_linked : linked wasteful.
Proof. now apply of_table_linked. Qed.
Lemma wasteful_sources : sources wasteful.
Proof. now apply of_table_sources. Qed.

(* r = a(x); s = b(r); y = d(c(s) + s) *)
Definition residual : graph := of_table [
    mknode KIn [] [1] [] [TT 0] [] 0 false;
    mknode KMod [0] [2] [0] [TT 1] [[]] 0 false;
    mknode KMod [1] [3; 4] [1] [TT 2] [[]] 0 false;
    mknode KMod [2] [4] [2] [TT 3] [[]] 0 false;
    mknode (KFun false [mkref false 3 []; mkref false 2 []]) [3; 2] [5] [3; 2] [TT 4] [[]; []] 0 false;
    mknode KMod [4] [6] [4] [TT 5] [[]] 0 false;
    mknode KOut [5] [] [5] [] [[]] 0 false]
  [0] [1; 2; 3; 4; 5] [6] [] 6.

Lemma residual_linked : linked residual.
Proof. now apply of_table_linked. Qed.
Lemma residual_sources : sources residual.
Proof. now apply of_table_sources. Qed.

(* y = b(a(c[1])) with c = x.chunk(2) *)
Definition half : graph := of_table [
    mknode KIn [] [1] [] [TT 0] [] 0 false;
    mknode (KFun true [mkref false 0 []]) [0] [2] [0] [TT 1; TT 2] [[]] 0 false;
    mknode KMod [1] [3] [2] [TT 3] [[1]] 0 false;
    mknode KMod [2] [4] [3] [TT 4] [[]] 0 false;
    mknode KOut [3] [] [4] [] [[]] 0 false]
  [0] [1; 2; 3] [4] [] 5.

Lemma half_linked : linked half.
Proof. now apply of_table_linked. Qed.
Lemma half_sources : sources half.
Proof. now apply of_table_sources. Qed.

(* y = b(a(x)) + weight *)
Definition weighted : graph := of_table [
    mknode KIn [] [1] [] [TT 0] [] 0 false;
    mknode KMod [0] [2] [0] [TT 1] [[]] 0 false;
    mknode KMod [1] [4] [1] [TT 2] [[]] 0 false;
    mknode KConst [] [4] [] [TT 3] [] 0 false;
    mknode (KFun false [mkref false 2 []; mkref true 3 []]) [2; 3] [5] [2; 3] [TT 4] [[]; []] 0 false;
    mknode KOut [4] [] [4] [] [[]] 0 false]
  [0] [1; 2; 4] [5] [3] 5.

Lemma weighted_linked : linked weighted.
Proof. now apply of_table_linked. Qed.
Lemma weighted_sources : sources weighted.
Proof. now apply of_table_sources. Qed.

(* y = d(c(b(a(x)))) *)
Definition chain : graph := of_table [
    mknode KIn [] [1] [] [TT 0] [] 0 false;
    mknode KMod [0] [2] [0] [TT 1] [[]] 0 false;
    mknode KMod [1] [3] [1] [TT 2] [[]] 0 false;
    mknode KMod [2] [4] [2] [TT 3] [[]] 0 false;
    mknode KMod [3] [5] [3] [TT 4] [[]] 0 false;
    mknode KOut [4] [] [4] [] [[]] 0 false]
  [0] [1; 2; 3; 4] [5] [] 5.

Lemma chain_linked : linked chain.
Proof. now apply of_table_linked. Qed.
Lemma chain_sources : sources chain.
Proof. now apply of_table_sources. Qed.

Definition whole (_ : nat) : list nat := [].

(* the inputs of a function are not replaced in its line *)
Lemma function_first : exists g ins outs h b, linked g /\ sources g /\ NoDup ins /\ cut_off g ins outs /\
  (forall x, In x (ins ++ outs) -> In x (g_fwd g)) /\
  extract g ins outs whole = Some h /\ gen (recompute h) = Some b /\
  forall V pick attr (sem : nat -> list V -> option V) args, run pick attr sem b args = None.
Proof.
  exists residual, [4], [5]. set (h := get small (extract residual [4] [5] whole)). exists h, (code h).
  split; [exact residual_linked|]. split; [exact residual_sources|]. split; [repeat constructor; cbn; tauto|].
  split.
  { intros x Hx Hi Hp. apply (needed_within residual [4] [5] [4; 5]) in Hx; [|reflexivity|reflexivity].
    destruct Hx as [<-|[<-|[]]]; discriminate. }
  split; [cbn; tauto|]. split; [some|]. split; [some|].
  intros V pick attr sem args.
  assert (E : code h = mkprog [7; 8] [Assign 4 [mkref false 3 []; mkref false 2 []]; Release 7; Release 8;
                                      Assign 5 [mkref false 4 []]; Release 4] [[mkref false 5 []]])
    by (vm_compute; reflexivity).
  rewrite E. destruct args as [|u [|v [|w args]]]; reflexivity.
Qed.

(* a part of a result is taken of the new input again *)
Lemma part_first : exists g ins outs h b, linked g /\ sources g /\ NoDup ins /\ cut_off g ins outs /\
  (forall x, In x ins -> n_kind (g_node g x) = KMod) /\
  extract g ins outs whole = Some h /\ gen (recompute h) = Some b /\
  exists v e0 e1 args, params (g_in g) [v] = Some e0 /\
    exec sub_tree weight (splits (g_fresh g)) (p_body (plain g)) e0 = Some e1 /\
    traverse (read sub_tree weight e1) (flat_map (refs g) ins) = Some args /\
    length args = length (p_params b) /\
    traverse (traverse (read sub_tree weight e1)) (flat_map (fun x => groups whole x (g_node g x)) outs) <> None /\
    run sub_tree weight (splits (g_fresh g)) b args = None.
Proof.
  exists half, [2], [3]. set (h := get small (extract half [2] [3] whole)). exists h, (code h).
  split; [exact half_linked|]. split; [exact half_sources|]. split; [repeat constructor; cbn; tauto|].
  split.
  { intros x Hx Hi Hp. apply (needed_within half [2] [3] [2; 3]) in Hx; [|reflexivity|reflexivity].
    destruct Hx as [<-|[<-|[]]]; discriminate. }
  split; [intros x [<-|[]]; reflexivity|]. split; [some|]. split; [some|].
  set (nowhere := fun _ : nat => @None tree).
  set (e0 := get nowhere (params (g_in half) [Leaf 1])).
  set (e1 := get nowhere (exec sub_tree weight (splits (g_fresh half)) (p_body (plain half)) e0)).
  exists (Leaf 1), e0, e1, (get [] (traverse (read sub_tree weight e1) (flat_map (refs half) [2]))).
  split; [some|]. split; [some|]. split; [some|]. split; [vm_compute; reflexivity|].
  split; [vm_compute; discriminate|vm_compute; reflexivity].
Qed.

(* a result that an input node reads is not computed: the new input is returned *)
Lemma taken_result : exists g ins outs x h b, linked g /\ sources g /\ NoDup ins /\ cut_off g ins outs /\
  (forall y, In y ins -> ~ In y outs /\ plain_call (g_node g y)) /\
  In x outs /\ In x (g_fwd g) /\ extract g ins outs whole = Some h /\ ~ In x (g_fwd h) /\
  gen (recompute h) = Some b /\
  forall V pick attr (sem : nat -> list V -> option V) v r, run pick attr sem b [v] = Some r -> nth_error r 0 = Some [v].
Proof.
  exists chain, [1; 3], [2; 4], 2. set (h := get small (extract chain [1; 3] [2; 4] whole)). exists h, (code h).
  split; [exact chain_linked|]. split; [exact chain_sources|].
  split; [repeat constructor; cbn; intuition discriminate|].
  split.
  { intros x Hx Hi Hp. apply (needed_within chain [1; 3] [2; 4] [1; 2; 3; 4]) in Hx; [|reflexivity|reflexivity].
    destruct Hx as [<-|[<-|[<-|[<-|[]]]]]; discriminate. }
  split; [intros y [<-|[<-|[]]]; (split; [cbn; intuition discriminate|repeat split])|].
  split; [cbn; tauto|]. split; [cbn; tauto|]. split; [some|]. split; [vm_compute; intuition discriminate|]. split; [some|].
  intros V pick attr sem v r.
  assert (E : code h = mkprog [7] [Assign 3 [mkref false 7 []]; Assign 4 [mkref false 3 []]; Release 3]
                         [[mkref false 7 []]; [mkref false 4 []]])
    by (vm_compute; reflexivity).
  rewrite E. unfold run. cbn [p_params p_body p_ret params exec step bind traverse].
  unfold read, bindv. cbn. destruct (sem 3 [v]) as [a|]; cbn; [|discriminate].
  destruct (sem 4 [a]) as [c|]; cbn; [|discriminate]. intro H. injection H as <-. reflexivity.
Qed.

(* a part that reads a constant is rejected *)
Lemma constant_inside : exists g ins outs, linked g /\ sources g /\
  (forall x, In x ins -> In x (g_fwd g) /\ ~ In x outs /\ plain_call (g_node g x)) /\
  (forall x, In x outs -> In x (g_fwd g)) /\
  (forall x, needed g ins outs x -> In x (g_fwd g) \/ In x (g_const g)) /\
  forall pos, extract g ins outs pos = None.
Proof.
  exists weighted, [2], [4]. split; [exact weighted_linked|]. split; [exact weighted_sources|].
  split; [intros x [<-|[]]; split; [cbn; tauto|]; (split; [cbn; intuition discriminate|repeat split])|].
  split; [intros x [<-|[]]; cbn; tauto|]. split.
  - intros x Hx. apply (needed_within weighted [2] [4] [2; 3; 4]) in Hx; [|reflexivity|reflexivity]. cbn in *. tauto.
  - intro pos. reflexivity.
Qed.
