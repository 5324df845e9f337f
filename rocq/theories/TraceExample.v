(* A decision procedure for [linked], and small traced graphs that show that
   the hypotheses about graphs are met. *)
From Coq Require Import List Arith Bool Lia.
From Verif Require Import TraceSpec.
Import ListNotations.

Definition nobody : node := mknode KMod [] [] [] [] [] 0 false.
Definition table (l : list node) (x : nat) : node := nth x l nobody.
(* a graph given by a list of nodes *)
Definition of_table (l : list node) (ins fwd outs consts : list nat) (tensors : nat) : graph :=
  mkgraph (table l) ins fwd outs consts (length l) tensors (fun _ => [2]).

Definition ref_dec (r s : ref) : {r = s} + {r <> s}.
Proof. decide equality; [apply (list_eq_dec Nat.eq_dec)|apply Nat.eq_dec|apply Bool.bool_dec]. Defined.

Definition inb (x : nat) (l : list nat) : bool := if in_dec Nat.eq_dec x l then true else false.
Fixpoint nodupb (l : list nat) : bool :=
  match l with [] => true | x :: t => negb (inb x t) && nodupb t end.
Definition same_refs (a b : list ref) : bool := if list_eq_dec ref_dec a b then true else false.
Definition nonempty {A} (l : list A) : bool := match l with [] => false | _ => true end.
Definition tag (n : node) : nat := match n_kind n with KIn => 0 | KOut => 1 | KConst => 2 | _ => 3 end.
Definition defb (g : graph) (x : nat) : bool :=
  inb x (g_in g) || inb x (g_fwd g) || is_const (n_kind (g_node g x)).

Definition fwd_ok (g : graph) (x : nat) : bool :=
  match n_kind (g_node g x) with
  | KMod => true
  | KFun cls names => same_refs names (refs g x) && implb cls (nonempty names)
  | _ => false
  end.
Definition prev_ok (g : graph) (x i : nat) : bool :=
  match nth_error (n_prevs (g_node g x)) i with
  | None => true
  | Some p => defb g p && inb x (n_nexts (g_node g p)) && (p <? g_fresh g) &&
    match nth_error (n_prevt (g_node g x)) i with Some t => inb t (produced (g_node g p)) | None => false end
  end.
Definition own_ok (g : graph) (x i p : nat) : bool :=
  match nth_error (n_prevt (g_node g x)) i, nth_error (n_prevs (g_node g x)) i with
  | Some t, Some q => implb (inb x (n_nexts (g_node g p)) && inb t (produced (g_node g p))) (q =? p)
  | _, _ => true
  end.

Definition checkb (size : nat) (g : graph) : bool :=
  let lives := g_fwd g ++ g_out g in
  let all := seq 0 size in
  nodupb (g_in g ++ g_fwd g ++ g_out g) &&
  forallb (fun x => length (n_prevs (g_node g x)) <=? length (n_previ (g_node g x))) lives &&
  forallb (fwd_ok g) (g_fwd g) &&
  forallb (fun x => nonempty (n_prevs (g_node g x))) (g_out g) &&
  forallb (fun x => tag (g_node g x) =? 0) (g_in g) &&
  forallb (fun x => tag (g_node g x) =? 1) (g_out g) &&
  forallb (fun x => tag (g_node g x) =? 2) (g_const g) &&
  forallb (fun x => forallb (prev_ok g x) (seq 0 (length (n_prevs (g_node g x))))) lives &&
  forallb (fun x => forallb (fun i => forallb (own_ok g x i) all) (seq 0 (length (n_prevs (g_node g x))))) lives &&
  forallb (fun x => x <? g_fresh g) (g_in g ++ lives ++ g_const g) &&
  forallb (fun p => forallb (fun x => x <? g_fresh g) (n_nexts (g_node g p))) all &&
  forallb (fun x => forallb (fun t => t <? g_tensor g) (produced (g_node g x))) all.

Lemma inb_In : forall x l, inb x l = true <-> In x l.
Proof. intros. unfold inb. destruct (in_dec Nat.eq_dec x l); split; auto; discriminate. Qed.

Lemma nodupb_NoDup : forall l, nodupb l = true -> NoDup l.
Proof.
  induction l as [|x t IH]; cbn; intro H; [constructor|]. apply andb_prop in H as [H1 H2].
  constructor; [|auto]. rewrite <- inb_In. intro K. now rewrite K in H1.
Qed.

Lemma defb_defined : forall g x, defb g x = true -> defined g x.
Proof.
  intros g x H. unfold defb in H. apply orb_prop in H as [H|H]; [apply orb_prop in H as [H|H]|].
  - left. now apply inb_In.
  - right. left. now apply inb_In.
  - right. now right.
Qed.

Lemma checkb_linked : forall size g, (forall x, size <= x -> g_node g x = nobody) ->
  checkb size g = true -> linked g.
Proof.
  intros size g Hbig H. unfold checkb in H. repeat (apply andb_prop in H as [H ?]).
  repeat match goal with K : forallb _ _ = true |- _ => rewrite forallb_forall in K end.
  assert (Hl : forall x, live g x -> In x (g_fwd g ++ g_out g)) by (intros x K; apply in_or_app; exact K).
  assert (Hs : forall x, x < size \/ g_node g x = nobody) by (intro x; destruct (Nat.lt_ge_cases x size); auto).
  assert (Hprev : forall x i p, live g x -> nth_error (n_prevs (g_node g x)) i = Some p -> prev_ok g x i = true).
  { intros x i p Hx Hp.
    match goal with K : forall x, In x _ -> forallb (prev_ok g x) _ = true |- _ => specialize (K x (Hl x Hx)); rewrite forallb_forall in K; apply K end.
    apply in_seq. split; [lia|]. apply nth_error_Some. congruence. }
  constructor; [constructor|..].
  - now apply nodupb_NoDup.
  - intros x Hx. apply Nat.leb_le. auto.
  - intros x Hx.
    match goal with K : forall x, In x _ -> fwd_ok g x = true |- _ => specialize (K x Hx); unfold fwd_ok in K end.
    destruct (n_kind (g_node g x)) as [ | | | |c names]; try discriminate; [exact I|].
    match goal with K : _ && _ = true |- _ => apply andb_prop in K as [K1 K2] end.
    unfold same_refs in K1. destruct (list_eq_dec ref_dec names (refs g x)); [|discriminate].
    split; [assumption|]. intros -> E. rewrite E in K2. discriminate.
  - intros x Hx E.
    match goal with K : forall x, In x (g_out g) -> nonempty _ = true |- _ => specialize (K x Hx); now rewrite E in K end.
  - intros x Hx.
    match goal with K : forall x, In x (g_in g) -> (tag _ =? 0) = true |- _ => specialize (K x Hx); apply Nat.eqb_eq in K; unfold tag in K end.
    destruct (n_kind (g_node g x)); congruence.
  - intros x Hx.
    match goal with K : forall x, In x (g_out g) -> (tag _ =? 1) = true |- _ => specialize (K x Hx); apply Nat.eqb_eq in K; unfold tag in K end.
    destruct (n_kind (g_node g x)); congruence.
  - intros x Hx.
    match goal with K : forall x, In x (g_const g) -> (tag _ =? 2) = true |- _ => specialize (K x Hx); apply Nat.eqb_eq in K; unfold tag in K end.
    destruct (n_kind (g_node g x)); congruence.
  - intros x i p Hx Hp. pose proof (Hprev x i p Hx Hp) as K. unfold prev_ok in K. rewrite Hp in K.
    repeat (apply andb_prop in K as [K ?]).
    split; [now apply defb_defined|]. split; [now apply inb_In|].
    destruct (nth_error (n_prevt (g_node g x)) i) as [t|]; [|discriminate]. exists t. split; [reflexivity|now apply inb_In].
  - intros x i p t Hx Hn Ht Hp Hi.
    destruct (Hs p) as [Hb|Hb]; [|rewrite Hb in Hp; destruct Hp].
    match goal with K : forall x, In x _ -> forallb (fun i => forallb (own_ok g x i) _) _ = true |- _ =>
      specialize (K x (Hl x Hx)); rewrite forallb_forall in K; specialize (K i); rewrite forallb_forall in K;
      assert (K2 : own_ok g x i p = true) by (apply K; apply in_seq; lia) end.
    unfold own_ok in K2. rewrite Ht in K2. destruct (nth_error (n_prevs (g_node g x)) i) as [q|] eqn:Eq.
    + rewrite (proj2 (inb_In _ _) Hn), (proj2 (inb_In _ _) Hp) in K2. cbn in K2. apply Nat.eqb_eq in K2. now subst.
    + apply nth_error_None in Eq. lia.
  - intros x Hx. apply Nat.ltb_lt.
    match goal with K : forall x, In x (g_in g ++ _) -> _ |- _ => apply K end.
    rewrite !in_app_iff. unfold live in Hx. tauto.
  - intros x p Hx Hp. apply In_nth_error in Hp as [i Hp]. pose proof (Hprev x i p Hx Hp) as K.
    unfold prev_ok in K. rewrite Hp in K. repeat (apply andb_prop in K as [K ?]). now apply Nat.ltb_lt.
  - intros x p Hx. destruct (Hs p) as [Hb|Hb]; [|rewrite Hb in Hx; destruct Hx].
    assert (Hin : In p (seq 0 size)) by (apply in_seq; lia). apply Nat.ltb_lt.
    exact (proj1 (forallb_forall _ _) (H1 p Hin) x Hx).
  - intros x t Hx. destruct (Hs x) as [Hb|Hb]; [|rewrite Hb in Hx; destruct Hx].
    assert (Hin : In x (seq 0 size)) by (apply in_seq; lia). apply Nat.ltb_lt.
    exact (proj1 (forallb_forall _ _) (H0 x Hin) t Hx).
Qed.

Lemma of_table_linked : forall l ins fwd outs consts tensors,
  checkb (length l) (of_table l ins fwd outs consts tensors) = true ->
  linked (of_table l ins fwd outs consts tensors).
Proof.
  intros. apply (checkb_linked (length l)); [|assumption]. intros x Hx. cbn. now apply nth_overflow.
Qed.

(* y = conv(c[0] + c[1]).data + weight + x with c = x.chunk(2) *)
Definition small : graph := of_table [
    mknode KIn [] [1; 6] [] [TT 0] [] 0 false;
    mknode (KFun true [mkref false 0 []]) [0] [2] [0] [TT 1; TT 2] [[]] 0 false;
    mknode (KFun false [mkref false 1 [0]; mkref false 1 [1]]) [1; 1] [3] [1; 2] [TT 3] [[0]; [1]] 0 false;
    mknode KMod [2] [5] [3] [TT 4] [[]] 0 false;
    mknode KConst [] [6] [] [TT 5] [] 0 false;
    mknode (KFun true [mkref false 3 []]) [3] [6] [4] [TT 6] [[]] 0 false;
    mknode (KFun false [mkref false 5 []; mkref true 4 []; mkref false 0 []])
      [5; 4; 0] [7] [6; 5; 0] [TT 7] [[]; []; []] 0 false;
    mknode KOut [6] [] [7] [] [[]] 0 false]
  [0] [1; 2; 3; 5; 6] [7] [4] 8.

Lemma small_linked : linked small.
Proof. now apply of_table_linked. Qed.

(* y = lstm(x), whose outputs are a tensor and a list of two tensors, as
   /repo/tinynn/graph/tracer.py:1557-1627 records them; the module reads x,
   the function adds out and h *)
Definition recurrent : graph := of_table [
    mknode KIn [] [1] [] [TT 0] [] 0 false;
    mknode KMod [0] [2] [0] [TT 1; TL [2; 3]] [[]] 0 false;
    mknode (KFun false [mkref false 1 [0]; mkref false 1 [1; 0]]) [1; 1] [3] [1; 2] [TT 4] [[0]; [1; 0]] 0 false;
    mknode KOut [2] [] [4] [] [[]] 0 false]
  [0] [1; 2] [3] [] 5.

Lemma recurrent_linked : linked recurrent.
Proof. now apply of_table_linked. Qed.

(* values: trees of numbers; a call makes a tree of its arguments *)
Inductive tree := Leaf (n : nat) | Tree (n : nat) (l : list tree).
Definition sub_tree (v : tree) (i : nat) : option tree :=
  match v with Tree _ l => nth_error l i | Leaf _ => None end.
Definition call (x : nat) (vs : list tree) : option tree := Some (Tree x vs).
Definition weight (x : nat) : option tree := Some (Leaf x).
