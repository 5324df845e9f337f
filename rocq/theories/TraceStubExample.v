(* A decision procedure for [tidy], and traced graphs with operators that have
   no quantized kernel. *)
From Coq Require Import List Arith Bool Lia.
From Verif Require Import TraceSpec TraceExample TraceStubSpec TraceModel TraceInsertModel TraceStubModel TraceInsertExample
  TraceInsertRefuted.
Import ListNotations.

Definition opt_eqb {A} (eqb : A -> A -> bool) (a b : option A) : bool :=
  match a, b with Some x, Some y => eqb x y | None, None => true | _, _ => false end.
Definition idx_eqb (a b : list nat) : bool := if list_eq_dec Nat.eq_dec a b then true else false.
Definition nth_t (g : graph) (y i : nat) := nth_error (n_prevt (g_node g y)) i.
Definition nth_i (g : graph) (y i : nat) := nth_error (n_previ (g_node g y)) i.
Definition nth_p (g : graph) (y i : nat) := nth_error (n_prevs (g_node g y)) i.
Definition slots (g : graph) (y : nat) := seq 0 (length (n_prevs (g_node g y))).

(* [a] in front of [b] *)
Fixpoint beforeb (l : list nat) (a b : nat) : bool :=
  match l with [] => false | x :: t => ((x =? a) && inb b t) || beforeb t a b end.

Definition same_ok (g : graph) (y i j : nat) : bool :=
  implb (opt_eqb Nat.eqb (nth_p g y i) (nth_p g y j))
    (opt_eqb Nat.eqb (nth_t g y i) (nth_t g y j) && opt_eqb idx_eqb (nth_i g y i) (nth_i g y j)).
Definition index_ok (g : graph) (y z i j : nat) : bool :=
  implb (opt_eqb Nat.eqb (nth_p g y i) (nth_p g z j) && opt_eqb Nat.eqb (nth_t g y i) (nth_t g z j))
    (opt_eqb idx_eqb (nth_i g y i) (nth_i g z j)).

Definition tidyb (size : nat) (g : graph) : bool :=
  let lives := g_fwd g ++ g_out g in
  let all := seq 0 size in
  checkb size g &&
  forallb (fun y => length (n_prevt (g_node g y)) =? length (n_prevs (g_node g y))) lives &&
  forallb (fun y => forallb (fun i => forallb (same_ok g y i) (slots g y)) (slots g y)) lives &&
  forallb (fun y => forallb (fun z => forallb (fun i => forallb (index_ok g y z i) (slots g z)) (slots g y)) lives) lives &&
  forallb (fun p => forallb (fun q => (p =? q) ||
    forallb (fun s => negb (inb s (produced (g_node g q)))) (produced (g_node g p))) all) all &&
  forallb (fun y => forallb (fun p => beforeb (g_fwd g) p y || (negb (inb p (g_fwd g)) && negb (p =? y)))
    (n_prevs (g_node g y))) (g_fwd g).

Lemma opt_eqb_eq : forall A (eqb : A -> A -> bool), (forall a b, eqb a b = true <-> a = b) ->
  forall a b, opt_eqb eqb a b = true <-> a = b.
Proof.
  intros A eqb H [a|] [b|]; cbn; try (split; congruence). rewrite H. split; congruence.
Qed.
Lemma idx_eqb_eq : forall a b, idx_eqb a b = true <-> a = b.
Proof. intros a b. unfold idx_eqb. destruct (list_eq_dec Nat.eq_dec a b); split; congruence. Qed.

Lemma beforeb_before : forall l a b, beforeb l a b = true -> before l a b.
Proof.
  induction l as [|x l IH]; intros a b H; [discriminate|]. cbn in H. apply orb_prop in H as [H|H].
  - apply andb_prop in H as [H1 H2]. apply Nat.eqb_eq in H1. subst x. apply inb_In, in_split in H2 as [l1 [l2 ->]].
    exists [], l1, l2. reflexivity.
  - destruct (IH a b H) as [l1 [l2 [l3 ->]]]. exists (x :: l1), l2, l3. reflexivity.
Qed.

Lemma slots_In : forall g y i p, nth_error (n_prevs (g_node g y)) i = Some p -> In i (slots g y).
Proof. intros g y i p H. apply in_seq. split; [lia|]. apply nth_error_Some. congruence. Qed.

Lemma tidyb_tidy : forall n size g, (forall x, size <= x -> g_node g x = nobody) -> tidyb size g = true -> tidy n g.
Proof.
  intros n size g Hbig H. unfold tidyb in H.
  apply andb_prop in H as [H Htopo]. apply andb_prop in H as [H Huniq]. apply andb_prop in H as [H Hidx].
  apply andb_prop in H as [H Hsame]. apply andb_prop in H as [Hlink Hal].
  rewrite forallb_forall in Htopo, Huniq, Hidx, Hsame, Hal.
  assert (Hl : forall x, live g x -> In x (g_fwd g ++ g_out g)) by (intros x K; apply in_or_app; exact K).
  pose proof (opt_eqb_eq _ _ Nat.eqb_eq) as En. pose proof (opt_eqb_eq _ _ idx_eqb_eq) as Ei.
  constructor.
  - now apply (checkb_linked size).
  - intros y _ Ly. apply Nat.eqb_eq. now apply Hal, Hl.
  - intros y i j p Ly Hi Hj. specialize (Hsame y (Hl y Ly)). rewrite forallb_forall in Hsame.
    specialize (Hsame i (slots_In _ _ _ _ Hi)). rewrite forallb_forall in Hsame.
    specialize (Hsame j (slots_In _ _ _ _ Hj)). unfold same_ok in Hsame.
    rewrite (proj2 (En (nth_p g y i) (nth_p g y j))) in Hsame by (unfold nth_p; congruence). cbn [implb] in Hsame.
    apply andb_prop in Hsame as [A B]. apply En in A. apply Ei in B. now split.
  - intros y z i j p t Ly Lz Hi Hj Ti Tj. specialize (Hidx y (Hl y Ly)). rewrite forallb_forall in Hidx.
    specialize (Hidx z (Hl z Lz)). rewrite forallb_forall in Hidx.
    specialize (Hidx i (slots_In _ _ _ _ Hi)). rewrite forallb_forall in Hidx.
    specialize (Hidx j (slots_In _ _ _ _ Hj)). unfold index_ok in Hidx.
    rewrite (proj2 (En (nth_p g y i) (nth_p g z j))) in Hidx by (unfold nth_p; congruence).
    rewrite (proj2 (En (nth_t g y i) (nth_t g z j))) in Hidx by (unfold nth_t; congruence).
    cbn [implb andb] in Hidx. now apply Ei in Hidx.
  - intros p q s Hp Hq.
    assert (Hs : forall x, In s (produced (g_node g x)) -> In x (seq 0 size)).
    { intros x K. apply in_seq. split; [lia|]. destruct (Nat.lt_ge_cases x size) as [|K2]; [lia|].
      rewrite (Hbig x K2) in K. destruct K. }
    specialize (Huniq p (Hs p Hp)). rewrite forallb_forall in Huniq. specialize (Huniq q (Hs q Hq)).
    apply orb_prop in Huniq as [K|K]; [now apply Nat.eqb_eq|]. rewrite forallb_forall in K. specialize (K s Hp).
    rewrite (proj2 (inb_In _ _) Hq) in K. discriminate.
  - intros y p Hy Hp. specialize (Htopo y Hy). rewrite forallb_forall in Htopo. specialize (Htopo p Hp).
    apply orb_prop in Htopo as [K|K]; [left; now apply beforeb_before|]. right. apply andb_prop in K as [K1 K2]. split.
    + rewrite <- inb_In. intros J. now rewrite J in K1.
    + intros ->. now rewrite Nat.eqb_refl in K2.
Qed.

(* c = conv(quant(x)); u = softmax(c); v = expand(u, u.shape);
   y = dequant(u + v * u), where softmax and expand have no quantized kernel *)
Definition mixed : graph := of_table [
    mknode KIn [] [1] [] [TT 0] [] 0 false;
    mknode KMod [0] [2] [0] [TT 1] [[]] 0 false;
    mknode KMod [1] [3] [1] [TT 2] [[]] 0 false;
    mknode (KFun false [mkref false 2 []]) [2] [4; 5; 6; 6] [2] [TT 3] [[]] 0 false;
    mknode (KFun true [mkref false 3 []]) [3] [5] [3] [TT 4] [[]] 0 false;
    mknode (KFun true [mkref false 3 []; mkref false 4 []]) [3; 4] [6] [3; 4] [TT 5] [[]; []] 0 false;
    mknode (KFun false [mkref false 3 []; mkref false 5 []; mkref false 3 []]) [3; 5; 3] [7] [3; 5; 3] [TT 6] [[]; []; []] 0 false;
    mknode KMod [6] [8] [6] [TT 7] [[]] 0 false;
    mknode KOut [7] [] [7] [] [[]] 0 false]
  [0] [1; 2; 3; 4; 5; 6; 7] [8] [] 8.

Lemma mixed_tidy : tidy (g_fresh mixed) mixed.
Proof.
  apply (tidyb_tidy _ 9); [|vm_compute; reflexivity]. intros x Hx. unfold mixed, of_table. cbn [g_node]. now apply nth_overflow.
Qed.

(* the readers of a node, listed in the order of their calls *)
Fixpoint in_orderb (g : graph) (l : list nat) : bool :=
  match l with
  | [] => true
  | a :: t => forallb (fun b => (a =? b) || beforeb (g_fwd g) a b) t && in_orderb g t
  end.

Lemma in_orderb_leads : forall g l, in_orderb g l = true -> forall a b, leads l a b -> before (g_fwd g) a b.
Proof.
  intros g l H a b [l1 [l2 [-> [Ha Hb]]]]. assert (Hab : a <> b) by (intros ->; contradiction).
  clear Hb. induction l1 as [|x l1 IH]; [contradiction|]. cbn in H. apply andb_prop in H as [H1 H2].
  destruct Ha as [->|Ha]; [|now apply IH]. rewrite forallb_forall in H1.
  specialize (H1 b). rewrite in_app_iff in H1. specialize (H1 (or_intror (or_introl eq_refl))).
  apply orb_prop in H1 as [K|K]; [apply Nat.eqb_eq in K; contradiction|now apply beforeb_before].
Qed.

Definition innerb (g : graph) (x : nat) : bool :=
  forallb (fun y => inb y (g_fwd g)) (n_nexts (g_node g x)) && in_orderb g (n_nexts (g_node g x)).
Lemma innerb_inner : forall g x, innerb g x = true -> inner g x.
Proof.
  intros g x H. apply andb_prop in H as [H1 H2]. rewrite forallb_forall in H1. constructor.
  - intros y Hy. now apply inb_In, H1.
  - intros y z Hl _ _. now apply (in_orderb_leads g (n_nexts (g_node g x))).
Qed.

(* ---------------------------------------------------------- pairs of stubs *)

Definition made_onceb (size : nat) (g : graph) : bool :=
  forallb (fun p => forallb (fun q => (p =? q) ||
    forallb (fun s => negb (inb s (produced (g_node g q)))) (produced (g_node g p))) (seq 0 size)) (seq 0 size).
Lemma made_onceb_made_once : forall size g, (forall x, size <= x -> g_node g x = nobody) ->
  made_onceb size g = true -> made_once g.
Proof.
  intros size g Hbig H p q s Hp Hq. unfold made_onceb in H. rewrite forallb_forall in H.
  assert (Hs : forall x, In s (produced (g_node g x)) -> In x (seq 0 size)).
  { intros x K. apply in_seq. split; [lia|]. destruct (Nat.lt_ge_cases x size) as [|K2]; [lia|].
    rewrite (Hbig x K2) in K. destruct K. }
  specialize (H p (Hs p Hp)). rewrite forallb_forall in H. specialize (H q (Hs q Hq)).
  apply orb_prop in H as [K|K]; [now apply Nat.eqb_eq|]. rewrite forallb_forall in K. specialize (K s Hp).
  rewrite (proj2 (inb_In _ _) Hq) in K. discriminate.
Qed.

Definition wholeb (g : graph) (x : nat) : bool :=
  forallb (fun y => forallb (fun i => implb (opt_eqb Nat.eqb (nth_p g y i) (Some x)) (opt_eqb idx_eqb (nth_i g y i) (Some [])))
    (slots g y)) (g_fwd g ++ g_out g).
Definition stub_atb (g : graph) (x p t u : nat) (idx : list nat) : bool :=
  inb x (g_fwd g) && idx_eqb (n_prevs (g_node g x)) [p] && idx_eqb (n_prevt (g_node g x)) [t] &&
  opt_eqb idx_eqb (nth_i g x 0) (Some idx) &&
  match n_nextt (g_node g x) with [TT s] => s =? u | _ => false end &&
  idx_eqb (g_shape g t) (g_shape g u) && negb (p =? x) && negb (u =? t) && wholeb g x.
Lemma stub_atb_stub_at : forall g x p t u idx, stub_atb g x p t u idx = true -> stub_at g x p t u idx.
Proof.
  intros g x p t u idx H. unfold stub_atb in H. pose proof (opt_eqb_eq _ _ idx_eqb_eq) as Ei.
  repeat (apply andb_prop in H as [H ?K]). constructor.
  - now apply inb_In.
  - now apply idx_eqb_eq.
  - now apply idx_eqb_eq.
  - now apply Ei.
  - unfold outputs_of. destruct (n_nextt (g_node g x)) as [|[s| |] [|]]; try discriminate. cbn.
    apply Nat.eqb_eq in K3. now subst s.
  - now apply idx_eqb_eq.
  - intros ->. now rewrite Nat.eqb_refl in K1.
  - intros ->. now rewrite Nat.eqb_refl in K0.
  - intros y i Ly Hi. unfold wholeb in K. rewrite forallb_forall in K.
    specialize (K y (in_or_app _ _ _ Ly)). rewrite forallb_forall in K.
    specialize (K i (slots_In _ _ _ _ Hi)). unfold nth_p in K.
    rewrite (proj2 (opt_eqb_eq _ _ Nat.eqb_eq _ (Some x)) Hi) in K. now apply Ei in K.
Qed.

(* the only previous node, its tensor and the tensor of [x] *)
Definition p_of g x := hd 0 (n_prevs (g_node g x)).
Definition t_of g x := hd 0 (n_prevt (g_node g x)).
Definition u_of g x := match n_nextt (g_node g x) with [TT s] => s | _ => 0 end.
Definition idx_of g x := hd [] (n_previ (g_node g x)).
Definition stub_link_okb (kind : nat -> option bool) (quiet : nat -> bool) (g : graph) (x : nat) : bool :=
  stub_atb g x (p_of g x) (t_of g x) (u_of g x) (idx_of g x) && negb (stub_node kind (p_of g x)) &&
  nodupb (n_nexts (g_node g x)) &&
  forallb (fun n => implb (stub_node kind n) (stub_atb g n x (u_of g x) (u_of g n) []) &&
    implb (quiet n) (inb n (g_fwd g) && idx_eqb (n_prevs (g_node g n)) [x])) (n_nexts (g_node g x)).
Lemma stub_link_okb_ok : forall kind quiet g x, stub_link_okb kind quiet g x = true -> stub_link_ok kind quiet g x.
Proof.
  intros kind quiet g x H. unfold stub_link_okb in H.
  apply andb_prop in H as [H K]. apply andb_prop in H as [H K0]. apply andb_prop in H as [H K1].
  exists (p_of g x), (t_of g x), (u_of g x), (idx_of g x). split; [now apply stub_atb_stub_at|]. split.
  - unfold stub_node in K1. now destruct (kind (p_of g x)).
  - split; [now apply nodupb_NoDup|].
    intros n Hn. rewrite forallb_forall in K. specialize (K n Hn). apply andb_prop in K as [A B]. split.
    + intros E. rewrite E in A. exists (u_of g n). now apply stub_atb_stub_at.
    + intros E. rewrite E in B. apply andb_prop in B as [B1 B2]. split; [now apply inb_In|now apply idx_eqb_eq].
Qed.

(* [mixed] with one product less *)
Definition sum_up : graph := of_table [
    mknode KIn [] [1] [] [TT 0] [] 0 false;
    mknode KMod [0] [2] [0] [TT 1] [[]] 0 false;
    mknode KMod [1] [3] [1] [TT 2] [[]] 0 false;
    mknode (KFun false [mkref false 2 []]) [2] [4; 5; 6] [2] [TT 3] [[]] 0 false;
    mknode (KFun true [mkref false 3 []]) [3] [5] [3] [TT 4] [[]] 0 false;
    mknode (KFun true [mkref false 3 []; mkref false 4 []]) [3; 4] [6] [3; 4] [TT 5] [[]; []] 0 false;
    mknode (KFun false [mkref false 3 []; mkref false 5 []]) [3; 5] [7] [3; 5] [TT 6] [[]; []] 0 false;
    mknode KMod [6] [8] [6] [TT 7] [[]] 0 false;
    mknode KOut [7] [] [7] [] [[]] 0 false]
  [0] [1; 2; 3; 4; 5; 6; 7] [8] [] 8.

(* what is made of it when the sum has no quantized kernel either: 9, 10
   and 11 are QuantStub nodes, those from 12 on DeQuantStub nodes *)
Definition size4 (x : nat) : bool := x =? 4.
Definition stubbed : graph := get small (stubs size4 size4 sum_up [3; 5; 6]).
Definition paired : graph := of_table (map (g_node stubbed) (seq 0 16)) (g_in stubbed) (g_fwd stubbed) (g_out stubbed) [] 16.
Definition stub_kind (x : nat) : option bool :=
  if (x =? 1) || ((9 <=? x) && (x <? 12)) then Some true
  else if (x =? 7) || (12 <=? x) then Some false else None.
Definition none (x y : nat) : bool := false.

Lemma paired_nobody : forall x, 16 <= x -> g_node paired x = nobody.
Proof.
  intros x Hx. unfold paired, of_table. cbn [g_node]. apply nth_overflow. now rewrite map_length, seq_length.
Qed.
Lemma paired_linked : linked paired.
Proof. apply (checkb_linked 16); [exact paired_nobody|vm_compute; reflexivity]. Qed.
Lemma paired_once : made_once paired.
Proof. apply (made_onceb_made_once 16); [exact paired_nobody|vm_compute; reflexivity]. Qed.
Lemma opposite_ok : forall kind x y, stub_node kind x = true -> stub_node kind y = true -> kind y <> kind x ->
  opposite kind x y = true.
Proof.
  intros kind x y Kx Ky Kn. unfold opposite. unfold stub_node in Kx, Ky.
  destruct (kind x) as [[|]|], (kind y) as [[|]|]; try discriminate; try reflexivity; contradiction.
Qed.
Lemma forallb_implb : forall A (p q : A -> bool) l, forallb (fun x => implb (p x) (q x)) l = true ->
  forall x, In x l -> p x = true -> q x = true.
Proof. intros A p q l H x Hx E. rewrite forallb_forall in H. specialize (H x Hx). now rewrite E in H. Qed.
Lemma existsb_opposite : forall kind x y l, In y l -> stub_node kind x = true -> stub_node kind y = true ->
  kind y <> kind x -> existsb (opposite kind x) l = true.
Proof. intros kind x y l Hy Kx Ky Kn. apply existsb_exists. exists y. split; [exact Hy|now apply opposite_ok]. Qed.
Lemma paired_links : forallb (fun x => implb (existsb (opposite stub_kind x) (n_nexts (g_node paired x)))
  (stub_link_okb stub_kind size4 paired x)) (g_fwd paired) = true.
Proof. vm_compute. reflexivity. Qed.
Lemma paired_ok : forall x y, In x (g_fwd paired) -> In y (n_nexts (g_node paired x)) ->
  stub_node stub_kind x = true -> stub_node stub_kind y = true -> stub_kind y <> stub_kind x ->
  stub_link_ok stub_kind size4 paired x.
Proof.
  intros x y Hx Hy Kx Ky Kn.
  exact (stub_link_okb_ok stub_kind size4 paired x (forallb_implb _ _ _ _ paired_links x Hx
    (existsb_opposite stub_kind x y _ Hy Kx Ky Kn))).
Qed.

(* numbers marked as quantized or not; the operators without a quantized
   kernel reject quantized numbers *)
Definition marked (z : nat) (l : list (bool * nat)) : option (bool * nat) :=
  match stub_kind z, l with
  | Some true, [(false, v)] => Some (true, v)
  | Some false, [(true, v)] => Some (false, v)
  | Some _, _ => None
  | None, [(_, v)] => if z =? 4 then Some (false, 1) else if z =? 2 then Some (true, v + 2)
                      else match l with [(false, _)] => Some (false, v * 10) | _ => None end
  | None, _ => if existsb fst l then None else Some (false, fold_left (fun s v => 2 * s + snd v) l 0)
  end.
Definition at_pair (v : bool * nat) (i : nat) : option (bool * nat) := None.
Definition no_attr (n : nat) : option (bool * nat) := None.

Lemma marked_undone : forall x readers, stub_node stub_kind x = true -> undone stub_kind size4 readers marked x.
Proof.
  intros x readers Kx n [b v] w _ E. split.
  - intros Kn Kd. unfold stub_node in Kx, Kn. unfold marked in *.
    destruct (stub_kind x) as [[|]|], (stub_kind n) as [[|]|]; try discriminate; try contradiction;
      destruct b; try discriminate; injection E as <-; reflexivity.
  - intros Hq. unfold size4 in Hq. apply Nat.eqb_eq in Hq. subst n. destruct w as [c w]. reflexivity.
Qed.

(* the conv is read as quantized data; the QuantStub behind it is followed by
   a DeQuantStub and by another QuantStub *)
Definition three : graph := of_table [
    mknode KIn [] [1] [] [TT 0] [] 0 false;
    mknode KMod [0] [2] [0] [TT 1] [[]] 0 false;
    mknode KMod [1] [3] [1] [TT 2] [[]] 0 false;
    mknode KMod [2] [4] [2] [TT 3] [[]] 0 false;
    mknode KMod [3] [5] [3] [TT 4] [[]] 0 false;
    mknode KMod [4] [6] [4] [TT 5] [[]] 0 false;
    mknode KOut [5] [] [5] [] [[]] 0 false]
  [0] [1; 2; 3; 4; 5] [6] [] 6.
Definition three_kind (x : nat) : option bool :=
  match x with 2 | 4 => Some true | 3 => Some false | _ => None end.

Lemma three_nobody : forall x, 7 <= x -> g_node three x = nobody.
Proof. intros x Hx. unfold three, of_table. cbn [g_node]. now apply nth_overflow. Qed.
Lemma three_tidy : tidy (g_fresh three) three.
Proof. apply (tidyb_tidy _ 7); [exact three_nobody|vm_compute; reflexivity]. Qed.

(* [mixed] with a stub in front of the expansion only *)
Definition half_done : graph := get small (insert_between mixed 3 5 KMod None true (Some [3])).
Definition one_stub : graph := of_table (map (g_node half_done) (seq 0 10)) (g_in half_done) (g_fwd half_done) (g_out half_done) [] 9.
Lemma one_stub_tidy : tidy (g_fresh one_stub) one_stub.
Proof.
  apply (tidyb_tidy _ 10); [|vm_compute; reflexivity].
  intros x Hx. unfold one_stub, of_table. cbn [g_node]. apply nth_overflow. now rewrite map_length, seq_length.
Qed.

Lemma reads_slot : forall g w c, forallb (fun x => forallb (fun i => implb (opt_eqb Nat.eqb (nth_p g x i) (Some w))
    (opt_eqb Nat.eqb (nth_t g x i) (Some c))) (slots g x)) (g_fwd g ++ g_out g) = true ->
  forall x i, live g x -> nth_error (n_prevs (g_node g x)) i = Some w -> nth_error (n_prevt (g_node g x)) i = Some c.
Proof.
  intros g w c H x i Lx Hi. pose proof (opt_eqb_eq _ _ Nat.eqb_eq) as En. rewrite forallb_forall in H.
  specialize (H x (in_or_app _ _ _ Lx)). apply forallb_implb with (x := i) in H; [now apply En in H| |now apply En].
  now apply (slots_In _ _ _ w).
Qed.
