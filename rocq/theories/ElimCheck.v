(** A test for graphs in order, used by the examples: sound, with the indices as an order of the vertices. *)
From Coq Require Import List Arith Bool String Lia.
From Verif Require Import ElimModel ElimSpec ElimBase.
Import ListNotations.

Section Check.
Context {X : Type}.
Notation graph := (graph X).

Fixpoint nodupb {B} (eq : B -> B -> bool) (l : list B) : bool :=
  match l with [] => true | x :: l' => negb (existsb (eq x) l') && nodupb eq l' end.
Definition sourceb (k : kind) : bool := negb (is_sink k).
Definition edge_eqb (a b : edge) : bool :=
  (e_src a =? e_src b) && (e_dst a =? e_dst b) && String.eqb (e_name a) (e_name b) && String.eqb (e_label a) (e_label b).

Definition goodb (g : graph) : bool :=
  let vs := g_vs g in
  nodupb Nat.eqb (map v_id vs) &&
  forallb (fun u => forallb (fun v => (v_id u =? v_id v) || forallb (fun n => negb (smem n (v_outs v))) (v_outs u)) vs) vs &&
  forallb (fun v => nodupb String.eqb (v_outs v)) vs &&
  forallb (fun v => negb (is_kop (v_kind v)) || forallb (fun n => existsb (fun u => smem n (v_outs u) && sourceb (v_kind u) &&
     existsb (edge_eqb (mkE (v_id u) (v_id v) n n)) (g_es g)) vs) (v_ins v)) vs &&
  forallb (fun e => existsb (fun u => existsb (fun v => (v_id u =? e_src e) && (v_id v =? e_dst e) && smem (e_label e) (v_outs u) &&
     sourceb (v_kind u) && ((is_kop (v_kind v) && String.eqb (e_name e) (e_label e) && smem (e_name e) (v_ins v)) ||
       (is_sink (v_kind v) && String.prefix (e_label e ++ "_output") (e_name e)))) vs) vs) (g_es g) &&
  forallb (fun v => forallb (fun n => match g_node g n with Some i => i =? v_id v | None => false end) (v_outs v)) vs &&
  forallb (fun v => negb (is_kconst (v_kind v)) || match v_outs v, g_buf g (v_name v) with [n], Some _ => String.eqb n (v_name v) | _, _ => false end) vs &&
  forallb (fun u => forallb (fun v => forallb (fun n => negb (smem n (v_ins v)) || (v_id u <? v_id v)) (v_outs u)) vs) vs.

Lemma nodupb_ok {B} (eq : B -> B -> bool) : (forall a b, eq a b = true <-> a = b) -> forall l, nodupb eq l = true -> NoDup l.
Proof.
  intros E. induction l as [|x l IH]; simpl; intros H; constructor; apply andb_true_iff in H; destruct H as [H1 H2]; auto.
  intros F. apply negb_true_iff in H1. assert (existsb (eq x) l = true); [|congruence].
  apply existsb_exists. exists x. split; auto. apply E. reflexivity.
Qed.

Lemma sourceb_ok k : sourceb k = true -> k = KIn \/ k = KConst \/ k = KOp.
Proof. destruct k; simpl; intros H; try discriminate; auto. Qed.
Lemma edge_eqb_ok a b : edge_eqb a b = true -> a = b.
Proof.
  destruct a, b. unfold edge_eqb. cbn. intros H. repeat (apply andb_true_iff in H; destruct H as [H ?]).
  apply Nat.eqb_eq in H. repeat match goal with H : (_ =? _) = true |- _ => apply Nat.eqb_eq in H
    | H : String.eqb _ _ = true |- _ => apply String.eqb_eq in H end. congruence.
Qed.

Lemma goodb_good (g : graph) : goodb g = true -> good g.
Proof.
  unfold goodb. intros H. repeat (apply andb_true_iff in H; destruct H as [H ?]).
  assert (IDS : NoDup (map v_id (g_vs g))) by (apply (nodupb_ok Nat.eqb); auto; intros; apply Nat.eqb_eq).
  repeat match goal with H : forallb _ _ = true |- _ => rewrite forallb_forall in H end.
  assert (WR : forall u v n, In u (g_vs g) -> In v (g_vs g) -> In n (v_outs u) -> In n (v_outs v) -> u = v).
  { intros u v n Hu Hv Nu Nv. specialize (H6 u Hu). rewrite forallb_forall in H6. specialize (H6 v Hv).
    apply orb_true_iff in H6. destruct H6 as [Q|Q]; [apply (id_inj g); auto; apply Nat.eqb_eq; exact Q|].
    rewrite forallb_forall in Q. specialize (Q n Nu). apply negb_true_iff in Q. apply smem_in in Nv. congruence. }
  constructor.
  - exact IDS.
  - exact WR.
  - intros v Hv. apply (nodupb_ok String.eqb); auto. intros; apply String.eqb_eq.
  - intros v n Hv K Hn. specialize (H4 v Hv). rewrite K in H4. cbn [is_kop negb orb] in H4. rewrite forallb_forall in H4.
    specialize (H4 n Hn). apply existsb_exists in H4. destruct H4 as [u [Hu Q]]. repeat (apply andb_true_iff in Q; destruct Q as [Q ?]).
    exists u. split; [exact Hu|]. split; [apply smem_in; exact Q|]. split; [apply sourceb_ok; assumption|].
    match goal with H : existsb _ (g_es g) = true |- _ => apply existsb_exists in H; destruct H as [e [He Ee]]; apply edge_eqb_ok in Ee; rewrite Ee; exact He end.
  - intros e He. specialize (H3 e He). apply existsb_exists in H3. destruct H3 as [u [Hu Q]]. apply existsb_exists in Q.
    destruct Q as [v [Hv Q]]. repeat (apply andb_true_iff in Q; destruct Q as [Q ?]). exists u, v.
    repeat match goal with H : (_ =? _) = true |- _ => apply Nat.eqb_eq in H end.
    do 4 (split; [assumption|]). split; [apply smem_in; assumption|]. split; [apply sourceb_ok; assumption|].
    match goal with H : _ || _ = true |- _ => apply orb_true_iff in H; destruct H as [P|P] end.
    + left. repeat (apply andb_true_iff in P; destruct P as [P ?]). split; [destruct (v_kind v); try discriminate; reflexivity|].
      split; [apply String.eqb_eq; assumption|apply smem_in; assumption].
    + right. apply andb_true_iff in P. exact P.
  - intros v n Hv Hn. specialize (H2 v Hv). rewrite forallb_forall in H2. specialize (H2 n Hn).
    destruct (g_node g n); [|discriminate]. apply Nat.eqb_eq in H2. congruence.
  - intros v Hv K. specialize (H1 v Hv). rewrite K in H1. cbn [is_kconst negb orb] in H1.
    destruct (v_outs v) as [|n [|]]; try discriminate. destruct (g_buf g (v_name v)) as [x|] eqn:B; [|discriminate].
    apply String.eqb_eq in H1. subst n. exists (v_name v), x. auto.
  - intros u v Hu Hv K Hn. specialize (H1 v Hv). rewrite K in H1. cbn [is_kconst negb orb] in H1.
    destruct (v_outs v) as [|n [|]] eqn:OV; try discriminate. destruct (g_buf g (v_name v)) as [x|] eqn:B; [|discriminate].
    apply String.eqb_eq in H1. subst n. apply (WR u v (v_name v)); auto. rewrite OV. left. reflexivity.
  - exists (fun i => i). intros u v n Hu Hv Nu Nv. specialize (H0 u Hu). rewrite forallb_forall in H0. specialize (H0 v Hv).
    rewrite forallb_forall in H0. specialize (H0 n Nu). apply smem_in in Nv. rewrite Nv in H0. apply Nat.ltb_lt. exact H0.
Qed.
End Check.
