(* Proofs about making a further reader of a node read a node that already
   was inserted behind it. *)
From Coq Require Import List Arith Bool Lia.
From Verif Require Import TraceSpec TraceModel TraceProofs TraceAfterProofs TraceRemoveProofs TraceInsertModel
  TraceTailProofs TraceBetweenProofs.
Import ListNotations.

(* ------------------------------------------------------------------ *)
(* The programs *)

Section Programs.
  Variable V : Type.
  Variable pick : V -> nat -> option V.
  Variable attr : nat -> option V.

  Lemma exec_sems : forall (sem sem' : nat -> list V -> option V) l e,
    (forall x qs, In (x, qs) l -> sem x = sem' x) ->
    exec pick attr sem (lines_of l) e = exec pick attr sem' (lines_of l) e.
  Proof.
    intros sem sem' l. induction l as [|[x qs] l IH]; intros e H; [reflexivity|].
    cbn [lines_of map exec step fst snd]. rewrite (H x qs (or_introl eq_refl)).
    destruct (traverse (read pick attr e) qs) as [vs|]; cbn [bind]; [|reflexivity].
    destruct (sem' x vs) as [v|]; cbn [bind]; [|reflexivity].
    apply IH. intros. eapply H. right. eassumption.
  Qed.

  Lemma exec_keeps : forall (sem : nat -> list V -> option V) l e e' z,
    (forall x qs, In (x, qs) l -> x <> z) -> exec pick attr sem (lines_of l) e = Some e' -> e' z = e z.
  Proof.
    intros sem l. induction l as [|[x qs] l IH]; intros e e' z H He; [now inversion He|].
    cbn [lines_of map exec step fst snd] in He.
    destruct (traverse (read pick attr e) qs) as [vs|]; cbn [bind] in He; [|discriminate].
    destruct (sem x vs) as [v|]; cbn [bind] in He; [|discriminate].
    rewrite (IH _ _ z (fun x0 q0 K => H x0 q0 (or_intror K)) He). unfold bindv.
    destruct (Nat.eqb_spec z x) as [->|]; [|reflexivity]. exfalso. eapply H; [now left|reflexivity].
  Qed.

  Lemma sub_args_at : forall p w r0 (f : V -> option V) e v u qs, read pick attr e r0 = Some v -> f v = Some u ->
    e w = Some u -> (forall r, In r qs -> r_name r = p -> r = r0) ->
    traverse (read pick attr e) (map (subr p (mkref false w [])) qs) =
    bind (traverse (read pick attr e) qs) (some_args f (map (fun r => r_name r =? p) qs)).
  Proof.
    intros p w r0 f e v u qs Hv Hu Hw. induction qs as [|r t IH]; intros Hq; [reflexivity|].
    cbn [map traverse]. rewrite IH by (intros; apply Hq; [now right|assumption]).
    unfold subr at 1. destruct (Nat.eqb_spec (r_name r) p) as [E|E].
    - rewrite (Hq r (or_introl eq_refl) E), Hv. cbn [bind].
      unfold read at 1. cbn [r_self r_name r_idx picks]. rewrite Hw. cbn [bind picks].
      destruct (traverse (read pick attr e) t) as [vs|]; cbn [bind]; [|reflexivity].
      cbn [some_args]. rewrite Hu. reflexivity.
    - destruct (read pick attr e r) as [a|]; cbn [bind]; [|reflexivity].
      destruct (traverse (read pick attr e) t) as [vs|]; cbn [bind]; reflexivity.
  Qed.

  Theorem run_existing : forall (sem : nat -> list V -> option V) f ins l1 w r0 l2 y p rs l3 ret vs,
    (forall v, sem w [v] = f v) -> w <> y ->
    (forall x qs, In (x, qs) (l1 ++ l2 ++ l3) -> x <> y) ->
    (forall x qs, In (x, qs) l2 -> x <> w) ->
    (r_self r0 = false -> r_name r0 <> w /\ forall x qs, In (x, qs) l2 -> x <> r_name r0) ->
    (forall r, In r rs -> r_name r = p -> r = r0) ->
    run pick attr sem (mkprog ins (lines_of l1 ++ Assign w [r0] :: lines_of l2 ++
       Assign y (map (subr p (mkref false w [])) rs) :: lines_of l3) ret) vs =
    run pick attr (with_sem sem y (through f (map (fun r => r_name r =? p) rs) (sem y)))
      (mkprog ins (lines_of l1 ++ Assign w [r0] :: lines_of l2 ++ Assign y rs :: lines_of l3) ret) vs.
  Proof.
    intros sem f ins l1 w r0 l2 y p rs l3 ret vs Hsem Hwy Hny Hw2 Hp2 Hr.
    set (sg := with_sem sem y _).
    assert (Sx : forall x, x <> y -> sg x = sem x)
      by (intros x Hx; unfold sg, with_sem; destruct (Nat.eqb_spec x y); [contradiction|reflexivity]).
    unfold run. cbn [p_params p_body p_ret].
    destruct (params ins vs) as [e|]; cbn [bind]; [|reflexivity].
    rewrite !exec_app.
    rewrite <- (exec_sems sem sg l1)
      by (intros x qs K; symmetry; apply Sx; eapply Hny; rewrite in_app_iff; left; exact K).
    destruct (exec pick attr sem (lines_of l1) e) as [a|]; cbn [bind]; [|reflexivity].
    cbn [exec step]. rewrite (Sx w Hwy).
    destruct (traverse (read pick attr a) [r0]) as [us|] eqn:Ea; cbn [bind]; [|reflexivity].
    cbn [traverse] in Ea. destruct (read pick attr a r0) as [v|] eqn:Ev; cbn [bind] in Ea; [|discriminate].
    inversion Ea; subst us. rewrite Hsem. destruct (f v) as [u|] eqn:Eu; cbn [bind]; [|reflexivity].
    rewrite !exec_app.
    rewrite <- (exec_sems sem sg l2)
      by (intros x qs K; symmetry; apply Sx; eapply Hny; rewrite !in_app_iff; right; left; exact K).
    destruct (exec pick attr sem (lines_of l2) (bindv a w (Some u))) as [c|] eqn:Ec; cbn [bind]; [|reflexivity].
    cbn [exec step].
    assert (Cw : c w = Some u)
      by (rewrite (exec_keeps sem l2 _ c w Hw2 Ec); unfold bindv; now rewrite Nat.eqb_refl).
    assert (Cr : read pick attr c r0 = Some v).
    { rewrite <- Ev. apply read_agree. intro Es. destruct (Hp2 Es) as [K1 K2].
      rewrite (exec_keeps sem l2 _ c (r_name r0) K2 Ec). unfold bindv.
      destruct (Nat.eqb_spec (r_name r0) w); [contradiction|reflexivity]. }
    rewrite (sub_args_at p w r0 f c v u rs Cr Eu Cw Hr).
    replace (sg y) with (through f (map (fun r => r_name r =? p) rs) (sem y))
      by (unfold sg, with_sem; now rewrite Nat.eqb_refl).
    destruct (traverse (read pick attr c) rs) as [ws|]; cbn [bind]; [|reflexivity].
    unfold through. destruct (some_args f (map (fun r => r_name r =? p) rs) ws) as [ws'|]; cbn [bind]; [|reflexivity].
    destruct (sem y ws') as [b|]; cbn [bind]; [|reflexivity].
    rewrite <- (exec_sems sem sg l3)
      by (intros x qs K; symmetry; apply Sx; eapply Hny; rewrite !in_app_iff; right; right; exact K).
    reflexivity.
  Qed.
End Programs.

(* ------------------------------------------------------------------ *)
(* The graph behind insert_existing *)

Lemma nodup_app_l : forall (a b : list nat), NoDup (a ++ b) -> NoDup a.
Proof.
  induction a as [|x a IH]; intros b H; [constructor|]. inversion_clear H as [|? ? H1 H2]. constructor; [|eauto].
  intro K. apply H1. apply in_or_app. now left.
Qed.

Section Existing.
  Variable g : graph.
  Variables p y w t c0 : nat.
  Variable idx : list nat.
  Variable rest : list nat.
  Variable ptrs : option (list nat).
  Hypothesis L : linked g.
  Hypothesis Ly : live g y.
  Hypothesis Hw : In w (g_fwd g).
  Hypothesis Hp : In p (n_prevs (g_node g y)).
  Hypothesis Hpy : p <> y.
  Hypothesis Hpw : p <> w.
  Hypothesis Hwy : w <> y.
  Hypothesis Halign : length (n_prevt (g_node g y)) = length (n_prevs (g_node g y)).
  Hypothesis Hone : forall i, nth_error (n_prevs (g_node g y)) i = Some p ->
    nth_error (n_prevt (g_node g y)) i = Some t /\ nth_error (n_previ (g_node g y)) i = Some idx.
  Hypothesis Hptrs : match ptrs with Some l => In t l | None => True end.
  (* the node reads the same part of the previous node *)
  Hypothesis Hwp : n_prevs (g_node g w) = [p].
  Hypothesis Hwi : nth_error (n_previ (g_node g w)) 0 = Some idx.
  Hypothesis Hwo : outputs_of (g_node g w) (c0 :: rest).
  Hypothesis Hwr : forall x i, live g x -> nth_error (n_prevs (g_node g x)) i = Some w ->
    nth_error (n_prevt (g_node g x)) i = Some c0.
  Hypothesis Hu : forall q q' s, In s (produced (g_node g q)) -> In s (produced (g_node g q')) -> q = q'.

  Let ny := g_node g y.
  Let np := g_node g p.
  Let nw := g_node g w.
  Let pc := is_const (n_kind np).
  Let old := mkref pc p idx.
  Let new := mkref false w [].
  Let outs := n_nextt np.
  Let pts := combine (n_prevt ny) (n_previ ny).
  Let found := gather ptrs outs pts.
  Let cs := c0 :: rest.
  Let z := combine found cs.

  Lemma ex_found : (forall e, In e found -> e = (t, idx)) /\ remaining ptrs outs pts = 0 /\ found <> [].
  Proof. eapply bt_found; eassumption. Qed.

  Lemma ex_at : forall i s, nth_error (n_prevs ny) i = Some s ->
    exists r j, nth_error (n_prevt ny) i = Some r /\ nth_error (n_previ ny) i = Some j /\
      In r (produced (g_node g s)) /\ (s = p <-> r = t).
  Proof. eapply bt_at; eassumption. Qed.

  Lemma ex_t : In t (produced np) /\ In y (n_nexts np) /\ In t (n_prevt ny) /\ defined g p.
  Proof. eapply bt_t; eassumption. Qed.

  Lemma ex_z : exists z', z = ((t, idx), c0) :: z' /\
    (forall e, In e z -> fst e = (t, idx) /\ In (snd e) cs).
  Proof.
    destruct ex_found as [Hf [_ Hne]].
    assert (K : exists e fs, found = e :: fs) by (destruct found; [congruence|eauto]). destruct K as [e [fs Ef]].
    exists (combine fs rest). split.
    - unfold z, cs. rewrite Ef. cbn [combine]. rewrite (Hf e); [reflexivity|]. rewrite Ef. now left.
    - intros [e' c] He. unfold z in He. split.
      + apply in_combine_l in He. now apply Hf.
      + now apply in_combine_r in He.
  Qed.

  Lemma ex_retag : exists b m, retag true (combine (map fst found) cs) (n_prevt ny) (n_previ ny) =
      Some (map (fun s => if s =? t then c0 else s) (n_prevt ny), b, m) /\
    length b = length (n_previ ny) /\ (forall e, In e m -> e = (idx, [])) /\ m <> [] /\
    (forall i s j, nth_error (n_prevt ny) i = Some s -> nth_error (n_previ ny) i = Some j ->
       nth_error b i = Some (if s =? t then [] else j)).
  Proof.
    destruct ex_found as [Hf [_ Hne]].
    destruct (retag_same (combine (map fst found) cs) t c0 idx (n_prevt ny) (n_previ ny)) as [b [m [E1 [E2 [E3 [E4 E5]]]]]].
    - intro s. now apply (assoc_same found t idx).
    - pose proof (rd_align _ (lk_rendered _ L) y Ly). unfold ny. lia.
    - intros i Hi. assert (Kq : exists q, nth_error (n_prevs ny) i = Some q) by (eapply bt_prev_of_t; eassumption).
      destruct Kq as [q Hq].
      destruct (ex_at i q Hq) as [r [j [K1 [K2 [_ K3]]]]].
      assert (q = p) by (apply K3; unfold ny in *; congruence). subst q. now apply Hone.
    - exists b, m. repeat (split; [assumption|]). split; [|exact E5]. apply E4. apply ex_t.
  Qed.

  Definition ex_kind : kind :=
    match n_kind ny with KFun c names => KFun c (map (subr p new) names) | k' => k' end.
  Definition ex_y (b : list (list nat)) : node :=
    mknode ex_kind (map (fun q => if q =? p then w else q) (n_prevs ny)) (n_nexts ny)
      (map (fun s => if s =? t then c0 else s) (n_prevt ny)) (n_nextt ny) b (n_order ny) (n_rev ny).
  Definition ex_w : node :=
    mknode (n_kind nw) [p] (if mem y (n_nexts nw) then n_nexts nw else n_nexts nw ++ [y])
      (map (fun e => fst (fst e)) z) (map (fun e => TT (snd e)) z) (map (fun e => snd (fst e)) z)
      (n_order nw) (n_rev nw).
  Definition ex_graph (b : list (list nat)) : graph :=
    upd (upd (upd g w ex_w) y (ex_y b)) p (set_nexts np (replace_first y w (n_nexts np))).

  Lemma ex_wkind : is_const (n_kind nw) = false.
  Proof. pose proof (rd_fwd _ (lk_rendered _ L) w Hw) as K. fold nw in K. now destruct (n_kind nw). Qed.

  Lemma ex_own : traverse as_tensor (n_nextt nw) = Some cs.
  Proof.
    unfold nw. rewrite Hwo. fold cs. clear. induction cs as [|c l IH]; cbn; [reflexivity|]. now rewrite IH.
  Qed.

  Lemma ex_eq : exists b, insert_existing g p y w true ptrs = Some (ex_graph b) /\
    length b = length (n_previ ny) /\
    (forall i s j, nth_error (n_prevt ny) i = Some s -> nth_error (n_previ ny) i = Some j ->
       nth_error b i = Some (if s =? t then [] else j)).
  Proof.
    destruct ex_retag as [b [m [E1 [E2 [E3 [E4 E5]]]]]]. exists b. split; [|auto].
    unfold insert_existing. fold nw. rewrite ex_own. cbn [bind]. change (n_prevs nw) with (n_prevs (g_node g w)). rewrite Hwp.
    replace (mem p [p]) with true by (cbn; now rewrite Nat.eqb_refl).
    unfold between. fold ny np. fold outs pts found. cbn [n_kind n_prevs n_nexts n_order n_rev cs].
    fold cs. rewrite E1. cbn [bind fold_left]. f_equal. unfold connect. destruct ex_found as [_ [Erem _]]. rewrite Erem.
    cbn [Nat.ltb Nat.leb]. rewrite Nat.sub_0_r, replace_in_all by lia.
    unfold ex_graph. fold z. f_equal.
    - f_equal. unfold ex_y. f_equal. unfold ex_kind. rewrite ex_wkind.
      destruct (n_kind ny) as [ | | | |c names] eqn:Ek.
      1-4: clear; induction m as [|e m IH]; cbn; auto.
      assert (Hn : names = refs g y).
      { destruct Ly as [Hy|Hy].
        - pose proof (rd_fwd _ (lk_rendered _ L) y Hy) as K. fold ny in K. rewrite Ek in K. tauto.
        - pose proof (lk_out _ L y Hy) as K. fold ny in K. congruence. }
      destruct (rename_same p old new m names) as [R1 R2]; try (exact E4).
      + unfold new. cbn. congruence.
      + reflexivity.
      + intros e He. rewrite (E3 e He). split; reflexivity.
      + intros r Hr Er. rewrite Hn in Hr. apply refs_In in Hr as [j [q [ix [K1 [K2 ->]]]]]. cbn in Er. subst q.
        destruct (Hone j K1) as [_ K3]. unfold old, pc, np. congruence.
      + unfold old, new in R1, R2. cbn [r_self r_name] in R1, R2. destruct c; assumption.
    - rewrite !upd_node. destruct (Nat.eqb_spec p y); [congruence|]. destruct (Nat.eqb_spec p w); [congruence|]. reflexivity.
  Qed.

  Section Fixed.
    Variable b : list (list nat).
    Hypothesis Hb : length b = length (n_previ ny).
    Hypothesis Hbi : forall i s j, nth_error (n_prevt ny) i = Some s -> nth_error (n_previ ny) i = Some j ->
       nth_error b i = Some (if s =? t then [] else j).
    Let h := ex_graph b.

    Lemma ex_nodes : forall x, g_node h x =
      if x =? p then set_nexts np (replace_first y w (n_nexts np))
      else if x =? y then ex_y b else if x =? w then ex_w else g_node g x.
    Proof. reflexivity. Qed.

    Lemma ex_node_y : g_node h y = ex_y b.
    Proof. rewrite ex_nodes. destruct (Nat.eqb_spec y p); [congruence|]. now rewrite Nat.eqb_refl. Qed.

    Lemma ex_node_w : g_node h w = ex_w.
    Proof.
      rewrite ex_nodes. destruct (Nat.eqb_spec w p); [congruence|].
      destruct (Nat.eqb_spec w y); [congruence|]. now rewrite Nat.eqb_refl.
    Qed.

    Lemma ex_old : forall x, x <> w -> x <> y ->
      n_kind (g_node h x) = n_kind (g_node g x) /\ n_prevs (g_node h x) = n_prevs (g_node g x) /\
      n_prevt (g_node h x) = n_prevt (g_node g x) /\ n_nextt (g_node h x) = n_nextt (g_node g x) /\
      n_previ (g_node h x) = n_previ (g_node g x) /\ n_rev (g_node h x) = n_rev (g_node g x).
    Proof.
      intros x H1 H2. rewrite ex_nodes. destruct (Nat.eqb_spec x p) as [->|]; [repeat split|].
      destruct (Nat.eqb_spec x y); [congruence|]. destruct (Nat.eqb_spec x w); [congruence|]. repeat split.
    Qed.

    Lemma ex_const : forall x, is_const (n_kind (g_node h x)) = is_const (n_kind (g_node g x)).
    Proof.
      intros x. destruct (Nat.eq_dec x w) as [->|Hx]; [rewrite ex_node_w; reflexivity|].
      destruct (Nat.eq_dec x y) as [->|Hn]; [|now destruct (ex_old x Hx Hn) as [-> _]].
      rewrite ex_node_y. cbn. unfold ex_kind. fold ny. now destruct (n_kind ny).
    Qed.

    Lemma ex_nextt : forall x, x <> w -> n_nextt (g_node h x) = n_nextt (g_node g x).
    Proof.
      intros x H. destruct (Nat.eq_dec x y) as [->|Hn]; [|now destruct (ex_old x H Hn) as [_ [_ [_ [-> _]]]]].
      now rewrite ex_node_y.
    Qed.

    Lemma ex_prevs : forall x, x <> y -> n_prevs (g_node h x) = n_prevs (g_node g x).
    Proof.
      intros x Hx. destruct (Nat.eq_dec x w) as [->|Hn]; [rewrite ex_node_w; symmetry; exact Hwp|].
      now destruct (ex_old x Hn Hx) as [_ [-> _]].
    Qed.

    Lemma ex_nexts : forall q x, x <> y -> In x (n_nexts (g_node g q)) -> In x (n_nexts (g_node h q)).
    Proof.
      intros q x Hx H. rewrite ex_nodes. destruct (Nat.eqb_spec q p) as [->|].
      - cbn. now apply replace_first_keeps.
      - destruct (Nat.eqb_spec q y) as [->|]; [exact H|]. destruct (Nat.eqb_spec q w) as [->|]; [|exact H].
        cbn. fold nw in H. destruct (mem y (n_nexts nw)); [exact H|]. apply in_or_app. now left.
    Qed.

    (* a link of the new graph is an old one, or one of the two new ones *)
    Lemma ex_nexts_inv : forall q x, In x (n_nexts (g_node h q)) ->
      In x (n_nexts (g_node g q)) \/ (q = p /\ x = w) \/ (q = w /\ x = y).
    Proof.
      intros q x H. rewrite ex_nodes in H. destruct (Nat.eqb_spec q p) as [->|].
      - cbn in H. apply replace_first_In in H. tauto.
      - destruct (Nat.eqb_spec q y) as [->|]; [now left|]. destruct (Nat.eqb_spec q w) as [->|]; [|now left].
        cbn in H. fold nw. destruct (mem y (n_nexts nw)); [now left|]. apply in_app_or in H as [H|[H|[]]]; auto.
    Qed.

    Lemma ex_prod : forall q s, In s (produced (g_node h q)) -> In s (produced (g_node g q)).
    Proof.
      intros q s H. unfold produced in *. destruct (Nat.eq_dec q w) as [->|Hq]; [|now rewrite ex_nextt in H].
      rewrite ex_node_w in H. cbn [ex_w n_nextt] in H. rewrite Hwo.
      apply in_flat_map in H as [it [Hit Hs]]. apply in_map_iff in Hit as [e [<- He]].
      destruct Hs as [<-|[]]. destruct ex_z as [_ [_ Hz]]. destruct (Hz e He) as [_ K].
      apply in_flat_map. exists (TT (snd e)). split; [now apply in_map|now left].
    Qed.

    Lemma ex_prod2 : forall q s, q <> w -> In s (produced (g_node g q)) -> In s (produced (g_node h q)).
    Proof. intros q s Hq H. unfold produced in *. now rewrite ex_nextt. Qed.

    Lemma ex_c0 : In c0 (produced (g_node h w)).
    Proof.
      rewrite ex_node_w. unfold produced. cbn [ex_w n_nextt]. destruct ex_z as [z' [Ez _]]; rewrite Ez. now left.
    Qed.

    Lemma ex_live : forall x, live h x <-> live g x.
    Proof. reflexivity. Qed.

    Lemma ex_defined : forall x, defined g x -> defined h x.
    Proof. intros x [H|[H|H]]; [now left|right; now left|]. right. right. now rewrite ex_const. Qed.

    Lemma ex_refs_old : forall x, x <> y -> refs h x = refs g x.
    Proof.
      intros x Hn. destruct (Nat.eq_dec x w) as [->|Hx].
      - unfold refs. rewrite ex_node_w, Hwp. cbn [ex_w n_prevs n_previ]. destruct ex_z as [z' [Ez _]]; rewrite Ez.
        destruct (n_previ (g_node g w)) as [|i l]; [discriminate|]. cbn in Hwi. inversion Hwi; subst i.
        cbn [map combine fst snd]. now rewrite ex_const.
      - destruct (ex_old x Hx Hn) as [_ [H2 [_ [_ [H5 _]]]]]. apply refs_eq; [exact H2|exact H5|]. intros q _. apply ex_const.
    Qed.

    Lemma ex_refs_y : refs h y = map (subr p new) (refs g y).
    Proof.
      pose proof (rd_align _ (lk_rendered _ L) y Ly) as Hal. apply nth_ext_error. intro i. rewrite nth_error_map.
      destruct (nth_error (n_prevs ny) i) as [q|] eqn:Eq.
      - destruct (ex_at i q Eq) as [r [j [K1 [K2 [_ K3]]]]].
        rewrite (nth_refs g y i q j Eq K2). cbn [option_map].
        assert (E1 : nth_error (n_prevs (g_node h y)) i = Some (if q =? p then w else q))
          by (rewrite ex_node_y; cbn; rewrite nth_error_map, Eq; reflexivity).
        assert (E2 : nth_error (n_previ (g_node h y)) i = Some (if r =? t then [] else j))
          by (rewrite ex_node_y; cbn; now apply Hbi).
        rewrite (nth_refs h y i _ _ E1 E2). f_equal. unfold subr. cbn [r_name]. rewrite ex_const.
        destruct (Nat.eqb_spec q p) as [->|Hq].
        + rewrite (proj1 K3 eq_refl), Nat.eqb_refl. fold nw. rewrite ex_wkind. reflexivity.
        + destruct (Nat.eqb_spec r t) as [->|Hr]; [tauto|]. reflexivity.
      - assert (E1 : nth_error (refs g y) i = None)
          by (apply nth_error_None; rewrite refs_count by exact Hal; now apply nth_error_None).
        rewrite E1. apply nth_error_None. rewrite refs_count.
        + rewrite ex_node_y. cbn. rewrite map_length. now apply nth_error_None.
        + rewrite ex_node_y. cbn. rewrite map_length, Hb. exact Hal.
    Qed.

    Lemma linked_existing : linked h.
    Proof.
      pose proof (lk_rendered _ L) as Rd. destruct ex_t as [Bt1 [Bt2 [Bt3 Bt4]]].
      assert (Lw : live g w) by (now left).
      constructor; [constructor|..].
      - exact (rd_nodup _ Rd).
      - intros x Hx. apply ex_live in Hx. destruct (Nat.eq_dec x y) as [->|Hn].
        + rewrite ex_node_y. cbn. rewrite map_length, Hb. now apply (rd_align _ Rd).
        + destruct (Nat.eq_dec x w) as [->|Hxw].
          * rewrite ex_node_w. cbn. destruct ex_z as [z' [Ez _]]; rewrite Ez. cbn. lia.
          * destruct (ex_old x Hxw Hn) as [_ [-> [_ [_ [-> _]]]]]. now apply (rd_align _ Rd).
      - intros x Hx. change (g_fwd h) with (g_fwd g) in Hx. pose proof (rd_fwd _ Rd x Hx) as Hkx.
        destruct (Nat.eq_dec x y) as [->|Hn].
        + rewrite ex_refs_y, ex_node_y. cbn. unfold ex_kind. fold ny in Hkx. destruct (n_kind ny); try exact Hkx.
          destruct Hkx as [-> Hc]. split; [reflexivity|]. intros C E. apply (Hc C). now destruct (refs g y).
        + rewrite (ex_refs_old x Hn). destruct (Nat.eq_dec x w) as [->|Hxw].
          * rewrite ex_node_w. exact Hkx.
          * destruct (ex_old x Hxw Hn) as [-> _]. exact Hkx.
      - intros x Hx. change (g_out h) with (g_out g) in Hx. pose proof (rd_out _ Rd x Hx) as K.
        destruct (Nat.eq_dec x y) as [->|Hn].
        + rewrite ex_node_y. cbn. fold ny in K. intro E. apply K. exact (map_eq_nil _ _ E).
        + now rewrite ex_prevs.
      - intros x Hx. change (g_in h) with (g_in g) in Hx. pose proof (lk_in _ L x Hx) as K.
        destruct (Nat.eq_dec x y) as [->|Hn].
        + rewrite ex_node_y. cbn. unfold ex_kind. fold ny in K. now rewrite K.
        + destruct (Nat.eq_dec x w) as [->|Hxw]; [rewrite ex_node_w; exact K|].
          destruct (ex_old x Hxw Hn) as [-> _]. exact K.
      - intros x Hx. change (g_out h) with (g_out g) in Hx. pose proof (lk_out _ L x Hx) as K.
        destruct (Nat.eq_dec x y) as [->|Hn].
        + rewrite ex_node_y. cbn. unfold ex_kind. fold ny in K. now rewrite K.
        + destruct (Nat.eq_dec x w) as [->|Hxw]; [rewrite ex_node_w; exact K|].
          destruct (ex_old x Hxw Hn) as [-> _]. exact K.
      - intros x Hx. change (g_const h) with (g_const g) in Hx. pose proof (lk_const _ L x Hx) as K.
        destruct (Nat.eq_dec x y) as [->|Hn].
        + rewrite ex_node_y. cbn. unfold ex_kind. fold ny in K. now rewrite K.
        + destruct (Nat.eq_dec x w) as [->|Hxw]; [rewrite ex_node_w; exact K|].
          destruct (ex_old x Hxw Hn) as [-> _]. exact K.
      - intros x i q Hx Hq. apply ex_live in Hx. destruct (Nat.eq_dec x y) as [->|Hn].
        + rewrite ex_node_y in *. cbn [ex_y n_prevs n_prevt] in *. rewrite nth_error_map in Hq.
          destruct (nth_error (n_prevs ny) i) as [s|] eqn:Es; [|discriminate]. cbn in Hq.
          destruct (ex_at i s Es) as [r [j [K1 [K2 [K3 K4]]]]].
          rewrite nth_error_map, K1. cbn [option_map].
          destruct (Nat.eqb_spec s p) as [->|Hs].
          * assert (q = w) by congruence. subst q. rewrite (proj1 K4 eq_refl), Nat.eqb_refl.
            split; [right; now left|]. split; [|exists c0; split; [reflexivity|exact ex_c0]].
            rewrite ex_node_w. cbn. destruct (mem y (n_nexts nw)) eqn:Em; [now apply mem_In|].
            apply in_or_app. right. now left.
          * assert (q = s) by congruence. subst q. destruct (Nat.eqb_spec r t) as [Er|Hr]; [tauto|].
            destruct (lk_prev _ L y i s Ly Es) as [Hd [Hnx _]].
            split; [apply ex_defined; exact Hd|]. split.
            -- rewrite ex_nodes. destruct (Nat.eqb_spec s p); [congruence|].
               destruct (Nat.eqb_spec s y) as [->|]; [exact Hnx|]. destruct (Nat.eqb_spec s w) as [->|]; [|exact Hnx].
               cbn. fold nw in Hnx. destruct (mem y (n_nexts nw)); [exact Hnx|]. apply in_or_app. now left.
            -- exists r. split; [reflexivity|]. destruct (Nat.eq_dec s w) as [->|Hsw]; [|now apply ex_prod2].
               assert (r = c0) by (pose proof (Hwr y i Ly Es) as Kc; unfold ny in K1; congruence). subst r. exact ex_c0.
        + rewrite (ex_prevs x Hn) in Hq. destruct (lk_prev _ L x i q Hx Hq) as [Hd [Hnx [s [Hs Hps]]]].
          split; [apply ex_defined; exact Hd|]. split; [now apply ex_nexts|].
          destruct (Nat.eq_dec x w) as [->|Hxw].
          * rewrite Hwp in Hq. destruct i as [|[|i]]; cbn in Hq; try discriminate. assert (q = p) by congruence. subst q.
            exists t. rewrite ex_node_w. cbn [ex_w n_prevt]. destruct ex_z as [z' [Ez _]]; rewrite Ez.
            split; [reflexivity|]. now apply ex_prod2.
          * destruct (ex_old x Hxw Hn) as [_ [_ [E3 _]]]. rewrite E3. exists s. split; [exact Hs|].
            destruct (Nat.eq_dec q w) as [->|Hqw]; [|now apply ex_prod2].
            assert (s = c0) by (pose proof (Hwr x i Hx Hq); congruence). subst s. exact ex_c0.
      - intros x i q s Hx Hnx Hs Hpr Hi. apply ex_live in Hx. apply ex_prod in Hpr.
        destruct (Nat.eq_dec x y) as [->|Hn].
        + rewrite ex_node_y in *. cbn [ex_y n_prevs n_prevt] in *. rewrite map_length in Hi.
          rewrite nth_error_map. destruct (nth_error (n_prevs ny) i) as [s0|] eqn:Es; [|apply nth_error_None in Es; lia].
          destruct (ex_at i s0 Es) as [r [j [K1 [K2 [K3 K4]]]]].
          rewrite nth_error_map, K1 in Hs. cbn [option_map] in *.
          destruct (Nat.eqb_spec r t) as [Er|Hr].
          * assert (s = c0) by congruence. subst s. rewrite (Hu q w c0 Hpr (ex_prod w c0 ex_c0)).
            destruct (Nat.eqb_spec s0 p) as [->|Hs0]; [reflexivity|tauto].
          * assert (s = r) by congruence. subst s. rewrite (Hu q s0 r Hpr K3).
            destruct (Nat.eqb_spec s0 p) as [->|Hs0]; [tauto|reflexivity].
        + rewrite (ex_prevs x Hn) in *. destruct (Nat.eq_dec x w) as [->|Hxw].
          * rewrite Hwp in *. cbn in Hi. assert (i = 0) by lia. subst i.
            rewrite ex_node_w in Hs. cbn [ex_w n_prevt] in Hs. destruct ex_z as [z' [Ez _]]. rewrite Ez in Hs.
            cbn in Hs. assert (s = t) by congruence. subst s. cbn. f_equal. now apply (Hu p q t).
          * destruct (ex_old x Hxw Hn) as [_ [_ [E3 _]]]. rewrite E3 in Hs.
            destruct (nth_error (n_prevs (g_node g x)) i) as [s0|] eqn:Es; [|apply nth_error_None in Es; lia].
            destruct (lk_prev _ L x i s0 Hx Es) as [_ [_ [s' [Hs' Hps']]]]. f_equal. apply (Hu s0 q s); [|exact Hpr].
            congruence.
      - exact (lk_fresh _ L).
      - intros x q Hx Hq. change (g_fresh h) with (g_fresh g). apply ex_live in Hx. destruct (Nat.eq_dec x y) as [->|Hn].
        + rewrite ex_node_y in Hq. cbn in Hq. apply in_map_iff in Hq as [s [<- Hs]].
          destruct (s =? p); [apply (lk_fresh _ L); right; now left|now apply (lk_fresh_prev _ L y)].
        + rewrite ex_prevs in Hq by exact Hn. now apply (lk_fresh_prev _ L x).
      - intros x q Hx. change (g_fresh h) with (g_fresh g).
        apply ex_nexts_inv in Hx as [Hx|[[_ ->]|[_ ->]]]; [now apply (lk_fresh_next _ L x q)|..];
          apply (lk_fresh _ L); right; left; assumption.
      - intros x s Hs. apply ex_prod in Hs. exact (lk_tensor _ L x s Hs).
    Qed.

    Lemma ex_idle : forall x, idle (g_node h x) = idle (g_node g x).
    Proof.
      intros x. destruct (Nat.eq_dec x y) as [->|Hn].
      - rewrite ex_node_y. unfold idle. cbn. unfold ex_kind. fold ny. destruct (n_kind ny); try reflexivity.
        now case (n_prevt ny).
      - destruct (Nat.eq_dec x w) as [->|Hxw].
        + rewrite ex_node_w. unfold idle. cbn [ex_w n_kind n_prevt n_nextt]. rewrite Hwo.
          destruct ex_z as [z' [Ez _]]; rewrite Ez. fold nw. cbn. destruct (n_kind nw); try reflexivity.
          now case (n_prevt nw).
        + destruct (ex_old x Hxw Hn) as [E1 [_ [E3 [E4 _]]]]. unfold idle. now rewrite E1, E3, E4.
    Qed.

    Lemma ex_busy : idle (g_node g y) = false /\ idle (g_node g w) = false.
    Proof.
      split.
      - unfold idle. destruct (n_kind (g_node g y)); try reflexivity. destruct ex_t as [_ [_ [H _]]]. unfold ny in H.
        destruct (n_prevt (g_node g y)); [contradiction|reflexivity].
      - unfold idle. rewrite Hwo. cbn. destruct (n_kind (g_node g w)); try reflexivity. now case (n_prevt (g_node g w)).
    Qed.

    Theorem run_insert_existing : forall l1 l2 l3, g_fwd g = l1 ++ w :: l2 ++ y :: l3 ->
      ~ In p l2 -> forall V pick attr (sem : nat -> list V -> option V) f vs,
      (forall v, sem w [v] = f v) ->
      run pick attr sem (plain h) vs =
      run pick attr (with_sem sem y (through f (map (fun q => q =? p) (n_prevs ny)) (sem y))) (plain g) vs.
    Proof.
      intros l1 l2 l3 E0 Hp2 V pick attr sem f vs Hsem.
      pose proof (rd_nodup _ (lk_rendered _ L)) as Hnd.
      assert (Hnf : NoDup (l1 ++ w :: l2 ++ y :: l3)).
      { rewrite E0 in Hnd. apply nodup_app_r in Hnd. now apply nodup_app_l in Hnd. }
      assert (Hy1 : forall x, In x (l1 ++ l2 ++ l3) -> x <> y).
      { intros x Hx ->. replace (l1 ++ w :: l2 ++ y :: l3) with ((l1 ++ w :: l2) ++ y :: l3) in Hnf
          by (rewrite <- app_assoc; reflexivity).
        apply NoDup_remove_2 in Hnf. apply Hnf. rewrite !in_app_iff in *. cbn. tauto. }
      assert (Hw1 : forall x, In x (l1 ++ l2 ++ l3) -> x <> w).
      { intros x Hx ->. apply NoDup_remove_2 in Hnf. apply Hnf. rewrite !in_app_iff in *. cbn. tauto. }
      set (bz := fun x => negb (idle (g_node g x))).
      set (ln := fun l => map (fun x => (x, refs g x)) (filter bz l)).
      assert (Hln : forall l x qs, In (x, qs) (ln l) -> In x l).
      { intros l x qs Hx. unfold ln in Hx. apply in_map_iff in Hx as [x0 [Ex Hx]]. apply filter_In in Hx as [Hx _].
        now inversion Ex; subst. }
      assert (Eln : forall l, ~ In y l -> map (fun x => Assign x (refs h x)) (filter bz l) = lines_of (ln l)).
      { intros l Hl. unfold lines_of, ln. rewrite map_map. apply map_ext_in. intros x Hx.
        apply filter_In in Hx as [Hx _]. cbn. rewrite ex_refs_old; [reflexivity|]. intros ->. contradiction. }
      assert (Eln' : forall l, map (fun x => Assign x (refs g x)) (filter bz l) = lines_of (ln l))
        by (intros l; unfold lines_of, ln; now rewrite map_map).
      assert (Ew : refs g w = [old]).
      { unfold refs. rewrite Hwp. destruct (n_previ (g_node g w)) as [|i l]; [discriminate|]. cbn in Hwi.
        inversion Hwi; subst i. reflexivity. }
      assert (Eg : plain g = mkprog (g_in g) (lines_of (ln l1) ++ Assign w [old] :: lines_of (ln l2) ++
                     Assign y (refs g y) :: lines_of (ln l3)) (p_ret (plain g))).
      { unfold plain at 1. f_equal. fold bz. rewrite E0, !filter_app. cbn [filter].
        unfold bz at 2. rewrite (proj2 ex_busy). cbn [negb]. rewrite !map_app. cbn [map]. rewrite filter_app.
        cbn [filter]. unfold bz at 3. rewrite (proj1 ex_busy). cbn [negb].
        rewrite map_app. cbn [map]. rewrite Ew. now rewrite !Eln'. }
      assert (Eh : plain h = mkprog (g_in g) (lines_of (ln l1) ++ Assign w [old] :: lines_of (ln l2) ++
                     Assign y (map (subr p (mkref false w [])) (refs g y)) :: lines_of (ln l3)) (p_ret (plain g))).
      { unfold plain. cbn [p_ret]. f_equal.
        - change (g_fwd h) with (g_fwd g).
          rewrite (filter_ext _ bz) by (intro x; unfold bz; now rewrite ex_idle).
          rewrite E0, !filter_app. cbn [filter].
          unfold bz at 2. rewrite (proj2 ex_busy). cbn [negb]. rewrite !map_app. cbn [map]. rewrite filter_app.
          cbn [filter]. unfold bz at 3. rewrite (proj1 ex_busy). cbn [negb].
          rewrite map_app. cbn [map]. rewrite ex_refs_y, (ex_refs_old w Hwy), Ew.
          rewrite !Eln; [reflexivity|..]; intro K; refine (Hy1 y _ eq_refl); rewrite !in_app_iff; tauto.
        - change (g_out h) with (g_out g). apply map_ext_in. intros x Hx.
          assert (Hy : In y (g_fwd g)) by (rewrite E0; rewrite in_app_iff; cbn; rewrite in_app_iff; cbn; tauto).
          assert (Hxy : x <> y).
          { intros ->. pose proof (rd_fwd _ (lk_rendered _ L) y Hy) as K. rewrite (lk_out _ L y Hx) in K. exact K. }
          rewrite (ex_refs_old x Hxy).
          assert (Hxw : x <> w).
          { intros ->. pose proof (rd_fwd _ (lk_rendered _ L) w Hw) as K. rewrite (lk_out _ L w Hx) in K. exact K. }
          destruct (ex_old x Hxw Hxy) as [_ [_ [_ [_ [_ ->]]]]]. reflexivity. }
      rewrite Eg, Eh.
      replace (map (fun q => q =? p) (n_prevs ny)) with (map (fun r => r_name r =? p) (refs g y)).
      2: { unfold refs. rewrite map_map. cbn [r_name].
           pose proof (rd_align _ (lk_rendered _ L) y Ly) as Hal. fold ny in Hal. fold ny.
           rewrite <- (map_fst_combine _ _ (n_prevs ny) (n_previ ny) Hal) at 2. now rewrite map_map. }
      apply run_existing; try assumption.
      - intros x qs Hx. apply Hy1. rewrite !in_app_iff in *. destruct Hx as [Hx|[Hx|Hx]]; apply Hln in Hx; tauto.
      - intros x qs Hx. apply Hw1. apply Hln in Hx. rewrite !in_app_iff. tauto.
      - intros _. split; [exact Hpw|]. intros x qs Hx E. apply Hln in Hx. cbn in E. congruence.
      - intros r Hr Er. apply refs_In in Hr as [i [q [ix [K1 [K2 ->]]]]]. cbn in Er. subst q.
        destruct (Hone i K1) as [_ K3]. unfold old, pc, np. congruence.
    Qed.
  End Fixed.
End Existing.
