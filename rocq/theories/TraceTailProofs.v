(* Proofs about programs with calls in front of the returned values. *)
From Coq Require Import List Arith Bool Lia.
From Verif Require Import TraceSpec TraceModel TraceProofs TraceAfterProofs.
Import ListNotations.

Definition lines_of (l : list (nat * list ref)) : list stmt := map (fun e => Assign (fst e) (snd e)) l.

(* ------------------------------------------------------------------ *)
(* Programs with calls in front of the returned values *)

Section Tail.
  Variable V : Type.
  Variable pick : V -> nat -> option V.
  Variable attr : nat -> option V.
  Variable sem : nat -> list V -> option V.

  (* new name, argument and meaning of a call *)
  Definition newcall : Type := (nat * ref * (V -> option V))%type.
  Definition nc_name (c : newcall) : nat := fst (fst c).
  Definition nc_ref (c : newcall) : ref := snd (fst c).
  Definition nc_lines (l : list newcall) : list stmt := map (fun c => Assign (nc_name c) [nc_ref c]) l.
  Definition nc_sems (l : list newcall) : nat -> list V -> option V :=
    with_sems sem (map (fun c => (nc_name c, snd c)) l).
  Definition nc_fs (l : list newcall) : list (V -> option V) := map snd l.

  Lemma sems_other : forall l x, ~ In x (map nc_name l) -> nc_sems l x = sem x.
  Proof.
    induction l as [|[[w r] f] l IH]; intros x H; [reflexivity|]. cbn. unfold with_sem.
    destruct (Nat.eqb_spec x w) as [->|]; [exfalso; apply H; now left|]. apply IH. intro K. apply H. now right.
  Qed.

  (* the lines bind the results *)
  Fixpoint bind_all (e : env V) (l : list newcall) (us : list V) : env V :=
    match l, us with
    | c :: l', u :: us' => bind_all (bindv e (nc_name c) (Some u)) l' us'
    | _, _ => e
    end.

  Lemma bind_all_other : forall l us e x, ~ In x (map nc_name l) -> bind_all e l us x = e x.
  Proof.
    induction l as [|c l IH]; intros us e x H; [reflexivity|]. destruct us as [|u us]; [reflexivity|]. cbn.
    rewrite IH; [|intro K; apply H; now right]. unfold bindv.
    destruct (Nat.eqb_spec x (nc_name c)) as [->|]; [exfalso; apply H; now left|reflexivity].
  Qed.

  Lemma exec_tail : forall l e0 e (sm : nat -> list V -> option V), NoDup (map nc_name l) ->
    (forall c c', In c l -> In c' l -> r_name (nc_ref c) <> nc_name c') ->
    (forall c, In c l -> sm (nc_name c) = call1 (snd c)) ->
    (forall c, In c l -> read pick attr e (nc_ref c) = read pick attr e0 (nc_ref c)) ->
    exec pick attr sm (nc_lines l) e =
    bind (bind (traverse (read pick attr e0) (map nc_ref l)) (each_through (nc_fs l))) (fun us => Some (bind_all e l us)).
  Proof.
    induction l as [|c l IH]; intros e0 e sm Hn Hf Hs Hr; [reflexivity|].
    inversion_clear Hn. cbn [nc_lines map exec step traverse nc_fs].
    rewrite (Hr c (or_introl eq_refl)). destruct (read pick attr e0 (nc_ref c)) as [v|]; cbn [bind]; [|reflexivity].
    rewrite (Hs c (or_introl eq_refl)). cbn [call1]. destruct (snd c v) as [u|] eqn:Eu; cbn [bind].
    - fold (nc_lines l). rewrite (IH e0).
      + fold (nc_fs l). destruct (traverse (read pick attr e0) (map nc_ref l)) as [vs|]; cbn [bind each_through]; [|reflexivity].
        rewrite Eu. cbn [bind]. destruct (each_through (nc_fs l) vs) as [us|]; cbn [bind]; reflexivity.
      + assumption.
      + intros; apply Hf; now right.
      + intros; apply Hs; now right.
      + intros c' Hc'. rewrite <- (Hr c' (or_intror Hc')). apply read_agree. intros _. unfold bindv.
        destruct (Nat.eqb_spec (r_name (nc_ref c')) (nc_name c)) as [K|]; [|reflexivity].
        exfalso. apply (Hf c' c); [now right|now left|exact K].
    - destruct (traverse (read pick attr e0) (map nc_ref l)) as [vs|]; cbn [bind each_through]; [|reflexivity].
      now rewrite Eu.
  Qed.

  Lemma each_length : forall fs (vs us : list V), each_through fs vs = Some us -> length us = length fs.
  Proof.
    induction fs as [|f fs IH]; intros [|v vs] us H; cbn in H; try discriminate; [now inversion H|].
    destruct (f v) as [u|]; [|discriminate]. cbn in H.
    destruct (each_through fs vs) as [us'|] eqn:E; [|discriminate]. inversion H; subst. cbn. f_equal. now apply (IH vs).
  Qed.

  Lemma read_bound : forall l us e, NoDup (map nc_name l) -> length us = length l ->
    traverse (read pick attr (bind_all e l us)) (map (fun c => mkref false (nc_name c) []) l) = Some us.
  Proof.
    induction l as [|c l IH]; intros us e Hn Hl; destruct us as [|u us]; try discriminate; [reflexivity|].
    inversion_clear Hn. cbn [map traverse bind_all]. rewrite (IH us) by (auto; cbn in Hl; lia).
    unfold read at 1. cbn [r_self r_name r_idx picks].
    rewrite bind_all_other by assumption. unfold bindv. rewrite Nat.eqb_refl. reflexivity.
  Qed.

  Lemma nth_fails : forall (B : Type) (rd : list ref -> option B) (G : B -> option B) ret i rs,
    nth_error ret i = Some rs -> bind (rd rs) G = None -> bind (traverse rd ret) (nth_through G i) = None.
  Proof.
    intros B rd G. induction ret as [|a ret IH]; intros i rs Hi Hg; [now destruct i|].
    cbn [traverse]. destruct i as [|i]; cbn in Hi.
    - assert (a = rs) by congruence. subst a. destruct (rd rs) as [b|]; [|reflexivity]. cbn [bind] in *.
      destruct (traverse rd ret); cbn; [|reflexivity]. now rewrite Hg.
    - specialize (IH i rs Hi Hg). destruct (rd a); [|reflexivity]. cbn [bind].
      destruct (traverse rd ret) as [bs|]; [|reflexivity]. cbn [bind] in *. cbn. now rewrite IH.
  Qed.

  Lemma nth_goes : forall (B : Type) (rd rd' : list ref -> option B) (G : B -> option B) ret ret' i rs u,
    nth_error ret i = Some rs -> bind (rd rs) G = Some u ->
    length ret' = length ret ->
    (forall j a a', nth_error ret j = Some a -> nth_error ret' j = Some a' ->
       rd' a' = if j =? i then Some u else rd a) ->
    traverse rd' ret' = bind (traverse rd ret) (nth_through G i).
  Proof.
    intros B rd rd' G. induction ret as [|a ret IH]; intros [|a' ret'] i rs u Hi Hg Hl H; try discriminate;
      [now destruct i|]. cbn [traverse]. pose proof (H 0 a a' eq_refl eq_refl) as H0.
    destruct i as [|i]; cbn in Hi.
    - assert (a = rs) by congruence. subst a. cbn in H0. rewrite H0. destruct (rd rs) as [b|]; [|discriminate].
      cbn [bind] in *.
      assert (Et : traverse rd' ret' = traverse rd ret).
      { assert (H' : forall j a a', nth_error ret j = Some a -> nth_error ret' j = Some a' -> rd' a' = rd a)
          by (intros j x x' Hx Hx'; exact (H (S j) x x' Hx Hx')).
        assert (Hl' : length ret' = length ret) by (cbn in Hl; lia).
        clear - Hl' H'. revert ret' Hl' H'. induction ret as [|x ret IH]; intros [|x' ret'] Hl H; try discriminate; [reflexivity|].
        cbn. rewrite (H 0 x x' eq_refl eq_refl), (IH ret'); [reflexivity|cbn in Hl; lia|].
        intros j y y' Hy Hy'. exact (H (S j) y y' Hy Hy'). }
      rewrite Et. destruct (traverse rd ret) as [bs|]; cbn [bind]; [|reflexivity]. cbn. now rewrite Hg.
    - cbn in H0. rewrite H0. destruct (rd a) as [b|]; [|reflexivity]. cbn [bind].
      rewrite (IH ret' i rs u Hi Hg); [|cbn in Hl; lia|intros j x x' Hx Hx'; exact (H (S j) x x' Hx Hx')].
      destruct (traverse rd ret) as [bs|]; reflexivity.
  Qed.

  (* one returned group goes through new calls *)
  Theorem run_tail : forall ins l (news : list newcall) ret ret' i vs,
    NoDup (map nc_name news) -> length ret' = length ret ->
    nth_error ret i = Some (map nc_ref news) ->
    nth_error ret' i = Some (map (fun c => mkref false (nc_name c) []) news) ->
    (forall j, j <> i -> nth_error ret' j = nth_error ret j) ->
    (forall x qs, In (x, qs) l -> ~ In x (map nc_name news) /\ forall r, In r qs -> ~ In (r_name r) (map nc_name news)) ->
    (forall qs, In qs ret -> forall r, In r qs -> ~ In (r_name r) (map nc_name news)) ->
    run pick attr (nc_sems news) (mkprog ins (lines_of l ++ nc_lines news) ret') vs =
    bind (run pick attr sem (mkprog ins (lines_of l) ret) vs) (nth_through (each_through (nc_fs news)) i).
  Proof.
    intros ins l news ret ret' i vs Hn Hl Hi Hi' Hother Hlines Hret. unfold run. cbn [p_params p_body p_ret].
    destruct (params ins vs) as [e|]; cbn [bind]; [|reflexivity].
    rewrite exec_app.
    assert (Ee : exec pick attr (nc_sems news) (lines_of l) e = exec pick attr sem (lines_of l) e).
    { revert e Hlines. clear - news. induction l as [|[x qs] l IH]; intros e H; [reflexivity|].
      cbn [lines_of map exec step fst snd]. fold (lines_of l).
      rewrite sems_other by (now apply (H x qs); left).
      destruct (traverse (read pick attr e) qs) as [us|]; cbn [bind]; [|reflexivity].
      destruct (sem x us); cbn [bind]; [|reflexivity]. apply IH. intros y rs Hy. apply H. now right. }
    rewrite Ee. destruct (exec pick attr sem (lines_of l) e) as [a|]; cbn [bind]; [|reflexivity].
    rewrite (exec_tail news a a); [|assumption|..|reflexivity].
    - set (X := bind (traverse (read pick attr a) (map nc_ref news)) (each_through (nc_fs news))).
      destruct X as [us|] eqn:EX; unfold X in EX; cbn [bind].
      + apply (nth_goes (list V) (traverse (read pick attr a)) _ (each_through (nc_fs news)) ret ret' i _ us Hi EX Hl).
        intros j b b' Hb Hb'. destruct (Nat.eqb_spec j i) as [->|Hj].
        * assert (b' = map (fun c => mkref false (nc_name c) []) news) by congruence. subst b'.
          apply read_bound; [assumption|].
          destruct (traverse (read pick attr a) (map nc_ref news)) as [vs'|]; [|discriminate].
          cbn [bind] in EX. apply each_length in EX. rewrite EX. unfold nc_fs. apply map_length.
        * rewrite Hother in Hb' by assumption. assert (b' = b) by congruence. subst b'.
          apply traverse_ext. intros r Hr. apply read_agree. intros _. apply bind_all_other.
          apply (Hret b); [eapply nth_error_In; eauto|assumption].
      + symmetry. apply (nth_fails (list V) (traverse (read pick attr a)) _ ret i _ Hi). exact EX.
    - intros c c' Hc Hc' E. apply (Hret (map nc_ref news) (nth_error_In _ _ Hi) (nc_ref c)); [now apply in_map|].
      rewrite E. now apply in_map.
    - clear - Hn. intros c Hc. unfold nc_sems. induction news as [|[[w r] f] l IH]; [contradiction|].
      inversion_clear Hn. cbn. unfold with_sem. destruct Hc as [<-|Hc].
      + cbn. now rewrite Nat.eqb_refl.
      + destruct (Nat.eqb_spec (nc_name c) w) as [K|]; [|now apply IH]. exfalso. apply H. cbn.
        unfold nc_name at 1. cbn. rewrite <- K. now apply in_map.
  Qed.
End Tail.
