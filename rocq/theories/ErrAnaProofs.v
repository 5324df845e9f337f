From Coq Require Import List Arith Bool Lia Permutation Sorting.Sorted.
From Verif Require Import ErrAnaModel ErrAnaSpec.
Import ListNotations.

Lemma q_in_iff n l : q_in n l = true <-> In n l.
Proof. unfold q_in. rewrite existsb_exists. split; [intros (x & H & E); apply Nat.eqb_eq in E; congruence|intros H; exists n; split; [exact H|apply Nat.eqb_refl]]. Qed.
Lemma q_set_in ms p b f n : In n ms -> q_set ms p b f n = if p n then b n else f n.
Proof. intros H. unfold q_set. apply q_in_iff in H. now rewrite H. Qed.

(** dictionaries *)
Section Dict.
Context {T : Type}.
Implicit Types (d l : list (nat * T)).
Lemma put_keys n x : forall d, map fst (d_put n x d) = if in_dec Nat.eq_dec n (map fst d) then map fst d else map fst d ++ [n].
Proof.
  induction d as [|[m y] d IH]; [reflexivity|]. cbn [d_put]. destruct (n =? m) eqn:E.
  - apply Nat.eqb_eq in E. subst m. cbn [map fst]. destruct (in_dec Nat.eq_dec n (n :: map fst d)) as [_|N]; [reflexivity|elim N; now left].
  - cbn [map fst]. rewrite IH. apply Nat.eqb_neq in E. destruct (in_dec Nat.eq_dec n (map fst d)) as [I|I], (in_dec Nat.eq_dec n (m :: map fst d)) as [J|J]; try reflexivity.
    + elim J. now right.
    + destruct J as [J|J]; [congruence|contradiction].
Qed.
Lemma put_in n x m y : forall d, NoDup (map fst d) -> (In (m, y) (d_put n x d) <-> (m = n /\ y = x) \/ (m <> n /\ In (m, y) d)).
Proof.
  induction d as [|[k z] d IH]; intros ND.
  - cbn. split; [intros [E|[]]; injection E as <- <-; auto|intros [[-> ->]|[_ []]]; auto].
  - inversion ND as [|? ? N1 N2]; subst. cbn [d_put]. destruct (n =? k) eqn:E.
    + apply Nat.eqb_eq in E. subst k. cbn [In]. split.
      * intros [E|H]; [injection E as <- <-; auto|]. right. split; [|now right]. intros ->. apply N1. exact (in_map fst _ _ H).
      * intros [[-> ->]|[H [E|H2]]]; [now left|injection E as -> ->; contradiction|now right].
    + apply Nat.eqb_neq in E. cbn [In]. rewrite IH by exact N2. split.
      * intros [Q|[H|[H1 H2]]]; [injection Q as <- <-; right; auto|now left|right; auto].
      * intros [H|[H1 [Q|H2]]]; auto.
Qed.
Lemma get_in n x : forall d, NoDup (map fst d) -> (d_get n d = Some x <-> In (n, x) d).
Proof.
  induction d as [|[k z] d IH]; intros ND; [cbn; split; [discriminate|intros []]|]. inversion ND as [|? ? N1 N2]; subst. cbn [d_get In]. destruct (n =? k) eqn:E.
  - apply Nat.eqb_eq in E. subst k. split; [intros Q; injection Q as ->; now left|]. intros [Q|H]; [now injection Q as ->|]. elim N1. exact (in_map fst _ _ H).
  - apply Nat.eqb_neq in E. rewrite IH by exact N2. split; [now right|]. intros [Q|H]; [congruence|exact H].
Qed.
Lemma get_none n : forall d, d_get n d = None <-> ~ In n (map fst d).
Proof.
  induction d as [|[k z] d IH]; [cbn; tauto|]. cbn [d_get map fst In]. destruct (n =? k) eqn:E.
  - apply Nat.eqb_eq in E. split; [discriminate|]. intros H. elim H. now left.
  - apply Nat.eqb_neq in E. rewrite IH. split; [intros H [Q|Q]; [congruence|auto]|tauto].
Qed.
Lemma last_snoc l m y n x : last_call (l ++ [(m, y)]) n x <-> (n = m /\ x = y) \/ (n <> m /\ last_call l n x).
Proof.
  split.
  - intros (l1 & l2 & E & H). destruct (exists_last (l := (n, x) :: l2)) as (l3 & z & Q); [discriminate|]. rewrite Q, app_assoc in E. apply app_inj_tail in E. destruct E as [E <-].
    destruct l2 as [|b l2].
    + destruct l3 as [|? [|? ?]]; try discriminate Q. injection Q as -> ->. left. auto.
    + destruct l3 as [|a l3]; [discriminate|]. injection Q as <- Q. right. split.
      * intros ->. apply (H y). rewrite Q. apply in_or_app. right. now left.
      * exists l1, l3. split; [exact E|]. intros u U. apply (H u). rewrite Q. apply in_or_app. now left.
  - intros [[-> ->]|[N (l1 & l2 & -> & H)]].
    + exists l, []. auto.
    + exists l1, (l2 ++ [(m, y)]). split; [now rewrite <- app_assoc|]. intros u U. apply in_app_or in U. destruct U as [U|[U|[]]]; [exact (H u U)|congruence].
Qed.
Lemma firsts_snoc n : forall (l seen : list nat), firsts seen (l ++ [n]) = firsts seen l ++ (if in_dec Nat.eq_dec n (seen ++ l) then [] else [n]).
Proof.
  induction l as [|m l IH]; intros seen.
  - cbn [firsts app]. rewrite app_nil_r. destruct (in_dec Nat.eq_dec n seen); reflexivity.
  - cbn [firsts app]. destruct (in_dec Nat.eq_dec m seen) as [I|I]; rewrite IH; cbn [app]; f_equal.
    + destruct (in_dec Nat.eq_dec n (seen ++ l)) as [A|A], (in_dec Nat.eq_dec n (seen ++ m :: l)) as [B|B]; try reflexivity.
      * elim B. apply in_app_or in A. apply in_or_app. destruct A; [now left|right; now right].
      * elim A. apply in_app_or in B. apply in_or_app. destruct B as [B|[->|B]]; auto.
    + f_equal. destruct (in_dec Nat.eq_dec n (m :: seen ++ l)) as [A|A], (in_dec Nat.eq_dec n (seen ++ m :: l)) as [B|B]; try reflexivity.
      * elim B. destruct A as [->|A]; [apply in_or_app; right; now left|]. apply in_app_or in A. apply in_or_app. destruct A; [now left|right; now right].
      * elim A. apply in_app_or in B. destruct B as [B|[->|B]]; [right; apply in_or_app; now left|now left|right; apply in_or_app; now right].
Qed.
Lemma firsts_in n : forall (l seen : list nat), In n (firsts seen l) <-> In n l /\ ~ In n seen.
Proof.
  induction l as [|m l IH]; intros seen; [cbn; tauto|]. cbn [firsts]. destruct (in_dec Nat.eq_dec m seen) as [I|I].
  - rewrite IH. cbn [In]. split; [tauto|]. intros [[->|H] N]; [contradiction|auto].
  - cbn [In]. rewrite IH. cbn [In]. destruct (Nat.eq_dec m n) as [->|D]; [tauto|]. split; [tauto|]. intros [[?|H] N]; [contradiction|]. right. split; [exact H|]. intros [?|?]; contradiction.
Qed.
Definition put_all (h : nat -> bool) (l : list (nat * T)) : list (nat * T) := fold_left (fun d c => if h (fst c) then d_put (fst c) (snd c) d else d) l [].
Lemma put_all_ok h l : NoDup (map fst (put_all h l)) /\ map fst (put_all h l) = firsts [] (filter h (map fst l)) /\
  forall n x, In (n, x) (put_all h l) <-> h n = true /\ last_call l n x.
Proof.
  induction l as [|[m y] l (N & K & I)] using rev_ind.
  - split; [constructor|]. split; [reflexivity|]. intros n x. split; [intros []|]. intros (_ & l1 & l2 & E & _). destruct l1; discriminate.
  - unfold put_all in *. rewrite fold_left_app. cbn [fold_left fst snd]. set (d := fold_left _ l []) in *. rewrite map_app. cbn [map fst]. rewrite filter_app. cbn [filter]. destruct (h m) eqn:H.
    + rewrite put_keys, firsts_snoc, <- K. cbn [app].
      assert (Q : In m (map fst d) <-> In m (filter h (map fst l))) by (rewrite K, firsts_in; cbn; tauto).
      split; [|split].
      * destruct (in_dec Nat.eq_dec m (map fst d)) as [A|A]; [exact N|]. apply NoDup_Add with (a := m) (l := map fst d); [|split; assumption].
        assert (Z := Add_app m (map fst d) []). rewrite app_nil_r in Z. exact Z.
      * destruct (in_dec Nat.eq_dec m (map fst d)) as [A|A], (in_dec Nat.eq_dec m (filter h (map fst l))) as [B|B]; [now rewrite app_nil_r|tauto|tauto|reflexivity].
      * intros n x. rewrite put_in by exact N. rewrite I, last_snoc. split; [intros [[-> ->]|(D & A & B)]; auto|]. intros (A & [[-> ->]|[D B]]); auto.
    + rewrite app_nil_r. split; [exact N|]. split; [exact K|]. intros n x. rewrite I, last_snoc. split; [intros [A B]; split; [exact A|]; right; split; [congruence|exact B]|].
      intros (A & [[-> ->]|[D B]]); [congruence|auto].
Qed.
End Dict.

Lemma results_ok {T} (M : qmodel T) s : NoDup (map fst (q_results M s)) /\ map fst (q_results M s) = firsts [] (filter (hooked M) (map fst (q_run M s))) /\
  forall n x, In (n, x) (q_results M s) <-> (In n (qms M) /\ q_isfq M n = true) /\ last_call (q_run M s) n x.
Proof.
  destruct (put_all_ok (hooked M) (q_run M s)) as (A & B & C). split; [exact A|]. split; [exact B|]. intros n x. etransitivity; [exact (C n x)|].
  unfold hooked. rewrite andb_true_iff, q_in_iff. reflexivity.
Qed.

(** sorting *)
Section Sort.
Context {L : Type} (leb : L -> L -> bool).
Notation R := (fun a b : nat * L => leb (snd a) (snd b) = true).
Lemma ins_perm a : forall l, Permutation (a :: l) (s_ins leb a l).
Proof. induction l as [|b l IH]; [reflexivity|]. cbn. destruct (leb _ _); [reflexivity|]. rewrite perm_swap. now constructor. Qed.
Lemma sort_perm : forall l, Permutation l (s_sort leb l).
Proof. induction l as [|a l IH]; [reflexivity|]. cbn. rewrite <- ins_perm. now constructor. Qed.
Hypothesis TP : total_preorder leb.
Lemma ins_sorted a : forall l, StronglySorted R l -> StronglySorted R (s_ins leb a l).
Proof.
  destruct TP as [TOT TR]. induction l as [|b l IH]; intros S; cbn; [repeat constructor|]. inversion S as [|? ? S1 F]; subst. destruct (leb (snd a) (snd b)) eqn:E.
  - constructor; [exact S|]. constructor; [exact E|]. rewrite Forall_forall in *. intros c C. apply (TR _ (snd b)); [exact E|exact (F c C)].
  - constructor; [apply IH, S1|]. rewrite Forall_forall in *. intros c C. apply (Permutation_in _ (Permutation_sym (ins_perm a l))) in C. destruct C as [<-|C]; [|exact (F c C)].
    destruct (TOT (snd a) (snd b)); congruence.
Qed.
Lemma sort_sorted : forall l, StronglySorted R (s_sort leb l).
Proof. induction l as [|a l IH]; [constructor|]. cbn. apply ins_sorted, IH. Qed.
Lemma sorted_app : forall l1 l2, StronglySorted R (l1 ++ l2) -> StronglySorted R l1 /\ forall a b, In a l1 -> In b l2 -> R a b.
Proof.
  induction l1 as [|x l1 IH]; intros l2 S; [split; [constructor|intros a b []]|]. cbn in S. inversion S as [|? ? S1 F]; subst. destruct (IH l2 S1) as [A B]. rewrite Forall_forall in F. split.
  - constructor; [exact A|]. rewrite Forall_forall. intros c C. apply F. apply in_or_app. now left.
  - intros a b [<-|H] H2; [apply F; apply in_or_app; now right|exact (B a b H H2)].
Qed.
Lemma smallest_ok k l : smallest leb k l (firstn k (s_sort leb l)).
Proof.
  assert (S := sort_sorted l). rewrite <- (firstn_skipn k (s_sort leb l)) in S. apply sorted_app in S. destruct S as [S1 S2].
  exists (skipn k (s_sort leb l)). rewrite firstn_skipn. split; [apply sort_perm|]. split; [|split; assumption]. rewrite firstn_length. f_equal. apply Permutation_length, Permutation_sym, sort_perm.
Qed.
End Sort.

Lemma float_off {T} (M : qmodel T) s : float_state M s (q_off M s).
Proof. intros n H. cbn. rewrite !q_set_in by exact H. auto. Qed.
Lemma quant_back {T} (M : qmodel T) s : quant_state M s (q_fq_back M s (q_off M s)).
Proof. intros n H. cbn. rewrite !q_set_in by exact H. split; [reflexivity|]. split; intros ->; reflexivity. Qed.
Lemma end_ok {T} (M : qmodel T) s : let s' := q_end M s (q_fq_back M s (q_off M s)) in flags_kept M s s' /\ (one_mode M s -> mode_kept M s s').
Proof.
  intros s'. split.
  - intros n H C. cbn. rewrite !q_set_in by exact H. destruct (q_isfq M n), C as [C|C]; try discriminate; auto. rewrite C. auto.
  - intros O n H. cbn. rewrite <- (O n H). destruct (qtr s n); rewrite !q_set_in by exact H; reflexivity.
Qed.
Lemma errors_ok {T L} leb (metric : T -> T -> L) k (M : qmodel T) s p : total_preorder leb ->
  report leb k (fun n e => p n = true /\ layer_error M metric s (q_off M s) n e)
    (firstn k (s_sort leb (filter (fun e => p (fst e)) (layer_errors M metric (q_fq_back M s (q_off M s)) (q_results M (q_off M s)))))).
Proof.
  intros TP. set (es := layer_errors _ _ _ _). exists (filter (fun e => p (fst e)) es). destruct (results_ok M (q_off M s)) as (N & _ & I).
  assert (KE : map fst es = rev (map fst (q_results M (q_off M s)))).
  { unfold es, layer_errors. rewrite map_map, <- map_rev. apply map_ext. reflexivity. }
  split; [|split; [|apply smallest_ok, TP]].
  - assert (Z : NoDup (map fst es)) by (rewrite KE; apply NoDup_rev, N). clear - Z. induction es as [|e es IH]; [constructor|]. cbn in *. inversion Z as [|? ? Z1 Z2]; subst.
    destruct (p (fst e)); [|exact (IH Z2)]. cbn. constructor; [|exact (IH Z2)]. intros H. apply Z1. apply in_map_iff in H. destruct H as (x & E & H). apply filter_In in H. rewrite <- E. apply in_map, H.
  - intros n e. rewrite filter_In. cbn [fst]. unfold es, layer_errors. rewrite in_map_iff. split.
    + intros ((nx & E & H) & P). destruct nx as [m x]. cbn [fst snd] in E. apply in_rev in H. apply I in H. destruct H as ((H1 & H2) & H3). assert (Q := f_equal fst E). cbn in Q. subst m.
      apply (f_equal snd) in E. cbn [snd q_fq_back qfq] in E. rewrite q_set_in, H2 in E by exact H1. split; [exact P|]. split; [exact H1|]. split; [exact H2|]. exists x. split; [exact H3|now symmetry].
    + intros (P & H1 & H2 & x & H3 & ->). split; [|exact P]. exists (n, x). cbn [fst snd q_fq_back qfq]. rewrite q_set_in, H2 by exact H1. split; [reflexivity|]. apply in_rev. rewrite rev_involutive. apply I. auto.
Qed.
Theorem layer_ok {T L} leb (metric : T -> T -> L) k (M : qmodel T) s : total_preorder leb ->
  exists ws acts s' sf, layer_analysis leb metric k M s = (ws, acts, s') /\ float_state M s sf /\
    report leb k (fun n e => q_isw M n = true /\ layer_error M metric s sf n e) ws /\
    report leb k (fun n e => q_isw M n = false /\ layer_error M metric s sf n e) acts.
Proof.
  intros TP. eexists _, _, _, (q_off M s). split; [reflexivity|]. split; [apply float_off|]. split; [apply errors_ok, TP|].
  destruct (errors_ok leb metric k M s (fun n => negb (q_isw M n)) TP) as (full & A & B & C). exists full. split; [exact A|]. split; [|exact C].
  intros n e. rewrite B. rewrite negb_true_iff. reflexivity.
Qed.
Theorem restored {T L} leb (metric : T -> T -> L) k (M : qmodel T) s :
  (let '(_, _, s') := layer_analysis leb metric k M s in flags_kept M s s' /\ (one_mode M s -> mode_kept M s s')) /\
  (forall es s', graph_analysis metric M s = Some (es, s') -> flags_kept M s s' /\ (one_mode M s -> mode_kept M s s')).
Proof.
  split; [exact (end_ok M s)|]. intros es s' H. unfold graph_analysis in H. destruct (graph_errors _ _ _ _); [|discriminate]. injection H as _ <-. exact (end_ok M s).
Qed.
Lemma graph_errors_ok {T L} (metric : T -> T -> L) isw (d2 : list (nat * T)) : NoDup (map fst d2) -> forall d, NoDup (map fst d) ->
  match graph_errors metric isw d2 d with
  | Some es => incl (map fst d) (map fst d2) /\ map fst es = filter (fun n => negb (isw n)) (map fst d) /\ forall n e, In (n, e) es -> exists x y, In (n, x) d /\ In (n, y) d2 /\ e = metric x y
  | None => ~ incl (map fst d) (map fst d2)
  end.
Proof.
  intros N2. induction d as [|[n x] d IH]; intros N.
  - cbn. split; [intros ? []|]. split; [reflexivity|]. intros n e [].
  - inversion N as [|? ? N1 N3]; subst. specialize (IH N3). cbn [graph_errors]. destruct (d_get n d2) as [y|] eqn:G.
    + apply (get_in n y d2 N2) in G. destruct (graph_errors metric isw d2 d) as [es|].
      * destruct IH as (A & B & C). cbn [map fst]. split; [intros z [<-|Z]; [exact (in_map fst _ _ G)|exact (A z Z)]|]. cbn [filter]. split.
        -- destruct (isw n); cbn; [exact B|now rewrite B].
        -- intros m e H. assert (Q : In (m, e) es \/ (m, e) = (n, metric x y)) by (destruct (isw n); [now left|destruct H as [H|H]; [right; now symmetry|now left]]). destruct Q as [Q|Q].
           ++ destruct (C m e Q) as (x' & y' & X & Y & E). exists x', y'. split; [now right|auto].
           ++ injection Q as -> ->. exists x, y. split; [now left|auto].
      * intros A. apply IH. intros z Z. apply A. now right.
    + apply get_none in G. intros A. apply G. apply A. now left.
Qed.
Theorem graph_ok {T L} (metric : T -> T -> L) (M : qmodel T) s :
  exists sf sq, float_state M s sf /\ quant_state M s sq /\
  let called := filter (hooked M) (map fst (q_run M sf)) in
  match graph_analysis metric M s with
  | Some (es, _) => incl called (map fst (q_run M sq)) /\ map fst es = filter (fun n => negb (q_isw M n)) (firsts [] called) /\
      forall n e, In (n, e) es -> exists x y, last_call (q_run M sf) n x /\ last_call (q_run M sq) n y /\ e = metric x y
  | None => ~ incl called (map fst (q_run M sq))
  end.
Proof.
  exists (q_off M s), (q_fq_back M s (q_off M s)). split; [apply float_off|]. split; [apply quant_back|]. cbv zeta.
  destruct (results_ok M (q_off M s)) as (A1 & A2 & A3), (results_ok M (q_fq_back M s (q_off M s))) as (B1 & B2 & B3).
  set (called := filter _ _) in *. unfold graph_analysis. cbv zeta.
  assert (X := graph_errors_ok metric (q_isw M) _ B1 _ A1). rewrite A2, B2 in X.
  assert (INC : incl (firsts [] called) (firsts [] (filter (hooked M) (map fst (q_run M (q_fq_back M s (q_off M s)))))) <-> incl called (map fst (q_run M (q_fq_back M s (q_off M s))))).
  { split; intros H n I.
    - assert (Q : In n (firsts [] called)) by (apply firsts_in; cbn; tauto). apply H in Q. apply firsts_in in Q. destruct Q as [Q _]. apply filter_In in Q. apply Q.
    - apply firsts_in in I. destruct I as [I _]. apply firsts_in. split; [|intros []]. apply filter_In. split; [exact (H n I)|]. unfold called in I. apply filter_In in I. apply I. }
  destruct (graph_errors _ _ _ _) as [es|].
  - destruct X as (X1 & X2 & X3). split; [apply INC, X1|]. split; [exact X2|]. intros n e H. destruct (X3 n e H) as (x & y & H1 & H2 & E). exists x, y. split; [apply A3, H1|]. split; [apply B3, H2|exact E].
  - intros H. apply X. apply INC, H.
Qed.
(** a model in training mode whose module 1 (a frozen batch norm) is in evaluation mode; module 2 is a FakeQuantizeBase that is no FakeQuantize *)
Definition ce_model : qmodel nat := mkQM nat [0; 1; 2] 0 (fun _ => false) (fun n => n =? 2) (fun _ => false) (fun _ => []) (fun _ x => x).
Definition ce_state : qst := mkQS (fun n => negb (n =? 1)) (fun _ => true) (fun _ => true).
Theorem mode_lemma : exists (M : qmodel nat) s n, In n (qms M) /\ In (qroot M) (qms M) /\
  (forall leb (metric : nat -> nat -> nat) k, let '(_, _, s') := layer_analysis leb metric k M s in qtr s' n <> qtr s n) /\
  forall metric : nat -> nat -> nat, match graph_analysis metric M s with Some (_, s') => qtr s' n <> qtr s n | None => False end.
Proof. exists ce_model, ce_state, 1. split; [cbn; auto|]. split; [cbn; auto|]. split; intros; cbn; discriminate. Qed.
Theorem base_lemma : exists (M : qmodel nat) s n, In n (qms M) /\ (forall n, q_isfq M n = true -> q_isbase M n = true) /\
  (forall leb (metric : nat -> nat -> nat) k, let '(_, _, s') := layer_analysis leb metric k M s in qfq s' n <> qfq s n /\ qob s' n <> qob s n) /\
  forall metric : nat -> nat -> nat, match graph_analysis metric M s with Some (_, s') => qfq s' n <> qfq s n /\ qob s' n <> qob s n | None => False end.
Proof. exists ce_model, ce_state, 2. split; [cbn; auto|]. split; [discriminate|]. split; intros; cbn; split; discriminate. Qed.
