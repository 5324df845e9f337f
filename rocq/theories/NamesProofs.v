(** Proofs for [NamesModel]. *)
From Coq Require Import String Ascii List Arith Bool Lia.
From Verif Require Import NamesModel NamesSpec.
Import ListNotations.

(** * Paths *)
Definition tok (k : mkind) (n : str) : str :=
  match k with
  | MDict => lit "[""" ++ n ++ lit """]"
  | _ => if (match k with MSeq | MList => true | _ => false end) && isnumeric n then lit "[" ++ n ++ lit "]"
         else if has_char "." n || has_char "-" n then lit ".get_submodule(""" ++ n ++ lit """)" else lit "." ++ n
  end.
Definition toks (ts : list (mkind * str)) : str := flat_map (fun t => tok (fst t) (snd t)) ts.
Lemma path_tok k p n : p <> [] -> child_path k p n = p ++ tok k n.
Proof.
  intros P. assert (L : (0 <? List.length p) = true) by (destruct p; [congruence|reflexivity]). unfold child_path, tok. destruct k; try reflexivity; rewrite L; destruct (_ && isnumeric n); try reflexivity; destruct (_ || _); reflexivity.
Qed.
Fixpoint chain (c : md) (ts : list (mkind * str)) (m : md) : Prop :=
  match ts with [] => c = m | (k, n) :: ts => k = mk c /\ exists d, In (n, d) (mcs c) /\ chain d ts m end.
Lemma chain_snoc : forall ts c m n d, chain c ts m -> In (n, d) (mcs m) -> chain c (ts ++ [(mk m, n)]) d.
Proof.
  induction ts as [|[k a] ts IH]; intros c m n d H I; cbn [chain app] in *.
  - subst c. split; [reflexivity|]. exists d. auto.
  - destruct H as (H1 & e & H2 & H3). split; [exact H1|]. exists e. split; [exact H2|]. eapply IH; eauto.
Qed.
Lemma toks_app a b : toks (a ++ b) = toks a ++ toks b.
Proof. unfold toks. apply flat_map_app. Qed.
Definition head_ok (s : str) : Prop := s = [] \/ exists r, s = "."%char :: r \/ s = "["%char :: r.
Lemma toks_head ts : head_ok (toks ts).
Proof.
  destruct ts as [|[k n] ts]; [now left|]. right. unfold toks. cbn [flat_map fst snd]. unfold tok.
  destruct k; try (destruct (_ && isnumeric n); [eexists; right; reflexivity|]; destruct (_ || _); eexists; left; reflexivity); eexists; right; reflexivity.
Qed.

(** * Characters *)
Lemma clean_no n c : clean n -> In c (lit ".[]()""") -> ~ In c n.
Proof. intros (_ & H). apply H. Qed.
Lemma has_char_false c n : ~ In c n -> has_char c n = false.
Proof. intros H. unfold has_char. destruct (existsb (Ascii.eqb c) n) eqn:E; [|reflexivity]. apply existsb_exists in E. destruct E as (x & X & E). apply Ascii.eqb_eq in E. subst. tauto. Qed.
Lemma has_char_true c n : In c n -> has_char c n = true.
Proof. intros H. apply existsb_exists. exists c. split; [exact H|apply Ascii.eqb_refl]. Qed.
Lemma ident_no c n : ident n -> ident_char c = false -> ~ In c n.
Proof. destruct n as [|a n]; [intros []|]. intros (_ & H) E I. rewrite forallb_forall in H. rewrite (H c I) in E. discriminate. Qed.
Lemma span_all k : forall n s, forallb k n = true -> (match s with [] => True | c :: _ => k c = false end) -> span k (n ++ s) = (n, s).
Proof.
  induction n as [|a n IH]; intros s H E; cbn [app].
  - destruct s as [|c s]; [reflexivity|]. cbn [span]. now rewrite E.
  - cbn [forallb] in H. apply andb_prop in H. destruct H as (H1 & H2). cbn [span]. rewrite H1, IH by assumption. reflexivity.
Qed.
Lemma str_eqb_refl n : str_eqb n n = true.
Proof. unfold str_eqb. destruct (list_eq_dec ascii_dec n n); congruence. Qed.
Lemma str_eqb_neq a b : a <> b -> str_eqb a b = false.
Proof. unfold str_eqb. destruct (list_eq_dec ascii_dec a b); congruence. Qed.
Lemma find_named n c : forall cs, NoDup (map fst cs) -> In (n, c) cs -> find (fun p : str * md => str_eqb n (fst p)) cs = Some (n, c).
Proof.
  induction cs as [|[a d] cs IH]; intros N I; [destruct I|]. cbn [map fst] in N. inversion N as [|? ? N1 N2]; subst. cbn [find fst]. destruct I as [E|I].
  - injection E as -> ->. now rewrite str_eqb_refl.
  - rewrite str_eqb_neq; [now apply IH|]. intros ->. apply N1. apply in_map_iff. exists (a, c). auto.
Qed.
Lemma the_child_in m n c : NoDup (map fst (mcs m)) -> In (n, c) (mcs m) -> the_child n m = Some c.
Proof. intros N I. unfold the_child. now rewrite (find_named n c). Qed.
Lemma child_named_in n c : forall cs, NoDup (map fst cs) -> In (n, c) cs -> child_named n cs = Some c.
Proof.
  induction cs as [|[a d] cs IH]; intros N I; [destruct I|]. cbn [map fst] in N. inversion N as [|? ? N1 N2]; subst. cbn [child_named]. destruct I as [E|I].
  - injection E as -> ->. now rewrite str_eqb_refl.
  - rewrite str_eqb_neq; [now apply IH|]. intros ->. apply N1. apply in_map_iff. exists (a, c). auto.
Qed.
Lemma int_number n : int_of n = number n.
Proof.
  assert (F : forall s a, fold_left (fun a c => 10 * a + digit c) s a = a * 10 ^ List.length s + dec_value s).
  { induction s as [|c s IH]; intros a; cbn [fold_left List.length dec_value Nat.pow]; [lia|]. rewrite IH. unfold digit. change (nat_of_ascii "0") with 48. lia. }
  unfold int_of, number. rewrite F. reflexivity.
Qed.
Lemma int_numeric n i : number n = Some i -> isnumeric n = true.
Proof. unfold number. destruct (isnumeric n); [reflexivity|discriminate]. Qed.
Lemma numeric_digits n : isnumeric n = true -> forallb is_digit n = true.
Proof. destruct n; [discriminate|]. auto. Qed.
Lemma ident_not_numeric n : ident n -> isnumeric n = false.
Proof. destruct n as [|c n]; [intros []|]. intros (H & _). cbn. now rewrite H. Qed.

(** * Python's view *)
Lemma py_dot f c n d s : ident n -> head_ok s -> the_child n c = Some d -> py_eval (S f) c ("."%char :: n ++ s) = py_eval f d s.
Proof.
  intros I H T. cbn [py_eval]. destruct n as [|a n]; [destruct I|]. destruct I as (I1 & I2). rewrite (span_all ident_char (a :: n) s I2).
  - rewrite I1, T. destruct H as [->|(r & [-> | ->])]; reflexivity.
  - destruct H as [->|(r & [-> | ->])]; [exact Logic.I|reflexivity|reflexivity].
Qed.
Lemma py_call f c n d s : clean n -> the_child n c = Some d -> py_eval (S f) c (lit ".get_submodule(""" ++ n ++ lit """)" ++ s) = py_eval f d s.
Proof.
  intros I T. assert (F : forallb (fun c => negb (Ascii.eqb c """")) n = true).
  { apply forallb_forall. intros x X. apply negb_true_iff. destruct (Ascii.eqb_spec x """") as [->|]; [|reflexivity]. exfalso. apply (clean_no n """"%char I); [cbn; tauto|exact X]. }
  change (lit ".get_submodule(""" ++ n ++ lit """)" ++ s) with ("."%char :: (lit "get_submodule" ++ ("("%char :: """"%char :: n ++ """"%char :: ")"%char :: s))).
  assert (E : span ident_char (lit "get_submodule" ++ "("%char :: """"%char :: n ++ """"%char :: ")"%char :: s) = (lit "get_submodule", "("%char :: """"%char :: n ++ """"%char :: ")"%char :: s)) by (apply span_all; reflexivity).
  remember (lit "get_submodule" ++ "("%char :: """"%char :: n ++ """"%char :: ")"%char :: s) as w eqn:W. cbn [py_eval]. rewrite E.
  change (lit "get_submodule") with ("g"%char :: lit "et_submodule") at 1. cbv iota. change (is_digit "g") with false. cbv iota.
  rewrite str_eqb_refl. rewrite (span_all _ n (""""%char :: ")"%char :: s) F) by reflexivity.
  rewrite has_char_false by (apply (clean_no n); [exact I|cbn; tauto]). now rewrite T.
Qed.
Lemma py_key f c n d s : clean n -> mk c = MDict -> the_child n c = Some d -> py_eval (S f) c (lit "[""" ++ n ++ lit """]" ++ s) = py_eval f d s.
Proof.
  intros I K T. assert (F : forallb (fun c => negb (Ascii.eqb c """")) n = true).
  { apply forallb_forall. intros x X. apply negb_true_iff. destruct (Ascii.eqb_spec x """") as [->|]; [|reflexivity]. exfalso. apply (clean_no n """"%char I); [cbn; tauto|exact X]. }
  change (lit "[""" ++ n ++ lit """]" ++ s) with ("["%char :: """"%char :: n ++ (""""%char :: "]"%char :: s)). cbn [py_eval].
  rewrite (span_all _ n (""""%char :: "]"%char :: s) F) by reflexivity. now rewrite K, T.
Qed.
Lemma digit_not_quote c : is_digit c = true -> c <> """"%char.
Proof. intros H ->. discriminate H. Qed.
Lemma py_idx f c n i d a s : mk c = MSeq \/ mk c = MList -> number n = Some i -> nth_error (mcs c) i = Some (a, d) -> py_eval (S f) c (lit "[" ++ n ++ lit "]" ++ s) = py_eval f d s.
Proof.
  intros K I T. pose proof (numeric_digits n (int_numeric n i I)) as D. change (lit "[" ++ n ++ lit "]" ++ s) with ("["%char :: (n ++ ("]"%char :: s))).
  assert (P : span is_digit (n ++ "]"%char :: s) = (n, "]"%char :: s)) by (apply span_all; [exact D|reflexivity]).
  assert (Q : exists b w, n ++ "]"%char :: s = b :: w /\ b <> """"%char).
  { destruct n as [|b n]; [discriminate I|]. exists b, (n ++ "]"%char :: s). split; [reflexivity|]. cbn [forallb] in D. apply andb_prop in D. apply digit_not_quote, D. }
  destruct Q as (b & w & Q1 & Q2). rewrite Q1 in *. cbn [py_eval].
  assert (E : forall {A} (x : str -> A) (y : A), match b :: w with """"%char :: r => x r | _ => y end = y).
  { intros A x y. destruct b as [b0 b1 b2 b3 b4 b5 b6 b7]. destruct b0, b1, b2, b3, b4, b5, b6, b7; try reflexivity. elim Q2. reflexivity. }
  rewrite P. destruct b as [b0 b1 b2 b3 b4 b5 b6 b7]. destruct K as [K|K]; rewrite K, I, T; cbn [snd];
  destruct b0, b1, b2, b3, b4, b5, b6, b7; try reflexivity; elim Q2; reflexivity.
Qed.
Section Root.
Variable root : md.
Hypothesis OK : forall m, below root m -> kids_ok m.
Lemma py_chain : forall ts c m f, below root c -> chain c ts m -> List.length (toks ts) < f -> py_eval f c (toks ts) = Some m.
Proof.
  induction ts as [|[k n] ts IH]; intros c m f B H L.
  - destruct f; [inversion L|]. cbn in *. now subst.
  - destruct H as (-> & d & I & H). assert (B' : below root d) by (eapply below_child; eauto). destruct (OK c B) as (ND & KO).
    destruct (In_nth_error _ _ I) as (i & NE). destruct (KO i n d NE) as (CL & KK). pose proof (the_child_in c n d ND I) as TC. pose proof (toks_head ts) as HO.
    change (toks ((mk c, n) :: ts)) with (tok (mk c) n ++ toks ts) in *. rewrite app_length in L.
    assert (T0 : 0 < List.length (tok (mk c) n)) by (unfold tok; destruct (mk c); repeat (destruct (_ && _) || destruct (_ || _)); cbn; lia).
    destruct f as [|f]; [lia|]. assert (IH' : py_eval f d (toks ts) = Some m) by (apply IH; auto; lia).
    assert (DOT : ident n -> py_eval (S f) c ((if has_char "." n || has_char "-" n then lit ".get_submodule(""" ++ n ++ lit """)" else lit "." ++ n) ++ toks ts) = Some m).
    { intros ID. rewrite (has_char_false "."), (has_char_false "-") by (apply ident_no; [exact ID|reflexivity]). cbn [orb]. change ((lit "." ++ n) ++ toks ts) with ("."%char :: n ++ toks ts). rewrite (py_dot f c n d); auto. }
    assert (DSH : In "-"%char n -> py_eval (S f) c ((if has_char "." n || has_char "-" n then lit ".get_submodule(""" ++ n ++ lit """)" else lit "." ++ n) ++ toks ts) = Some m).
    { intros ID. rewrite (has_char_true "-"), orb_true_r by exact ID. rewrite <- !app_assoc. rewrite (py_call f c n d); auto. }
    unfold tok. destruct (mk c) eqn:K.
    + cbn [andb]. destruct KK; auto.
    + cbn [andb]. destruct KK as [E|(E & [Q|Q])].
      * rewrite (int_numeric n i E). rewrite <- !app_assoc. rewrite (py_idx f c n i d n); auto.
      * rewrite E. auto.
      * rewrite E. auto.
    + cbn [andb]. rewrite (int_numeric n i KK). rewrite <- !app_assoc. rewrite (py_idx f c n i d n); auto.
    + rewrite <- !app_assoc. rewrite (py_key f c n d); auto.
Qed.
End Root.

(** * The regular expressions *)
Lemma strip_app pat s : strip pat (pat ++ s) = Some s.
Proof. induction pat as [|a pat IH]; cbn; [now destruct s|]. now rewrite Ascii.eqb_refl. Qed.
Lemma strip_inv : forall pat w s r, strip pat (w ++ s) = Some r -> (exists w2, w = pat ++ w2) \/ (exists c p2 s', pat = w ++ c :: p2 /\ s = c :: s').
Proof.
  induction pat as [|a pat IH]; intros w s r H; [left; now exists w|]. destruct w as [|b w]; cbn [app strip] in H.
  - right. destruct s as [|b s]; [discriminate|]. destruct (Ascii.eqb_spec a b) as [->|]; [|discriminate]. exists b, pat, s. auto.
  - destruct (Ascii.eqb_spec a b) as [->|]; [|discriminate]. destruct (IH w s r H) as [(w2 & ->)|(c & p2 & s' & -> & ->)]; [left; now exists w2|right; now exists c, p2, s'].
Qed.
Definition gs := lit "get_submodule(""".
Lemma strip_gs w s : ~ In "("%char w -> head_ok s -> strip gs (w ++ s) = None.
Proof.
  intros N H. destruct (strip gs (w ++ s)) as [r|] eqn:E; [|reflexivity]. exfalso. apply strip_inv in E. destruct E as [(w2 & ->)|(c & p2 & s' & E1 & E2)].
  - apply N. apply in_app_iff. left. cbn. tauto.
  - assert (I : In c gs) by (rewrite E1; apply in_app_iff; right; now left). destruct H as [->|(r' & [-> | ->])]; [discriminate| |]; injection E2 as <- <-; cbn in I; repeat (destruct I as [I|I]; [discriminate I|]); destruct I.
Qed.
Lemma call_copy : forall w s f, ~ In "("%char w -> head_ok s -> List.length w <= f -> sub_call f (w ++ s) = w ++ sub_call (f - List.length w) s.
Proof.
  induction w as [|a w IH]; intros s f N H L; [cbn; now rewrite Nat.sub_0_r|]. destruct f as [|f]; [cbn in L; lia|]. cbn [app sub_call List.length Nat.sub].
  change (a :: w ++ s) with ((a :: w) ++ s). fold gs. rewrite (strip_gs (a :: w) s N H). f_equal. apply IH; [intros Q; apply N; now right|exact H|cbn in L; lia].
Qed.
Lemma until_first pat a b : pat = a :: b -> forall n s, ~ In a n -> until pat (n ++ pat ++ s) = Some (n, s).
Proof.
  intros P. induction n as [|c n IH]; intros s N.
  - cbn [app]. pose proof (strip_app pat s) as E. destruct (pat ++ s) eqn:Q; [subst pat; discriminate|]. cbn [until]. now rewrite E.
  - cbn [app until]. assert (E : strip pat (c :: n ++ pat ++ s) = None).
    { subst pat. cbn [strip]. destruct (Ascii.eqb_spec a c) as [->|]; [|reflexivity]. elim N. now left. }
    rewrite E, IH; [reflexivity|]. intros Q. apply N. now right.
Qed.
(** the tokens after the first substitution *)
Definition tok1 (k : mkind) (n : str) : str :=
  match k with
  | MDict => lit "[""" ++ n ++ lit """]"
  | _ => if (match k with MSeq | MList => true | _ => false end) && isnumeric n then lit "[" ++ n ++ lit "]" else lit "." ++ n
  end.
Lemma call_tok k n s f : clean n -> head_ok s -> List.length (tok k n ++ s) <= f ->
  exists f', List.length s <= f' /\ sub_call f (tok k n ++ s) = tok1 k n ++ sub_call f' s.
Proof.
  intros C H L. rewrite app_length in L. assert (NP : ~ In "("%char n) by (apply (clean_no n); [exact C|cbn; tauto]).
  assert (CP : forall w, tok k n = w -> tok1 k n = w -> ~ In "("%char w -> exists f', List.length s <= f' /\ sub_call f (tok k n ++ s) = tok1 k n ++ sub_call f' s).
  { intros w E1 E2 N. exists (f - List.length w). rewrite E1, E2 in *. split; [lia|]. apply call_copy; auto. lia. }
  assert (BR : ~ In "("%char (lit "[" ++ n ++ lit "]")) by (intros Q; apply in_app_iff in Q; destruct Q as [Q|Q]; [cbn in Q; intuition discriminate|]; apply in_app_iff in Q; destruct Q as [Q|Q]; [tauto|cbn in Q; intuition discriminate]).
  assert (BQ : ~ In "("%char (lit "[""" ++ n ++ lit """]")) by (intros Q; apply in_app_iff in Q; destruct Q as [Q|Q]; [cbn in Q; intuition discriminate|]; apply in_app_iff in Q; destruct Q as [Q|Q]; [tauto|cbn in Q; intuition discriminate]).
  assert (BD : ~ In "("%char (lit "." ++ n)) by (intros Q; apply in_app_iff in Q; destruct Q as [Q|Q]; [cbn in Q; intuition discriminate|tauto]).
  assert (CALL : forall w, tok k n = lit ".get_submodule(""" ++ n ++ lit """)" -> tok1 k n = lit "." ++ n -> w = s -> exists f', List.length s <= f' /\ sub_call f (tok k n ++ s) = tok1 k n ++ sub_call f' s).
  { intros w E1 E2 _. rewrite E1, E2 in *. rewrite <- !app_assoc. rewrite !app_length in L. change (List.length (lit ".get_submodule(""")) with 16 in L. change (List.length (lit """)")) with 2 in L.
    destruct f as [|[|f]]; [lia|lia|]. exists f. split; [lia|]. change (lit ".get_submodule(""" ++ n ++ lit """)" ++ s) with ("."%char :: gs ++ n ++ lit """)" ++ s).
    assert (S1 : sub_call (S (S f)) ("."%char :: gs ++ n ++ lit """)" ++ s) = "."%char :: sub_call (S f) (gs ++ n ++ lit """)" ++ s)) by reflexivity. rewrite S1.
    assert (S2 : sub_call (S f) (gs ++ n ++ lit """)" ++ s) = n ++ sub_call f s).
    { change (gs ++ n ++ lit """)" ++ s) with ("g"%char :: (lit "et_submodule(""" ++ n ++ lit """)" ++ s)). cbn [sub_call].
      change ("g"%char :: (lit "et_submodule(""" ++ n ++ lit """)" ++ s)) with (gs ++ (n ++ lit """)" ++ s)). fold gs. rewrite strip_app.
      rewrite (until_first (lit """)") """"%char [")"%char] eq_refl); [reflexivity|]. apply (clean_no n); [exact C|cbn; tauto]. }
    rewrite S2. reflexivity. }
  unfold tok, tok1 in *. destruct k; cbn [andb] in *.
  - destruct (has_char "." n || has_char "-" n); eauto.
  - destruct (isnumeric n); [eauto|]. destruct (has_char "." n || has_char "-" n); eauto.
  - destruct (isnumeric n); [eauto|]. destruct (has_char "." n || has_char "-" n); eauto.
  - eauto.
Qed.
Definition toks1 (ts : list (mkind * str)) : str := flat_map (fun t => tok1 (fst t) (snd t)) ts.
Lemma call_toks : forall ts f, (forall t, In t ts -> clean (snd t)) -> List.length (toks ts) <= f -> sub_call f (toks ts) = toks1 ts.
Proof.
  induction ts as [|[k n] ts IH]; intros f C L; [destruct f; reflexivity|]. change (toks ((k, n) :: ts)) with (tok k n ++ toks ts) in *.
  destruct (call_tok k n (toks ts) f (C (k, n) (or_introl eq_refl)) (toks_head ts) L) as (f' & L' & E). rewrite E, IH; [reflexivity| |exact L'].
  intros t T. apply C. now right.
Qed.
Lemma index_copy : forall w s f, ~ In "["%char w -> List.length w <= f -> sub_index f (w ++ s) = w ++ sub_index (f - List.length w) s.
Proof.
  induction w as [|a w IH]; intros s f N L; [cbn; now rewrite Nat.sub_0_r|]. destruct f as [|f]; [cbn in L; lia|]. cbn [app sub_index List.length Nat.sub].
  destruct (Ascii.eqb_spec a "[") as [->|]; [elim N; now left|]. f_equal. apply IH; [intros Q; apply N; now right|cbn in L; lia].
Qed.
Lemma until_br_plain : forall n s e, ~ In "]"%char n -> ~ In """"%char n -> e = lit "]" \/ e = lit """]" -> until_br (n ++ e ++ s) = Some (n, s).
Proof.
  induction n as [|c n IH]; intros s e N1 N2 E.
  - destruct E as [-> | ->]; reflexivity.
  - cbn [app until_br]. destruct (Ascii.eqb_spec c "]") as [->|]; [elim N1; now left|].
    assert (Q : strip (lit """]") (c :: n ++ e ++ s) = None).
    { cbn [lit list_ascii_of_string strip]. destruct (Ascii.eqb_spec """" c) as [<-|]; [elim N2; now left|reflexivity]. }
    rewrite Q, IH; [reflexivity| | |exact E]; intros Z; [apply N1|apply N2]; now right.
Qed.
Lemma index_tok k n s f : clean n -> List.length (tok1 k n ++ s) <= f -> exists f', List.length s <= f' /\ sub_index f (tok1 k n ++ s) = "."%char :: n ++ sub_index f' s.
Proof.
  intros C L. rewrite app_length in L. assert (N1 : ~ In "]"%char n) by (apply (clean_no n); [exact C|cbn; tauto]). assert (N2 : ~ In """"%char n) by (apply (clean_no n); [exact C|cbn; tauto]).
  assert (N3 : ~ In "["%char n) by (apply (clean_no n); [exact C|cbn; tauto]).
  assert (DOT : tok1 k n = lit "." ++ n -> exists f', List.length s <= f' /\ sub_index f (tok1 k n ++ s) = "."%char :: n ++ sub_index f' s).
  { intros E. rewrite E in *. exists (f - List.length (lit "." ++ n)). split; [lia|]. rewrite index_copy; [reflexivity| |lia]. intros Q. apply in_app_iff in Q. destruct Q as [Q|Q]; [cbn in Q; intuition discriminate|tauto]. }
  assert (IDX : tok1 k n = lit "[" ++ n ++ lit "]" -> exists f', List.length s <= f' /\ sub_index f (tok1 k n ++ s) = "."%char :: n ++ sub_index f' s).
  { intros E. rewrite E in *. rewrite <- !app_assoc. rewrite !app_length in L. cbn [lit list_ascii_of_string List.length] in L. destruct f as [|f]; [lia|]. exists f. split; [lia|].
    change (lit "[" ++ n ++ lit "]" ++ s) with ("["%char :: (n ++ lit "]" ++ s)). cbn [sub_index]. change (Ascii.eqb "[" "[") with true. cbv iota.
    assert (Q : strip (lit """") (n ++ lit "]" ++ s) = None).
    { destruct n as [|c n]; [destruct C as (C & _); congruence|]. cbn [app lit list_ascii_of_string strip]. destruct (Ascii.eqb_spec """" c) as [<-|]; [elim N2; now left|reflexivity]. }
    rewrite Q, until_br_plain; auto. }
  assert (KEY : tok1 k n = lit "[""" ++ n ++ lit """]" -> exists f', List.length s <= f' /\ sub_index f (tok1 k n ++ s) = "."%char :: n ++ sub_index f' s).
  { intros E. rewrite E in *. rewrite <- !app_assoc. rewrite !app_length in L. cbn [lit list_ascii_of_string List.length] in L. destruct f as [|f]; [lia|]. exists f. split; [lia|].
    change (lit "[""" ++ n ++ lit """]" ++ s) with ("["%char :: (lit """" ++ n ++ lit """]" ++ s)). cbn [sub_index]. change (Ascii.eqb "[" "[") with true. cbv iota.
    rewrite strip_app, until_br_plain; auto. }
  unfold tok1 in *. destruct k; cbn [andb] in *; auto; destruct (isnumeric n); auto.
Qed.
Definition dots (ns : list str) : str := flat_map (fun n => "."%char :: n) ns.
Lemma index_toks : forall ts f, (forall t, In t ts -> clean (snd t)) -> List.length (toks1 ts) <= f -> sub_index f (toks1 ts) = dots (map snd ts).
Proof.
  induction ts as [|[k n] ts IH]; intros f C L; [destruct f; reflexivity|]. change (toks1 ((k, n) :: ts)) with (tok1 k n ++ toks1 ts) in *.
  destruct (index_tok k n (toks1 ts) f (C (k, n) (or_introl eq_refl)) L) as (f' & L' & E). rewrite E, IH; [reflexivity| |exact L'].
  intros t T. apply C. now right.
Qed.
Lemma split_first : forall n ns, ~ In "."%char n -> split_dot (n ++ dots ns) = n :: match ns with [] => [] | m :: ms => split_dot (m ++ dots ms) end.
Proof.
  induction n as [|c n IH]; intros ns N.
  - destruct ns as [|m ms]; reflexivity.
  - cbn [app split_dot]. destruct (Ascii.eqb_spec c ".") as [->|]; [elim N; now left|]. rewrite IH; [reflexivity|]. intros Q. apply N. now right.
Qed.
Lemma split_dots : forall ns n, ~ In "."%char n -> (forall m, In m ns -> ~ In "."%char m) -> split_dot (n ++ dots ns) = n :: ns.
Proof.
  induction ns as [|m ms IH]; intros n N H; rewrite split_first by exact N; [reflexivity|]. rewrite IH; [reflexivity| |]; auto using in_eq. intros x X. apply H. now right.
Qed.

(** * Looking up a path *)
Section Root2.
Variable root : md.
Hypothesis OK : forall m, below root m -> kids_ok m.
Hypothesis RO : root_ok root.
Lemma get_child_in c n d : below root c -> In (n, d) (mcs c) -> get_child c n = Some d.
Proof.
  intros B I. destruct (OK c B) as (ND & KO). unfold get_child. destruct (mk c) eqn:K; try (now apply child_named_in).
  destruct (In_nth_error _ _ I) as (i & NE). destruct (KO i n d NE) as (_ & KK). try rewrite K in KK. rewrite int_number; now rewrite KK, NE.
Qed.
Lemma walk_chain : forall ts c l m, below root c -> chain c ts m -> exists par, walk c l (map snd ts) = Some (m, par) /\ (ts = [] -> par = l) /\ (ts <> [] -> exists n, below root par /\ In (n, m) (mcs par)).
Proof.
  induction ts as [|[k n] ts IH]; intros c l m B H; cbn [chain map snd walk] in *.
  - subst. exists l. split; [reflexivity|]. split; [auto|congruence].
  - destruct H as (-> & d & I & H). rewrite (get_child_in c n d B I). destruct (IH d c m (below_child root c n d B I) H) as (par & W & P1 & P2). exists par.
    split; [exact W|]. split; [congruence|]. intros _. destruct ts as [|t ts]; [|apply P2; congruence]. rewrite (P1 eq_refl). cbn [chain] in H. subst d. eauto.
Qed.
Lemma chain_clean : forall ts c m, below root c -> chain c ts m -> forall t, In t ts -> clean (snd t).
Proof.
  induction ts as [|[k n] ts IH]; intros c m B H t T; [destruct T|]. destruct H as (-> & d & I & H). destruct T as [<-|T].
  - destruct (OK c B) as (_ & KO). destruct (In_nth_error _ _ I) as (i & NE). apply (KO i n d NE).
  - eapply (IH d m); eauto. eapply below_child; eauto.
Qed.
Lemma chain_below : forall ts c m, below root c -> chain c ts m -> below root m.
Proof. induction ts as [|[k n] ts IH]; intros c m B H; [now cbn in H; subst|]. destruct H as (-> & d & I & H). eapply IH; [|exact H]. eapply below_child; eauto. Qed.
(** a path is good for a module *)
Definition path_of (p : str) (m : md) : Prop := exists n c ts, In (n, c) (mcs root) /\ chain c ts m /\ p = n ++ toks ts.
Lemma path_below p m : path_of p m -> below root m.
Proof. intros (n & c & ts & I & C & _). eapply chain_below; [|exact C]. eapply below_child; eauto using below_root. Qed.
Lemma path_ne p m : path_of p m -> p <> [].
Proof. intros (n & c & ts & I & C & ->). destruct RO as (_ & R). specialize (R n c I). destruct n; [destruct R|]. discriminate. Qed.
Lemma path_next p m n c : path_of p m -> In (n, c) (mcs m) -> path_of (child_path (mk m) p n) c.
Proof.
  intros P I. rewrite path_tok by (eapply path_ne; eauto). destruct P as (a & x & ts & H1 & H2 & ->). exists a, x, (ts ++ [(mk m, n)]).
  split; [exact H1|]. split; [eapply chain_snoc; eauto|]. rewrite toks_app, app_assoc. f_equal. unfold toks. cbn. now rewrite app_nil_r.
Qed.
Lemma path_first n c : In (n, c) (mcs root) -> child_path (mk root) [] n = n /\ path_of n c.
Proof.
  intros I. destruct RO as (K & R). specialize (R n c I). split.
  - unfold child_path. destruct (mk root); [| | |congruence]; rewrite (ident_not_numeric n R), ?andb_false_r; reflexivity.
  - exists n, c, []. split; [exact I|]. split; [reflexivity|]. cbn. now rewrite app_nil_r.
Qed.
Lemma path_py p m : path_of p m -> py_self root p = Some m.
Proof.
  intros (n & c & ts & I & C & ->). destruct RO as (_ & R). specialize (R n c I). unfold py_self. destruct (OK root (below_root root)) as (ND & _).
  rewrite (py_dot _ root n c); [|exact R|apply toks_head|now apply the_child_in]. apply (py_chain root OK); [eapply below_child; eauto using below_root|exact C|rewrite app_length; lia].
Qed.
Lemma path_get p m : path_of p m -> exists par n, get_submodule root p true = Some (m, par) /\ below root par /\ In (n, m) (mcs par).
Proof.
  intros (n & c & ts & I & C & ->). assert (B : below root c) by (eapply below_child; eauto using below_root). pose proof (chain_clean ts c m B C) as CL.
  destruct (OK root (below_root root)) as (_ & KO). destruct (In_nth_error _ _ I) as (i & NE). destruct (KO i n c NE) as (CN & _).
  unfold get_submodule. rewrite call_copy; [|apply (clean_no n); [exact CN|cbn; tauto]|apply toks_head|rewrite app_length; lia].
  rewrite call_toks; [|exact CL|rewrite app_length; lia]. rewrite index_copy; [|apply (clean_no n); [exact CN|cbn; tauto]|rewrite app_length; lia].
  rewrite index_toks; [|exact CL|rewrite app_length; lia]. rewrite split_dots.
  - cbn [walk]. rewrite (get_child_in root n c (below_root root) I). destruct (walk_chain ts c root m B C) as (par & W & P1 & P2). exists par. rewrite W. destruct ts as [|t ts].
    + cbn in C. subst c. exists n. rewrite (P1 eq_refl). auto using below_root.
    + destruct P2 as (a & A1 & A2); [congruence|]. eauto.
  - apply (clean_no n); [exact CN|cbn; tauto].
  - intros x X. apply in_map_iff in X. destruct X as (t & <- & T). apply (clean_no (snd t)); [exact (CL t T)|cbn; tauto].
Qed.

(** * The loop *)
Lemma uniq_sub : forall cs seen x, In x (uniq seen cs) -> In x cs.
Proof. induction cs as [|c cs IH]; intros seen x H; cbn [uniq] in H; [destruct H|]. destruct (existsb _ seen); [right; eauto|]. destruct H as [->|H]; [now left|right; eauto]. Qed.
Lemma uniq_cover : forall cs seen n c, In (n, c) cs -> In (mid c) seen \/ exists x, In x (uniq seen cs) /\ mid (snd x) = mid c.
Proof.
  induction cs as [|[a d] cs IH]; intros seen n c H; [destruct H|]. cbn [uniq snd]. destruct (existsb (Nat.eqb (mid d)) seen) eqn:E.
  - destruct H as [H|H]; [|eauto]. injection H as -> ->. left. apply existsb_exists in E. destruct E as (y & Y & E). apply Nat.eqb_eq in E. now rewrite E.
  - destruct H as [H|H].
    + injection H as -> ->. right. exists (n, c). split; [now left|reflexivity].
    + destruct (IH (mid d :: seen) n c H) as [[Q|Q]|(x & X & E')]; [right; exists (a, d); split; [now left|exact Q]|now left|right; exists x; split; [now right|exact E']].
Qed.
Definition sizes (l : list (str * md)) : nat := list_sum (map (fun c => msize (snd c)) l).
Lemma msize_eq m : msize m = S (sizes (mcs m)).
Proof. destruct m as [i k cs]. cbn [msize mcs]. f_equal. unfold sizes. induction cs as [|c cs IH]; [reflexivity|]. cbn [map list_sum fold_right]. unfold list_sum in IH. now rewrite IH. Qed.
Lemma uniq_sizes : forall cs seen, sizes (uniq seen cs) <= sizes cs.
Proof. induction cs as [|c cs IH]; intros seen; [constructor|]. cbn [uniq]. destruct (existsb _ seen); unfold sizes in *; cbn [map list_sum fold_right]; [specialize (IH seen)|specialize (IH (mid (snd c) :: seen))]; unfold list_sum in *; lia. Qed.
Definition qsizes (q : list (md * str)) : nat := list_sum (map (fun c => msize (fst c)) q).
Definition good (m : md) (p : str) : Prop := (m = root /\ p = []) \/ path_of p m.
Lemma good_below m p : good m p -> below root m.
Proof. intros [(-> & _)|P]; [constructor|now apply path_below in P]. Qed.
Lemma good_kids m p c : good m p -> In c (kids m) -> good (snd c) (child_path (mk m) p (fst c)).
Proof.
  intros G I. apply uniq_sub in I. destruct c as [n c]. cbn [fst snd]. right. destruct G as [(-> & ->)|P].
  - destruct (path_first n c I) as (-> & P). exact P.
  - now apply path_next.
Qed.
Lemma loop_ok : ids_ok root -> forall f q d, qsizes q <= f -> (forall m p, In (m, p) q -> good m p) -> (forall i p, In (i, p) d -> exists m, mid m = i /\ good m p) ->
  (forall m, below root m -> In (mid m) (map fst d) -> forall n c, In (n, c) (mcs m) -> In (mid c) (map fst d) \/ exists x p, In (x, p) q /\ mid x = mid c) ->
  exists d', tag_loop f q d = Some d' /\ (forall i p, In (i, p) d' -> exists m, mid m = i /\ good m p) /\
  (forall i, In i (map fst d) -> In i (map fst d')) /\ (forall m p, In (m, p) q -> In (mid m) (map fst d')) /\
  (forall m, below root m -> In (mid m) (map fst d') -> forall n c, In (n, c) (mcs m) -> In (mid c) (map fst d')).
Proof.
  intros IDS. induction f as [|f IH]; intros q d L Q D K.
  - destruct q as [|[m p] q].
    + exists d. cbn. split; [reflexivity|]. split; [exact D|]. split; [auto|]. split; [intros m p []|]. intros m B I n c C. destruct (K m B I n c C) as [R|(x & p & [] & _)]. exact R.
    + exfalso. unfold qsizes in L. cbn [map list_sum fold_right fst] in L. rewrite msize_eq in L. lia.
  - destruct q as [|[m p] q].
    + exists d. cbn. split; [reflexivity|]. split; [exact D|]. split; [auto|]. split; [intros m p []|]. intros m B I n c C. destruct (K m B I n c C) as [R|(x & p & [] & _)]. exact R.
    + cbn [tag_loop]. pose proof (Q m p (or_introl eq_refl)) as G.
      destruct (IH (q ++ map (fun c => (snd c, child_path (mk m) p (fst c))) (kids m)) ((mid m, p) :: d)) as (d' & E & D' & S' & Q' & K').
      * unfold qsizes in *. cbn [map list_sum fold_right fst] in L. rewrite map_app, list_sum_app, map_map. cbn [fst]. rewrite msize_eq in L. pose proof (uniq_sizes (mcs m) []) as U. unfold sizes in *. unfold kids. unfold list_sum in *. lia.
      * intros a b I. apply in_app_iff in I. destruct I as [I|I]; [apply Q; now right|]. apply in_map_iff in I. destruct I as (c & C & I). injection C as <- <-. now apply good_kids.
      * intros i b I. destruct I as [I|I]; [|now apply D]. injection I as <- <-. exists m. auto.
      * intros a B I n c C. cbn [map fst] in *.
        assert (CASE : a = m \/ In (mid a) (map fst d)) by (destruct I as [I|I]; [left; apply IDS; eauto using good_below|auto]).
        destruct CASE as [->|CASE].
        { destruct (uniq_cover (mcs m) [] n c C) as [[]|(x & X & XE)]. right. exists (snd x), (child_path (mk m) p (fst x)). split; [|exact XE]. apply in_app_iff. right. apply in_map_iff. exists x. auto. }
        { destruct (K a B CASE n c C) as [R|(x & b & [X|X] & XE)]; [left; now right|injection X as -> ->; left; now left|right; exists x, b; split; [apply in_app_iff; now left|exact XE]]. }
      * exists d'. split; [exact E|]. split; [exact D'|]. split; [intros i I; apply S'; now right|]. split; [|exact K'].
        intros a b [I|I]; [injection I as <- <-; apply S'; now left|]. apply (Q' a b). apply in_app_iff. now left.
Qed.
End Root2.
Lemma name_of_in d i : In i (map fst d) -> exists p, name_of d i = Some p /\ In (i, p) d.
Proof.
  induction d as [|[j p] d IH]; intros H; [destruct H|]. cbn [name_of]. destruct (Nat.eqb_spec i j) as [->|N]; [exists p; split; [reflexivity|now left]|].
  destruct H as [H|H]; [cbn in H; congruence|]. destruct (IH H) as (r & R & I). exists r. split; [exact R|now right].
Qed.
Lemma name_of_some d i p : name_of d i = Some p -> In (i, p) d.
Proof. induction d as [|[j r] d IH]; cbn [name_of]; [discriminate|]. destruct (Nat.eqb_spec i j) as [->|N]; intros H; [injection H as ->; now left|right; auto]. Qed.

Lemma names_partial : forall root, names_ok root -> ids_ok root ->
  exists d, original_names root = Some d /\
  (forall m, below root m -> exists p, name_of d (mid m) = Some p) /\
  (forall m p, below root m -> name_of d (mid m) = Some p -> p <> [] -> py_self root p = Some m /\ exists par n, get_submodule root p true = Some (m, par) /\ below root par /\ In (n, m) (mcs par)) /\
  (forall m, below root m -> name_of d (mid m) = Some [] -> m = root) /\
  (forall a b p, below root a -> below root b -> name_of d (mid a) = Some p -> name_of d (mid b) = Some p -> a = b).
Proof.
  intros root (RO & OK) IDS. destruct (loop_ok root RO IDS (msize root) [(root, [])] []) as (d & E & D & _ & Q & K).
  - unfold qsizes. cbn. lia.
  - intros m p [H|[]]. injection H as <- <-. now left.
  - intros i p [].
  - intros m B [].
  - exists d. split; [exact E|].
    assert (ALL : forall m, below root m -> In (mid m) (map fst d)).
    { intros m B. induction B as [|m n c B IH C]; [apply (Q root []); now left|]. eapply K; eauto. }
    assert (GOOD : forall m p, below root m -> name_of d (mid m) = Some p -> good root m p).
    { intros m p B N. apply name_of_some in N. destruct (D _ _ N) as (x & X & G). rewrite (IDS m x); auto. eapply good_below; eauto. }
    assert (EMP : forall m, below root m -> name_of d (mid m) = Some [] -> m = root).
    { intros m B N. destruct (GOOD m _ B N) as [(-> & _)|P]; [reflexivity|]. elim (path_ne root RO _ _ P). reflexivity. }
    split; [intros m B; destruct (name_of_in d (mid m) (ALL m B)) as (p & P & _); eauto|]. split.
    { intros m p B N NE. destruct (GOOD m p B N) as [(_ & ->)|P]; [congruence|]. split; [now apply path_py|now apply path_get]. }
    split; [exact EMP|]. intros a b p A B NA NB. destruct p as [|c p]; [rewrite (EMP a A NA), (EMP b B NB); reflexivity|].
    destruct (GOOD a _ A NA) as [(_ & Z)|PA]; [discriminate|]. destruct (GOOD b _ B NB) as [(_ & Z)|PB]; [discriminate|].
    pose proof (path_py root OK RO _ _ PA) as E1. pose proof (path_py root OK RO _ _ PB) as E2. congruence.
Qed.

(** * The unique name *)
Lemma replace_no a s : a <> "_"%char -> ~ In a (replace_char a s).
Proof. intros N I. apply in_map_iff in I. destruct I as (c & E & _). destruct (Ascii.eqb_spec c a); congruence. Qed.
Lemma replace_keep a b s : b <> "_"%char -> ~ In b s -> ~ In b (replace_char a s).
Proof. intros N H I. apply in_map_iff in I. destruct I as (c & E & C). destruct (Ascii.eqb_spec c a); subst; tauto. Qed.
Lemma unique_chars s : (forall c, In c (lit ".-/;") -> ~ In c (unique_name s)) /\ isnumeric (unique_name s) = false.
Proof.
  unfold unique_name. set (n := replace_char ";" _).
  assert (H : forall c, In c (lit ".-/;") -> ~ In c n).
  { intros c C. cbn in C. unfold n. destruct C as [<-|[<-|[<-|[<-|[]]]]]; repeat (first [apply replace_no; discriminate | apply replace_keep; [discriminate|]]). }
  destruct (isnumeric n) eqn:E; [|now split]. split; [|reflexivity].
  intros c C I. apply in_app_iff in I. destruct I as [I|I]; [|exact (H c C I)]. cbn in C, I. destruct C as [<-|[<-|[<-|[<-|[]]]]]; intuition discriminate.
Qed.
Lemma unique_same s : (forall c, In c (lit ".-/;") -> ~ In c s) -> isnumeric s = false -> unique_name s = s.
Proof.
  intros H N. assert (R : forall a t, ~ In a t -> replace_char a t = t).
  { intros a t. induction t as [|c t IH]; intros Q; [reflexivity|]. cbn. destruct (Ascii.eqb_spec c a) as [->|]; [elim Q; now left|]. f_equal. apply IH. intros Z. apply Q. now right. }
  unfold unique_name. rewrite (R "."%char s), (R "-"%char s), (R "/"%char s), (R ";"%char s) by (apply H; cbn; tauto). now rewrite N.
Qed.

(** * Witnesses *)
Definition leaf (i : nat) : md := Md i MPlain [].
(** a sequential as the traced module *)
Definition wit_seq : md := Md 0 MSeq [(lit "0", leaf 1)].
(** a dash in a name at the root *)
Definition wit_dash : md := Md 0 MPlain [(lit "a-b", leaf 1)].
(** a sequential whose numbers are no positions *)
Definition wit_order : md := Md 0 MPlain [(lit "x", Md 1 MSeq [(lit "1", leaf 2); (lit "0", leaf 3)])].
(** a_b and a.b *)
Definition wit_clash : md := Md 0 MPlain [(lit "a", Md 1 MPlain [(lit "b", leaf 2)]); (lit "a_b", leaf 3)].
Lemma names_root_refuted : exists root m d p, ids_ok root /\ (forall x, below root x -> kids_ok x) /\ below root m /\ original_names root = Some d /\ name_of d (mid m) = Some p /\ p <> [] /\
  py_self root p = None /\ get_submodule root p true = None.
Proof.
  exists wit_seq, (leaf 1), [(1, lit "[0]"); (0, [])], (lit "[0]").
  assert (B : forall x, below wit_seq x -> x = wit_seq \/ x = leaf 1).
  { intros x H. induction H as [|m n c H IH I]; [now left|]. destruct IH as [-> | ->]; [|destruct I]. destruct I as [I|[]]. injection I as <- <-. now right. }
  split; [|split; [|split; [|repeat split; try reflexivity; discriminate]]].
  - intros a b A C E. destruct (B a A) as [-> | ->], (B b C) as [-> | ->]; try reflexivity; discriminate.
  - intros x X. destruct (B x X) as [-> | ->].
    + split; [repeat constructor; intros []|]. intros [|[|i]] n c H; try discriminate. injection H as <- <-. split; [|left; reflexivity].
      split; [discriminate|]. intros c C [I|[]]. subst c. cbn in C. intuition discriminate.
    + split; [constructor|]. intros [|i] n c H; discriminate.
  - eapply below_child; [constructor|left; reflexivity].
Qed.
Lemma names_dash_refuted : exists root m d p, below root m /\ original_names root = Some d /\ name_of d (mid m) = Some p /\ py_self root p = None /\ get_submodule root p true = Some (m, root).
Proof.
  exists wit_dash, (leaf 1), [(1, lit "a-b"); (0, [])], (lit "a-b"). split; [eapply below_child; [constructor|left; reflexivity]|]. repeat split; reflexivity.
Qed.
Lemma names_order_refuted : exists root m m' par d p, below root m /\ original_names root = Some d /\ name_of d (mid m) = Some p /\ py_self root p = Some m' /\ m' <> m /\ get_submodule root p true = Some (m, par).
Proof.
  exists wit_order, (leaf 2), (leaf 3), (Md 1 MSeq [(lit "1", leaf 2); (lit "0", leaf 3)]), [(3, lit "x[0]"); (2, lit "x[1]"); (1, lit "x"); (0, [])], (lit "x[1]").
  split; [|repeat split; try reflexivity; discriminate].
  eapply below_child; [eapply below_child; [constructor|left; reflexivity]|left; reflexivity].
Qed.
Lemma names_unique_refuted : exists root p q a b, ids_ok root /\ names_ok root /\ dotted root p a /\ dotted root q b /\ a <> b /\ unique_name p = unique_name q.
Proof.
  exists wit_clash, (lit "a.b"), (lit "a_b"), (leaf 2), (leaf 3).
  assert (B : forall x, below wit_clash x -> x = wit_clash \/ x = Md 1 MPlain [(lit "b", leaf 2)] \/ x = leaf 2 \/ x = leaf 3).
  { intros x H. induction H as [|m n c H IH I]; [now left|]. destruct IH as [-> | [-> | [-> | ->]]]; try (destruct I; fail).
    - destruct I as [I|[I|[]]]; injection I as <- <-; tauto.
    - destruct I as [I|[]]; injection I as <- <-; tauto. }
  assert (ID : forall n, n = lit "a" \/ n = lit "b" \/ n = lit "a_b" -> ident n /\ clean n).
  { intros n [-> |[-> | ->]]; (split; [split; reflexivity|]); (split; [discriminate|]); intros c C I; cbn in C, I; intuition (subst; discriminate). }
  split; [|split; [|split; [|split; [|split; [discriminate|reflexivity]]]]].
  - intros a b A C E. destruct (B a A) as [-> | [-> | [-> | ->]]], (B b C) as [-> | [-> | [-> | ->]]]; try reflexivity; discriminate.
  - split.
    + split; [discriminate|]. intros n c [I|[I|[]]]; injection I as <- <-; apply ID; tauto.
    + intros x X. destruct (B x X) as [-> | [-> | [-> | ->]]]; (split; [repeat constructor; cbn; intuition discriminate|]); intros i n c H.
      * destruct i as [|[|[|i]]]; try discriminate; injection H as <- <-; (split; [apply ID; tauto|left; apply ID; tauto]).
      * destruct i as [|[|i]]; try discriminate; injection H as <- <-; (split; [apply ID; tauto|left; apply ID; tauto]).
      * destruct i; discriminate.
      * destruct i; discriminate.
  - change (lit "a.b") with (lit "a" ++ "."%char :: lit "b"). eapply dotted_next; [eapply dotted_first; left; reflexivity|left; reflexivity].
  - eapply dotted_first. right. left. reflexivity.
Qed.
(** a model with every kind of container *)
Definition wit_net : md := Md 0 MPlain [(lit "net", Md 1 MSeq [(lit "0", leaf 2); (lit "1", Md 3 MDict [(lit "k", leaf 4)])]); (lit "blk", Md 5 MPlain [(lit "c-d", Md 6 MList [(lit "0", leaf 7)]); (lit "w", leaf 2)])].
Lemma wit_net_ok : names_ok wit_net /\ ids_ok wit_net.
Proof.
  set (net := Md 1 MSeq [(lit "0", leaf 2); (lit "1", Md 3 MDict [(lit "k", leaf 4)])]). set (dic := Md 3 MDict [(lit "k", leaf 4)]).
  set (blk := Md 5 MPlain [(lit "c-d", Md 6 MList [(lit "0", leaf 7)]); (lit "w", leaf 2)]). set (lst := Md 6 MList [(lit "0", leaf 7)]).
  assert (B : forall x, below wit_net x -> x = wit_net \/ x = net \/ x = dic \/ x = blk \/ x = lst \/ x = leaf 2 \/ x = leaf 4 \/ x = leaf 7).
  { intros x H. induction H as [|m n c H IH I]; [now left|]. destruct IH as [-> | [-> | [-> | [-> | [-> | [-> | [-> | ->]]]]]]]; try (destruct I; fail).
    - destruct I as [I|[I|[]]]; injection I as <- <-; unfold net, blk; tauto.
    - destruct I as [I|[I|[]]]; injection I as <- <-; unfold dic; tauto.
    - destruct I as [I|[]]; injection I as <- <-; tauto.
    - destruct I as [I|[I|[]]]; injection I as <- <-; unfold lst; tauto.
    - destruct I as [I|[]]; injection I as <- <-; tauto. }
  assert (CL : forall n, In n [lit "net"; lit "blk"; lit "0"; lit "1"; lit "k"; lit "c-d"; lit "w"] -> clean n).
  { intros n N. cbn [In] in N. destruct N as [<-|[<-|[<-|[<-|[<-|[<-|[<-|[]]]]]]]]; (split; [discriminate|]); intros c C I; cbn in C, I; intuition (subst; discriminate). }
  split; [split|].
  - split; [discriminate|]. intros n c [I|[I|[]]]; injection I as <- <-; split; reflexivity.
  - intros x X. destruct (B x X) as [-> | [-> | [-> | [-> | [-> | [-> | [-> | ->]]]]]]]; (split; [repeat constructor; cbn; intuition discriminate|]); intros i n c H;
      (destruct i as [|[|[|i]]]; try discriminate; injection H as <- <-; (split; [apply CL; cbn [In]; tauto|])); try (left; split; reflexivity); try (left; reflexivity); try (right; cbn; tauto); try reflexivity; exact I.
  - intros a b A C E. destruct (B a A) as [-> | [-> | [-> | [-> | [-> | [-> | [-> | ->]]]]]]], (B b C) as [-> | [-> | [-> | [-> | [-> | [-> | [-> | ->]]]]]]]; try reflexivity; discriminate.
Qed.
