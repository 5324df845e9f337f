From Coq Require Import List Arith Bool Lia.
From Verif Require Import OutTransModel OutTransSpec OutTransProofs BranchModel BranchSpec BranchProofs HalfModel HalfSpec.
Import ListNotations.

Lemma ecount_ins s d x (P : nat -> nat) m : forall ins, ecount s d x (map (fun u => (P u, m, u)) ins) = if (m =? d) && (s =? P x) then count_occ Nat.eq_dec ins x else 0.
Proof.
  induction ins as [|u ins IH]; [cbn; destruct (_ && _); reflexivity|]. cbn [map]. rewrite ecount_cons, ecount_one, IH. cbn [count_occ].
  destruct (Nat.eq_dec u x) as [->|N].
  - rewrite Nat.eqb_refl, andb_true_r, (Nat.eqb_sym (P x) s), (andb_comm (s =? P x)). destruct ((m =? d) && (s =? P x)); reflexivity.
  - apply Nat.eqb_neq in N. rewrite N, andb_false_r. reflexivity.
Qed.
Lemma node_new g k ins : bn (h_node g k ins) (bnext g) = mkBN k ins [bnext g].
Proof. cbn. unfold o_upd. now rewrite Nat.eqb_refl. Qed.
Lemma node_old g k ins n : n < bnext g -> bn (h_node g k ins) n = bn g n.
Proof. intros H. cbn. unfold o_upd. destruct (n =? bnext g) eqn:E; [apply Nat.eqb_eq in E; lia|reflexivity]. Qed.
Lemma prod_old g k ins t : t <> bnext g -> bprod (h_node g k ins) t = bprod g t.
Proof. intros H. cbn. unfold o_upd. apply Nat.eqb_neq in H. now rewrite H. Qed.
Lemma prod_new g k ins : bprod (h_node g k ins) (bnext g) = bnext g.
Proof. cbn. unfold o_upd. now rewrite Nat.eqb_refl. Qed.
Lemma ids_node g k ins n : In n (bids (h_node g k ins)) <-> In n (bids g) \/ n = bnext g.
Proof. cbn. rewrite in_app_iff. cbn. intuition. Qed.

Lemma node_struct g k ins : b_wf g -> b_consistent g -> (forall f, k <> BSame f) -> (forall u, In u ins -> made g u) ->
  let g' := h_node g k ins in b_wf g' /\ b_consistent g' /\ (forall t, made g t -> made g' t) /\ made g' (bnext g).
Proof.
  intros [ND W] C NS MI g'. set (m := bnext g) in *.
  assert (SM : forall n, In n (bids g) -> n < m) by (intros n H; exact (proj1 (W n H))).
  assert (MADE : forall t, made g t -> made g' t).
  { intros t (A & B & D). unfold made. unfold g'. rewrite prod_old by (fold m; fold m in A; lia). split; [cbn; lia|]. split; [apply ids_node; now left|].
    now rewrite node_old by (apply SM; exact B). }
  assert (MM : made g' m) by (unfold made, g', m; rewrite prod_new; split; [cbn; lia|]; split; [apply ids_node; now right|]; rewrite node_new; now left).
  split; [|split; [|split; assumption]].
  - split.
    + cbn. apply NoDup_Add with (a := m) (l := bids g); [|split; [exact ND|intros X; apply SM in X; lia]].
      assert (A := Add_app m (bids g) []). rewrite app_nil_r in A. exact A.
    + intros n H. apply ids_node in H. destruct H as [H| ->].
      * assert (NE : bn g' n = bn g n) by (apply node_old, SM, H). rewrite !NE. destruct (W n H) as (A1 & A2 & A3 & A4). split; [cbn; lia|]. split; [|split; [|exact A4]].
        -- intros t T. apply MADE. exact (A2 t T).
        -- intros t T. destruct (A3 t T) as [B1 B2]. unfold g'. rewrite prod_old by lia. split; [cbn; lia|exact B2].
      * assert (NE : bn g' m = mkBN k ins [m]) by apply node_new. fold m. rewrite !NE. cbn [bin bout bk]. split; [cbn; lia|]. split; [|split].
        -- intros t T. apply MADE, MI, T.
        -- intros t [<-|[]]. split; [cbn; lia|apply prod_new].
        -- intros f F. elim (NS f F).
  - intros s d t. cbn [bed g' h_node]. fold m. rewrite ecount_app, (C s d t), ecount_ins. change (bids g') with (bids g ++ [m]).
    destruct (Nat.eq_dec d m) as [->|DM].
    + assert (M1 : o_mem m (bids g) = false) by (apply o_mem_not; intros X; apply SM in X; lia).
      assert (M2 : o_mem m (bids g ++ [m]) = true) by (apply o_mem_In, in_or_app; right; now left).
      rewrite M1, M2, andb_false_r, andb_true_r, Nat.eqb_refl. unfold g', m. rewrite node_new. cbn [bin andb].
      destruct (in_dec Nat.eq_dec t ins) as [I|I].
      * destruct (MI t I) as (A & _). rewrite prod_old by lia. reflexivity.
      * rewrite (proj1 (count_occ_not_In Nat.eq_dec ins t) I). cbn. destruct (s =? bprod g t), (s =? _); reflexivity.
    + assert (MD : (m =? d) = false) by (apply Nat.eqb_neq; auto). rewrite MD. cbn [andb]. rewrite Nat.add_0_r.
      assert (M2 : o_mem d (bids g ++ [m]) = o_mem d (bids g)).
      { apply eq_true_iff_eq. rewrite !o_mem_In, in_app_iff. cbn. intuition congruence. }
      rewrite M2. destruct (o_mem d (bids g)) eqn:D; [|now rewrite !andb_false_r]. apply o_mem_In in D. unfold g'. rewrite node_old by (apply SM; exact D).
      destruct (Nat.eq_dec t m) as [->|TM]; [|now rewrite prod_old by exact TM].
      assert (Z : count_occ Nat.eq_dec (bin (bn g d)) m = 0).
      { apply count_occ_not_In. intros X. destruct (W d D) as (_ & Y & _). apply Y in X. fold m in X. lia. }
      rewrite Z. destruct (_ && _), (_ && _); reflexivity.
Qed.
Section Node.
Context {V : Type} (den : nat -> list V -> list V).
Lemma node_ok g v k ins x : b_wf g -> b_consistent g -> b_computes den g v -> (forall f, k <> BSame f) -> (forall u, In u ins -> made g u) ->
  (forall f, k = BOp f -> [x] = den f (map v ins)) ->
  let g' := h_node g k ins in let v' := fun t => if t =? bnext g then x else v t in
  b_wf g' /\ b_consistent g' /\ b_computes den g' v' /\ (forall t, made g t -> made g' t) /\ made g' (bnext g).
Proof.
  intros WF C CO NS MI EX g' v'. destruct (node_struct g k ins WF C NS MI) as (S1 & S2 & S3 & S4). destruct WF as [ND W]. set (m := bnext g) in *.
  assert (SM : forall n, In n (bids g) -> n < m) by (intros n H; exact (proj1 (W n H))).
  assert (VO : forall t, t < m -> v' t = v t) by (intros t H; unfold v'; destruct (t =? m) eqn:E; [apply Nat.eqb_eq in E; lia|reflexivity]).
  split; [exact S1|]. split; [exact S2|]. split; [|split; [exact S3|exact S4]].
  intros n H. apply ids_node in H. destruct H as [H| ->].
  - unfold g'. rewrite node_old by (apply SM; exact H). assert (Y := CO n H). destruct (W n H) as (_ & A2 & A3 & _).
      rewrite (map_ext_in v' v (bout (bn g n))) by (intros t T; apply VO; exact (proj1 (A3 t T))).
      rewrite (map_ext_in v' v (bin (bn g n))) by (intros t T; apply VO; exact (proj1 (A2 t T))). exact Y.
  - unfold g'. rewrite node_new. cbn [bk bin bout map]. rewrite (map_ext_in v' v ins) by (intros t T; apply VO; exact (proj1 (MI t T))).
      unfold v'. fold m. rewrite Nat.eqb_refl. destruct k as [| | |f|f]; try exact I; [exact (EX f eq_refl)|elim (NS f eq_refl)].
Qed.
End Node.

Section Pass.
Context {V : Type} (den : nat -> list V -> list V) (dq : nat) (deq half : V -> V) (w : nat -> V) (is32 : nat -> bool) (ord : list nat -> list nat).
Context (g0 : bg) (v0 : nat -> V).
Hypothesis ORD : an_order ord.
Hypothesis W0 : b_wf g0. Hypothesis C0 : b_consistent g0. Hypothesis K0 : consts_ok g0. Hypothesis NO : no_const_output is32 g0.
Hypothesis DQ : forall x, den dq [x] = [deq x].
Hypothesis RND : forall n t, const32 is32 g0 n t -> v0 t = deq (half (w t)).

Record hinv (done : list nat) (g : bg) (acts : list bact) (hs : list (nat * nat)) (v : nat -> V) : Prop := mkHI {
  h_wf : b_wf g; h_con : b_consistent g; h_comp : b_computes den g v;
  h_ids : forall n, In n (bids g0) -> In n (bids g) /\ bn g n = bn g0 n;
  h_next : bnext g0 <= bnext g; h_prod : forall t, t < bnext g0 -> bprod g t = bprod g0 t;
  h_val : forall t, t < bnext g0 -> v t = v0 t;
  h_new : forall n, In n (bids g) -> In n (bids g0) \/ (exists t, In (n, t) hs /\ bn g n = mkBN BConst [] [n]) \/
     (exists c t, In (c, t) hs /\ bn g n = mkBN (BOp dq) [c] [n]);
  h_hs : forall c t, In (c, t) hs -> v c = half (w t) /\ bnext g0 <= c < bnext g /\ exists n, const32 is32 g0 n t;
  h_acts : Forall (act_ok g v) acts;
  h_act1 : forall r i m, In (r, i, m) acts -> bnext g0 <= m /\ In r (bids g0);
  h_done : forall n t, In n done -> const32 is32 g0 n t -> (exists c, In (c, t) hs) /\
     forall r i, In r (bids g0) -> In i (o_positions t (bin (bn g0 r))) -> exists m, In (r, i, m) acts }.

Lemma const_ok n t done g acts hs v : const32 is32 g0 n t -> hinv done g acts hs v ->
  exists g' acts' hs' v', h_const dq ord (g, acts, hs) n = Some (g', acts', hs') /\ hinv (n :: done) g' acts' hs' v'.
Proof.
  intros K I. destruct K as (N & NB & S32). assert (KC : const32 is32 g0 n t) by (split; auto).
  destruct (h_ids _ _ _ _ _ I n N) as [NG NE]. rewrite NB in NE.
  assert (W := h_wf _ _ _ _ _ I). destruct W as [ND W]. destruct (W n NG) as (_ & _ & WO & _). rewrite NE in WO. cbn [bout] in WO.
  destruct (WO t (or_introl eq_refl)) as [TL TP]. assert (T0 : t < bnext g0 /\ bprod g0 t = n).
  { destruct W0 as [_ W00]. destruct (W00 n N) as (_ & _ & X & _). rewrite NB in X. exact (X t (or_introl eq_refl)). }
  destruct T0 as [T0 TP0].
  (* readers are old and read the constant *)
  assert (RD : forall r, In r (b_succ g n) -> In r (bids g0) /\ In t (bin (bn g0 r)) /\ bn g r = bn g0 r).
  { intros r H. apply succ_In in H. destruct H as (x & H). apply (edge_iff g n r x (h_con _ _ _ _ _ I)) in H. destruct H as (H1 & H2 & H3).
    assert (XT : x = t). { destruct (W r H2) as (_ & Y & _). destruct (Y x H3) as (_ & _ & Y3). rewrite <- H1, NE in Y3. destruct Y3 as [Y3|[]]. auto. }
    subst x. destruct (h_new _ _ _ _ _ I r H2) as [H|[(t' & A & B)|(c & t' & A & B)]].
    - destruct (h_ids _ _ _ _ _ I r H) as [_ Q]. split; [exact H|]. rewrite Q in H3. split; [exact H3|exact Q].
    - rewrite B in H3. destruct H3.
    - rewrite B in H3. destruct H3 as [H3|[]]. subst c. destruct (h_hs _ _ _ _ _ I t t' A) as (_ & X & _). lia. }
  assert (RD2 : forall r, In r (bids g0) -> In t (bin (bn g0 r)) -> In r (b_succ g n)).
  { intros r R T. apply succ_In. exists t. apply (edge_iff g n r t (h_con _ _ _ _ _ I)). destruct (h_ids _ _ _ _ _ I r R) as [R1 R2]. rewrite R2. auto. }
  set (c := bnext g). set (m := S c).
  set (acts1 := flat_map (fun r => map (fun i => (r, i, m)) (o_positions t (bin (bn g r)))) (ord (b_succ g n))).
  assert (A1 : forall r i x, In (r, i, x) acts1 <-> x = m /\ In r (b_succ g n) /\ In i (o_positions t (bin (bn g r)))).
  { intros r i x. unfold acts1. rewrite in_flat_map. split.
    - intros (r' & R & H). apply in_map_iff in H. destruct H as (i' & H & H2). injection H as <- <- <-. apply (proj1 (proj2 (ORD _) _)) in R. split; [reflexivity|split; [exact R|exact H2]].
    - intros (-> & R & H). exists r. split; [now apply (proj2 (proj2 (ORD _) _))|]. apply in_map_iff. eauto. }
  destruct (node_ok den g v BConst [] (half (w t)) (h_wf _ _ _ _ _ I) (h_con _ _ _ _ _ I) (h_comp _ _ _ _ _ I)) as (B1 & B2 & B3 & B4 & B5); [discriminate|intros u []|discriminate|].
  set (g1 := h_node g BConst []) in *. set (v1 := fun x => if x =? bnext g then half (w t) else v x) in *.
  destruct (node_ok den g1 v1 (BOp dq) [c] (deq (half (w t))) B1 B2 B3) as (D1 & D2 & D3 & D4 & D5); [discriminate|intros u [<-|[]]; exact B5| |].
  { intros f F. injection F as <-. cbn [map]. rewrite DQ. unfold v1, c. now rewrite Nat.eqb_refl. }
  set (g2 := h_node g1 (BOp dq) [c]) in *. set (v2 := fun x => if x =? bnext g1 then deq (half (w t)) else v1 x) in *.
  change (bnext g1) with m in *. fold c in v1, B5.
  assert (VO : forall x, x < c -> v2 x = v x).
  { intros x X. unfold v2, v1, m. destruct (x =? S c) eqn:E; [apply Nat.eqb_eq in E; lia|]. destruct (x =? c) eqn:E2; [apply Nat.eqb_eq in E2; lia|reflexivity]. }
  assert (VC : v2 c = half (w t)).
  { unfold v2, v1, m. destruct (c =? S c) eqn:E; [apply Nat.eqb_eq in E; lia|]. fold c. now rewrite Nat.eqb_refl. }
  assert (VM : v2 m = deq (half (w t))) by (unfold v2; now rewrite Nat.eqb_refl).
  assert (OLD : forall x, x < c -> bn g2 x = bn g x).
  { intros x X. unfold g2. rewrite node_old by (cbn; fold c; lia). unfold g1. now rewrite node_old. }
  assert (IDS : forall x, In x (bids g2) <-> In x (bids g) \/ x = c \/ x = m).
  { intros x. unfold g2. rewrite ids_node. unfold g1 at 1. rewrite ids_node. change (bnext g1) with m. fold c. tauto. }
  assert (NC : bn g2 c = mkBN BConst [] [c]) by (unfold g2; rewrite node_old by (cbn; fold c; lia); exact (node_new g BConst [])).
  assert (NM : bn g2 m = mkBN (BOp dq) [c] [m]) by exact (node_new g1 (BOp dq) [c]).
  assert (SM : forall x, In x (bids g) -> x < c) by (intros x X; exact (proj1 (W x X))).
  exists g2, (acts ++ acts1), (hs ++ [(c, t)]), v2. split.
  - unfold h_const. rewrite NE. cbn [bout nth]. fold c m acts1.
    assert (EX : existsb (fun r => is_bout (bk (bn g r))) (ord (b_succ g n)) = false).
    { apply not_true_is_false. intros H. apply existsb_exists in H. destruct H as (r & R & B). apply (proj1 (proj2 (ORD _) _)) in R. destruct (RD r R) as (R1 & R2 & R3).
      apply is_bout_iff in B. rewrite R3 in B. exact (NO n t r KC R1 R2 B). }
    cbv zeta. rewrite EX. reflexivity.
  - constructor.
    + exact D1. + exact D2. + exact D3.
    + intros x X. destruct (h_ids _ _ _ _ _ I x X) as [Y1 Y2]. split; [apply IDS; now left|]. rewrite OLD by (apply SM; exact Y1). exact Y2.
    + assert (X := h_next _ _ _ _ _ I). cbn. fold c in X |- *. lia.
    + intros x X. assert (Y := h_next _ _ _ _ _ I). fold c in Y. unfold g2. rewrite prod_old by (change (bnext g1) with (S c); lia). unfold g1. rewrite prod_old by (fold c; lia).
      exact (h_prod _ _ _ _ _ I x X).
    + intros x X. assert (Y := h_next _ _ _ _ _ I). fold c in Y. rewrite VO by lia. exact (h_val _ _ _ _ _ I x X).
    + intros x X. apply IDS in X. destruct X as [X|[->| ->]].
      * rewrite OLD by (apply SM; exact X). destruct (h_new _ _ _ _ _ I x X) as [Y|[(t' & Y1 & Y2)|(c' & t' & Y1 & Y2)]]; [now left|right; left|right; right].
        -- exists t'. split; [apply in_or_app; now left|exact Y2].
        -- exists c', t'. split; [apply in_or_app; now left|exact Y2].
      * right. left. exists t. split; [apply in_or_app; right; now left|exact NC].
      * right. right. exists c, t. split; [apply in_or_app; right; now left|exact NM].
    + intros c' t' H. assert (Y := h_next _ _ _ _ _ I). fold c in Y. apply in_app_or in H. destruct H as [H|[H|[]]].
      * destruct (h_hs _ _ _ _ _ I c' t' H) as (X1 & X2 & X3). fold c in X2. rewrite VO by lia. split; [exact X1|]. split; [cbn; fold c; lia|exact X3].
      * injection H as <- <-. split; [exact VC|]. split; [cbn; fold c; lia|]. exists n. exact KC.
    + apply Forall_app. split.
      * assert (X := h_acts _ _ _ _ _ I). rewrite Forall_forall in *. intros [[r i] x] H. destruct (X _ H) as (X1 & X2 & X3 & X4 & X5).
        unfold act_ok. rewrite OLD by (apply SM; exact X1). split; [apply IDS; now left|]. split; [exact X2|]. split; [exact X3|]. split.
        -- rewrite !VO; [exact X4| |exact (proj1 X5)]. destruct (W r X1) as (_ & Y & _). apply Y. now apply nth_In.
        -- apply D4, B4, X5.
      * rewrite Forall_forall. intros [[r i] x] H. apply A1 in H. destruct H as (-> & R & H). destruct (RD r R) as (R1 & R2 & R3). apply positions_In in H. destruct H as [H1 H2].
        destruct (h_ids _ _ _ _ _ I r R1) as [R4 _]. unfold act_ok. rewrite OLD by (apply SM; exact R4). split; [apply IDS; now left|].
        split; [rewrite R3; exact (NO n t r KC R1 R2)|]. split; [exact H1|]. split; [|exact D5].
        rewrite H2, VM. rewrite VO by exact TL. rewrite (h_val _ _ _ _ _ I t T0). symmetry. exact (RND n t KC).
    + intros r i x H. apply in_app_or in H. destruct H as [H|H]; [exact (h_act1 _ _ _ _ _ I r i x H)|]. apply A1 in H. destruct H as (-> & R & _).
      assert (Y := h_next _ _ _ _ _ I). fold c in Y. split; [unfold m; lia|]. apply (RD r R).
    + intros n' t' H KN. destruct H as [<-|H].
      * assert (t' = t) by (destruct KN as (_ & Q & _); congruence). subst t'. split; [exists c; apply in_or_app; right; now left|].
        intros r i R P. exists m. apply in_or_app. right. apply A1. destruct (h_ids _ _ _ _ _ I r R) as [_ Q]. split; [reflexivity|]. rewrite Q. split; [|exact P].
        apply RD2; [exact R|]. apply positions_In in P. destruct P as [P1 P2]. rewrite <- P2. now apply nth_In.
      * destruct (h_done _ _ _ _ _ I n' t' H KN) as ((c' & X1) & X2). split; [exists c'; apply in_or_app; now left|].
        intros r i R P. destruct (X2 r i R P) as (x & X). exists x. apply in_or_app. now left.
Qed.
Lemma consts_all : forall ns done g acts hs v, (forall n, In n ns -> exists t, const32 is32 g0 n t) -> hinv done g acts hs v ->
  exists g' acts' hs' v' done', h_consts dq ord ns (g, acts, hs) = Some (g', acts', hs') /\ hinv done' g' acts' hs' v' /\ (forall n, In n ns \/ In n done -> In n done').
Proof.
  induction ns as [|n ns IH]; intros done g acts hs v H I.
  - exists g, acts, hs, v, done. split; [reflexivity|]. split; [exact I|]. intros n [[]|X]. exact X.
  - destruct (H n (or_introl eq_refl)) as (t & K). destruct (const_ok n t done g acts hs v K I) as (g1 & a1 & h1 & v1 & E & I1).
    destruct (IH (n :: done) g1 a1 h1 v1 (fun x X => H x (or_intror X)) I1) as (g' & acts' & hs' & v' & done' & E' & I' & D').
    exists g', acts', hs', v', done'. split; [cbn [h_consts]; rewrite E; exact E'|]. split; [exact I'|]. intros x [[<-|X]|X]; apply D'; [right; now left|now left|right; now right].
Qed.
End Pass.

Theorem half_ok {V} (den : nat -> list V -> list V) dq deq half (w : nat -> V) is32 ord g v : an_order ord -> b_wf g -> b_consistent g -> consts_ok g -> no_const_output is32 g ->
  (forall x, den dq [x] = [deq x]) -> (forall n t, const32 is32 g n t -> v t = deq (half (w t))) -> b_computes den g v ->
  exists g' hs v', half_quantize dq is32 ord g = Some (g', hs) /\ b_wf g' /\ b_consistent g' /\ b_computes den g' v' /\ b_keeps g v g' v' /\
    new_halves dq is32 g g' hs /\ (forall c t, In (c, t) hs -> v' c = half (w t)) /\
    (forall n t r, const32 is32 g n t -> In r (bids g') -> ~ In t (bin (bn g' r))).
Proof.
  intros ORD W C K NO DQ RND CO.
  assert (I0 : hinv den dq half w is32 g v [] g [] [] v) by (constructor; auto; try (intros; contradiction)).
  assert (NS : forall n, In n (filter (h_selected is32 g) (bids g)) <-> exists t, const32 is32 g n t).
  { intros n. rewrite filter_In. unfold h_selected. split.
    - intros [H1 H2]. destruct (bk (bn g n)) eqn:E; try discriminate. destruct (K n H1 E) as (t & Q). rewrite Q in H2. exists t. split; auto.
    - intros (t & H1 & H2 & H3). rewrite H2. auto. }
  destruct (consts_all den dq deq half w is32 ord g v ORD W NO DQ RND _ [] g [] [] v (fun n H => proj1 (NS n) H) I0) as (g1 & acts & hs & v1 & done & E & I & DN).
  destruct (acts_ok den v1 acts g1 (h_wf _ _ _ _ _ _ _ _ _ _ _ _ I) (h_con _ _ _ _ _ _ _ _ _ _ _ _ I) (h_comp _ _ _ _ _ _ _ _ _ _ _ _ I) (h_acts _ _ _ _ _ _ _ _ _ _ _ _ I))
    as (B1 & B2 & B3 & B4 & B5 & B6 & B7 & B8 & B9 & B10).
  set (g' := fold_left b_act acts g1) in *. exists g', hs, v1. split; [unfold half_quantize; rewrite E; reflexivity|]. split; [exact B1|]. split; [exact B2|]. split; [exact B3|].
  assert (W' := W). destruct W' as [_ W'].
  assert (DONE : forall n t, const32 is32 g n t -> (exists c, In (c, t) hs) /\ forall r i, In r (bids g) -> In i (o_positions t (bin (bn g r))) -> exists m, In (r, i, m) acts).
  { intros n t KC. apply (h_done _ _ _ _ _ _ _ _ _ _ _ _ I n t); [|exact KC]. apply DN. left. apply NS. eauto. }
  (* nodes that are new keep their inputs *)
  assert (KEEP : forall n, ~ In n (bids g) -> bn g' n = bn g1 n).
  { intros n H. assert (X : forall acts g, (forall r i m, In (r, i, m) acts -> r <> n) -> bn (fold_left b_act acts g) n = bn g n).
    { clear. induction acts as [|[[r i] m] acts IH]; intros g H; [reflexivity|]. cbn [fold_left]. rewrite IH by (intros; eapply H; right; eassumption).
      cbn [b_act bn]. unfold o_upd. destruct (n =? r) eqn:E; [|reflexivity]. apply Nat.eqb_eq in E. elim (H r i m (or_introl eq_refl)). auto. }
    apply X. intros r i m R ->. apply H. apply (h_act1 _ _ _ _ _ _ _ _ _ _ _ _ I n i m R). }
  split; [|split; [|split]].
  - split; [|exact (h_val _ _ _ _ _ _ _ _ _ _ _ _ I)]. intros n H. destruct (h_ids _ _ _ _ _ _ _ _ _ _ _ _ I n H) as [X1 X2]. destruct (B7 n) as [Y1 Y2].
    rewrite B4, Y1, Y2, B8, X2. split; [exact X1|]. split; [reflexivity|]. split; [reflexivity|]. split.
    + apply map_ext_in. intros t T. apply (h_val _ _ _ _ _ _ _ _ _ _ _ _ I). destruct (W' n H) as (_ & Z & _). exact (proj1 (Z t T)).
    + intros Q. rewrite B9 by congruence. now rewrite X2.
  - split; [|split].
    + intros n H. rewrite B4 in H. destruct (in_dec Nat.eq_dec n (bids g)) as [D|D]; [now left|]. rewrite (KEEP n D). exact (h_new _ _ _ _ _ _ _ _ _ _ _ _ I n H).
    + intros c t H. apply (h_hs _ _ _ _ _ _ _ _ _ _ _ _ I c t H).
    + intros n t H. apply (DONE n t H).
  - intros c t H. apply (h_hs _ _ _ _ _ _ _ _ _ _ _ _ I c t H).
  - intros n t r KC R IN. rewrite B4 in R. assert (TL : t < bnext g).
    { destruct KC as (H1 & H2 & _). destruct (W' n H1) as (_ & _ & Z & _). rewrite H2 in Z. exact (proj1 (Z t (or_introl eq_refl))). }
    destruct (B10 r t IN) as (i & [(m & -> & M)|(L1 & L2 & L3)]).
    + destruct (h_act1 _ _ _ _ _ _ _ _ _ _ _ _ I r i t M) as [X _]. lia.
    + destruct (h_new _ _ _ _ _ _ _ _ _ _ _ _ I r R) as [RG|[(t' & _ & Q)|(c & t' & H & Q)]].
      * destruct (h_ids _ _ _ _ _ _ _ _ _ _ _ _ I r RG) as [_ Q]. rewrite Q in L1, L2. destruct (proj2 (DONE n t KC) r i RG) as (m & M); [apply positions_In; auto|].
        exact (L3 m M).
      * rewrite Q in L1. cbn in L1. lia.
      * rewrite Q in L1, L2. cbn in L1. destruct i as [|i]; [|lia]. cbn in L2. subst c. destruct (h_hs _ _ _ _ _ _ _ _ _ _ _ _ I t t' H) as (_ & X & _). lia.
Qed.
(** a float32 constant before an OUTPUT node *)
Definition co_bn (n : nat) : bnode := match n with 0 => mkBN BConst [] [0] | 1 => mkBN BOut [0] [] | _ => mkBN BIn [] [] end.
Definition co_bg : bg := mkBG co_bn [0; 1] [(0,1,0)] (fun t => t) 2.
Theorem half_output_lemma : exists g is32, b_wf g /\ b_consistent g /\ consts_ok g /\ forall dq ord, an_order ord -> half_quantize dq is32 ord g = None.
Proof.
  exists co_bg, (fun _ => true). split; [b_wf_tac|]. split; [apply (b_consistent_check 2); reflexivity|]. split.
  - intros n [<-|[<-|[]]] K; [exists 0; reflexivity|discriminate].
  - intros dq ord O. unfold half_quantize. cbn [filter co_bg bids h_selected bn co_bn bk bout nth h_consts]. unfold h_const.
    assert (EX : existsb (fun r => is_bout (bk (bn co_bg r))) (ord (b_succ co_bg 0)) = true).
    { apply existsb_exists. exists 1. split; [|reflexivity]. apply (proj2 (O _)). cbn. now left. }
    cbv zeta. rewrite EX. reflexivity.
Qed.
