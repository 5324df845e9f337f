(** Proofs for the transpose passthrough: every axis-carrying operator commutes with a transpose
    once its axis arguments are rewritten. *)
From Coq Require Import List Arith Bool Lia Permutation Reals.
From Verif Require Import Tensor ChainModel ReshapeProofs LowerProofs FuseMiscProofs PassModel.
From Verif Require Import ConvSpec CatSpec LayoutSpec CatProofs.
Import ListNotations.
Local Open Scope nat_scope.

(* ------------------------------------------------------------------ *)
(** * Inverse permutations *)

Lemma argsort_inv_perm n p : is_perm n p -> argsort p = inv_perm p.
Proof.
  intro Hp. destruct (argsort_inv n p Hp) as [Hs Ha]. pose proof (is_perm_length _ _ Hp) as L. pose proof (is_perm_length _ _ Ha) as La.
  apply list_eq_nth; [rewrite inv_perm_length; lia|]. intros k Hk. rewrite inv_perm_nth by lia.
  assert (nth (nth k (argsort p) 0) p 0 = k) as E.
  { rewrite <- (sel_nth p (argsort p) k) by auto. rewrite Hs, seq_nth by lia. lia. }
  rewrite <- E at 2. rewrite find_pos_nth; auto. eapply is_perm_NoDup; eauto.
  rewrite L. eapply (is_perm_in n _ _ Ha). apply nth_In. lia.
Qed.
Lemma pt_inv_perm n p : is_perm n p -> is_perm n (pt_inv p).
Proof. intro H. unfold pt_inv. rewrite (argsort_inv_perm n p H). apply inv_perm_is_perm; auto. Qed.
Lemma pt_inv_inv n p : is_perm n p -> pt_inv p = inv_perm p.
Proof. apply argsort_inv_perm. Qed.

Lemma sel_inv_seq n p : is_perm n p -> sel (inv_perm p) p = seq 0 n.
Proof.
  intro Hp. pose proof (is_perm_length _ _ Hp) as L. rewrite <- (sel_inv_l (seq 0 n) p) by (rewrite seq_length; auto). f_equal.
  pose proof (inv_perm_is_perm _ _ Hp) as Hi. apply list_eq_nth; [rewrite sel_length; auto|].
  intros k Hk. rewrite inv_perm_length in Hk. rewrite sel_nth by (rewrite inv_perm_length; lia).
  rewrite seq_nth; [lia|]. apply (is_perm_in n _ _ Hi). apply nth_In. rewrite inv_perm_length. lia.
Qed.

(** no validity needed: reading a transposed tensor at a permuted index *)
Lemma transpose_get {A} q (x : tensor A) i n : is_perm n q -> length i = n -> tget (transpose q x) (sel i q) = tget x i.
Proof. intros Hq L. simpl. rewrite sel_inv_r; auto. now rewrite L. Qed.

(** what has to be checked for an operator: [y'] is the result on transposed operands *)
Lemma pt_back {A} n perm (y y' : tensor A) : is_perm n perm -> length (tshape y) = n ->
  tshape y' = sel (tshape y) (pt_inv perm) ->
  (forall j, length j = n -> valid (tshape y) j -> tget y' (sel j (pt_inv perm)) = tget y j) ->
  teq (transpose perm y') y.
Proof.
  intros Hp L HS HG. pose proof (pt_inv_perm _ _ Hp) as Hq.
  assert (teq y' (transpose (pt_inv perm) y)) as E.
  { apply transpose_unique; [rewrite L; auto|auto|]. intros j V. apply HG; auto. rewrite (valid_length _ _ V). auto. }
  eapply teq_trans; [apply transpose_congr; [|exact E]; rewrite HS, sel_length, (is_perm_length _ _ Hq); auto|].
  eapply teq_trans; [apply transpose_transpose; rewrite L; auto|].
  rewrite (pt_inv_inv _ _ Hp), (sel_inv_seq _ _ Hp), <- L. apply transpose_id.
Qed.

(* ------------------------------------------------------------------ *)
(** * One axis *)

Lemma np_where_spec v l : In v l -> np_where v l = Some (find_pos v l).
Proof.
  induction l as [|x l IH]; [intros []|]. intro H. cbn [np_where find_pos].
  destruct (Nat.eqb_spec x v) as [->|N]; [rewrite ?Nat.eqb_refl; reflexivity|].
  destruct H as [H|H]; [congruence|]. rewrite IH by auto. destruct (Nat.eqb_spec v x); [congruence|]. reflexivity.
Qed.
Lemma pt_axis_spec n perm ax : is_perm n perm -> ax < n -> pt_axis perm ax = Some (find_pos ax (pt_inv perm)).
Proof. intros Hp Hax. apply np_where_spec. apply (is_perm_in n); auto. apply pt_inv_perm; auto. Qed.

Lemma sel_upd n q l ax v : is_perm n q -> length l = n -> ax < n ->
  upd (sel l q) (find_pos ax q) v = sel (upd l ax v) q.
Proof.
  intros Hq L Hax. pose proof (is_perm_length _ _ Hq) as Lq. pose proof (is_perm_NoDup _ _ Hq) as Hn.
  assert (In ax q) as Hin by (apply (is_perm_in n); auto).
  apply list_eq_nth; [rewrite upd_length, !sel_length; auto|]. intros k Hk. rewrite upd_length, sel_length in Hk.
  rewrite upd_nth, sel_length, !sel_nth, upd_nth by auto.
  rewrite (proj2 (Nat.ltb_lt _ _) (find_pos_lt _ _ Hin)). rewrite L, (proj2 (Nat.ltb_lt _ _) Hax), !andb_true_r.
  destruct (Nat.eqb_spec k (find_pos ax q)) as [->|N].
  - rewrite nth_find_pos by auto. now rewrite Nat.eqb_refl.
  - destruct (Nat.eqb_spec (nth k q 0) ax) as [E|]; [|reflexivity]. exfalso. apply N. rewrite <- E. symmetry. apply find_pos_nth; auto.
Qed.
Lemma sel_at n q l ax : is_perm n q -> ax < n -> nth (find_pos ax q) (sel l q) 0 = nth ax l 0.
Proof.
  intros Hq Hax. assert (In ax q) as Hin by (apply (is_perm_in n); auto).
  rewrite sel_nth by (apply find_pos_lt; auto). now rewrite nth_find_pos.
Qed.

Theorem pt_gather_ok {A} perm ax ix (x : tensor A) : is_perm (length (tshape x)) perm -> ax < length (tshape x) ->
  exists ax', pt_axis perm ax = Some ax' /\
  teq (transpose perm (gather ax' ix (transpose (pt_inv perm) x))) (gather ax ix x).
Proof.
  intros Hp Hax. eexists. split; [eapply pt_axis_spec; eauto|]. pose proof (pt_inv_perm _ _ Hp) as Hq.
  apply pt_back with (n := length (tshape x)); auto.
  - cbn [gather tshape]. apply upd_length.
  - cbn [gather tshape transpose]. eapply sel_upd; eauto.
  - intros j L V. unfold gather. cbn [tget]. rewrite (sel_at _ _ _ _ Hq Hax), (sel_upd _ _ _ _ _ Hq L Hax).
    eapply transpose_get; eauto. now rewrite upd_length.
Qed.

Theorem pt_chunk_ok {A} perm ax start len (x : tensor A) : is_perm (length (tshape x)) perm -> ax < length (tshape x) ->
  exists ax', pt_axis perm ax = Some ax' /\
  teq (transpose perm (chunk ax' start len (transpose (pt_inv perm) x))) (chunk ax start len x).
Proof.
  intros Hp Hax. eexists. split; [eapply pt_axis_spec; eauto|]. pose proof (pt_inv_perm _ _ Hp) as Hq.
  apply pt_back with (n := length (tshape x)); auto.
  - cbn [chunk tshape]. apply upd_length.
  - cbn [chunk tshape transpose]. eapply sel_upd; eauto.
  - intros j L V. unfold chunk. cbn [tget]. rewrite (sel_at _ _ _ _ Hq Hax), (sel_upd _ _ _ _ _ Hq L Hax).
    eapply transpose_get; eauto. now rewrite upd_length.
Qed.
(** SPLIT into equal parts is a family of chunks *)
Lemma split_part_chunk {A} n ax g (t : tensor A) :
  split_part n ax g t = chunk ax (g * (axis_size ax t / n)) (axis_size ax t / n) t.
Proof. reflexivity. Qed.

Lemma sizes_sum_transpose {A} n q ax (ts : list (tensor A)) : is_perm n q -> ax < n ->
  sizes_sum (find_pos ax q) (map (transpose q) ts) = sizes_sum ax ts.
Proof.
  intros Hq Hax. unfold sizes_sum. rewrite map_map. f_equal. apply map_ext. intro t. unfold axis_size. cbn [transpose tshape].
  eapply sel_at; eauto.
Qed.
Theorem pt_concat_ok {A} (d : A) perm ax (ts : list (tensor A)) : ts <> [] -> Forall (fun t => length (tshape t) = length perm) ts ->
  is_perm (length perm) perm -> ax < length perm ->
  exists ax', pt_axis perm ax = Some ax' /\
  teq (transpose perm (concatenation d ax' (map (transpose (pt_inv perm)) ts))) (concatenation d ax ts).
Proof.
  intros Hne HF Hp Hax. eexists. split; [eapply pt_axis_spec; eauto|]. pose proof (pt_inv_perm _ _ Hp) as Hq.
  apply pt_back with (n := length perm); auto.
  - unfold concatenation. cbn [tshape]. destruct ts as [|t ts]; [congruence|]. inversion HF; subst. now rewrite upd_length.
  - unfold concatenation. cbn [tshape]. rewrite (sizes_sum_transpose _ _ _ _ Hq Hax). destruct ts as [|t ts]; [congruence|]. inversion HF; subst.
    cbn [map transpose tshape]. eapply sel_upd; eauto.
  - intros j L V. unfold concatenation. cbn [tget]. rewrite (sel_at _ _ _ _ Hq Hax). generalize (nth ax j 0). clear V Hne.
    induction HF as [|t ts Ht HF IH]; intro i; [reflexivity|]. cbn [map cat_at]. unfold axis_size in *. cbn [transpose tshape].
    rewrite (sel_at _ _ _ _ Hq Hax). destruct (i <? nth ax (tshape t) 0); [|apply IH].
    rewrite (sel_upd _ _ _ _ _ Hq L Hax). eapply transpose_get; eauto. now rewrite upd_length.
Qed.

(* ------------------------------------------------------------------ *)
(** * Per-axis tables *)

Lemma take_all_spec {D} (d : D) table ks : Forall (fun k => k < length table) ks ->
  take_all table ks = Some (map (fun k => nth k table d) ks).
Proof.
  induction 1 as [|k ks Hk HF IH]; [reflexivity|]. cbn [take_all map]. rewrite IH.
  rewrite (nth_error_nth' table d Hk). reflexivity.
Qed.
Lemma pt_table_spec {D} (d : D) n perm (table : list D) : is_perm n perm -> length table = n ->
  pt_table perm table = Some (map (fun k => nth k table d) (pt_inv perm)).
Proof. intros Hp L. apply take_all_spec. rewrite L. apply is_perm_Forall. apply pt_inv_perm; auto. Qed.

Definition selD {D} (d : D) (l : list D) (q : list nat) : list D := map (fun k => nth k l d) q.
Lemma selD_nth {D} (d : D) l q k : k < length q -> nth k (selD d l q) d = nth (nth k q 0) l d.
Proof.
  intro H. unfold selD. rewrite (nth_indep _ d (nth 0 l d)) by (rewrite map_length; auto).
  exact (map_nth (fun k => nth k l d) q 0 k).
Qed.
Lemma selD_length {D} (d : D) l q : length (selD d l q) = length q.
Proof. apply map_length. Qed.
Lemma selD_sel l q : selD 0 l q = sel l q.
Proof. reflexivity. Qed.

(** pointwise descriptions of the index maps *)
Lemma zip_plus_length a : forall b, length a = length b -> length (zip_plus a b) = length a.
Proof. induction a; intros [|y b]; simpl; intro H; auto; try lia; try (rewrite IHa; lia). Qed.
Lemma zip_plus_nth a : forall b k, length a = length b -> k < length a -> nth k (zip_plus a b) 0 = nth k a 0 + nth k b 0.
Proof. induction a; intros [|y b] [|k]; simpl; intros; try lia; try (apply IHa; lia). Qed.
Lemma zipmul_nth a : forall b k, length a = length b -> k < length a -> nth k (zipmul a b) 0 = nth k a 0 * nth k b 0.
Proof. induction a; intros [|y b] [|k]; simpl; intros; try lia; try (apply IHa; lia). Qed.
Lemma modidx_length s : forall idx, length s = length idx -> length (modidx s idx) = length s.
Proof. induction s; intros [|y b]; simpl; intro H; auto; try lia; try (rewrite IHs; lia). Qed.
Lemma modidx_nth s : forall idx k, length s = length idx -> k < length s -> nth k (modidx s idx) 0 = nth k idx 0 mod nth k s 0.
Proof. induction s as [|d s IH]; intros [|i idx] [|k] L H; cbn [length] in *; try lia; cbn [modidx nth]; auto; try (apply IH; lia). Qed.
Lemma slice_shape_length sh : forall s e st, length s = length sh -> length e = length sh -> length st = length sh ->
  length (slice_shape sh s e st) = length sh.
Proof. induction sh; intros [|] [|] [|]; simpl; intros; try lia; auto; try (rewrite IHsh; lia). Qed.
Lemma slice_shape_nth sh : forall s e st k, length s = length sh -> length e = length sh -> length st = length sh -> k < length sh ->
  nth k (slice_shape sh s e st) 0 = slice_dim (nth k sh 0) (nth k s 0) (nth k e 0) (nth k st 0).
Proof.
  induction sh as [|d sh IH]; intros [|a s] [|b e] [|c st] [|k]; cbn [length]; intros; try lia; cbn [slice_shape nth]; auto; try (apply IH; lia).
Qed.
Lemma slice_idx_length idx : forall s st, length s = length idx -> length st = length idx -> length (slice_idx idx s st) = length idx.
Proof. induction idx; intros [|] [|]; simpl; intros; try lia; auto; try (rewrite IHidx; lia). Qed.
Lemma slice_idx_nth idx : forall s st k, length s = length idx -> length st = length idx -> k < length idx ->
  nth k (slice_idx idx s st) 0 = nth k s 0 + nth k st 0 * nth k idx 0.
Proof. induction idx; intros [|] [|] [|k]; cbn [length]; intros; try lia; cbn [slice_idx nth]; auto; try (apply IHidx; lia). Qed.
Lemma pad_shape_length sh : forall pads, length pads = length sh -> length (pad_shape sh pads) = length sh.
Proof. induction sh; intros [|[u v] p]; simpl; intros; try lia; auto; try (rewrite IHsh; lia). Qed.
Lemma pad_shape_nth sh : forall pads k, length pads = length sh -> k < length sh ->
  nth k (pad_shape sh pads) 0 = fst (nth k pads (0, 0)) + nth k sh 0 + snd (nth k pads (0, 0)).
Proof. induction sh; intros [|[u v] p] [|k]; cbn [length]; intros; try lia; cbn [pad_shape nth fst snd]; auto; try (apply IHsh; lia). Qed.
Lemma reflect_idx_length sh : forall pads idx, length pads = length sh -> length idx = length sh -> length (reflect_idx sh pads idx) = length sh.
Proof. induction sh; intros [|[u v] p] [|i idx]; simpl; intros; try lia; auto; try (rewrite IHsh; lia). Qed.
Lemma reflect_idx_nth sh : forall pads idx k, length pads = length sh -> length idx = length sh -> k < length sh ->
  nth k (reflect_idx sh pads idx) 0 = reflect (nth k sh 0) (fst (nth k pads (0, 0))) (nth k idx 0).
Proof. induction sh; intros [|[u v] p] [|i idx] [|k]; cbn [length]; intros; try lia; cbn [reflect_idx nth fst snd]; auto; try (apply IHsh; lia). Qed.

Lemma nth_map_seq (g : nat -> nat) m k : k < m -> nth k (map g (seq 0 m)) 0 = g k.
Proof.
  intro H. rewrite (nth_indep _ 0 (g 0)) by (rewrite map_length, seq_length; auto). rewrite (map_nth g), seq_nth by auto. reflexivity.
Qed.

Section Tables.
  Variable (n : nat) (q : list nat).
  Hypothesis Hq : is_perm n q.
  Let Lq : length q = n := is_perm_length _ _ Hq.
  Lemma q_lt k : k < length q -> nth k q 0 < n.
  Proof. intro H. apply (is_perm_in n _ _ Hq). apply nth_In; auto. Qed.

  Lemma zip_plus_sel a b : length a = n -> length b = n -> zip_plus (sel a q) (sel b q) = sel (zip_plus a b) q.
  Proof.
    intros La Lb. apply list_eq_nth; [rewrite zip_plus_length, !sel_length; rewrite ?sel_length; auto|].
    intros k Hk. rewrite zip_plus_length, sel_length in Hk by (rewrite !sel_length; auto).
    pose proof (q_lt k Hk). rewrite zip_plus_nth by (rewrite !sel_length; auto). rewrite !sel_nth, zip_plus_nth by lia. reflexivity.
  Qed.
  Lemma zipmul_sel a b : length a = n -> length b = n -> zipmul (sel a q) (sel b q) = sel (zipmul a b) q.
  Proof.
    intros La Lb. apply list_eq_nth; [rewrite zipmul_length, !sel_length; rewrite ?sel_length; auto|].
    intros k Hk. rewrite zipmul_length, sel_length in Hk by (rewrite !sel_length; auto).
    pose proof (q_lt k Hk). rewrite zipmul_nth by (rewrite !sel_length; auto). rewrite !sel_nth, zipmul_nth by lia. reflexivity.
  Qed.
  Lemma modidx_sel a b : length a = n -> length b = n -> modidx (sel a q) (sel b q) = sel (modidx a b) q.
  Proof.
    intros La Lb. apply list_eq_nth; [rewrite modidx_length, !sel_length; rewrite ?sel_length; auto|].
    intros k Hk. rewrite modidx_length, sel_length in Hk by (rewrite !sel_length; auto).
    pose proof (q_lt k Hk). rewrite modidx_nth by (rewrite !sel_length; auto). rewrite !sel_nth, modidx_nth by lia. reflexivity.
  Qed.
  Lemma slice_shape_sel sh s e st : length sh = n -> length s = n -> length e = n -> length st = n ->
    slice_shape (sel sh q) (sel s q) (sel e q) (sel st q) = sel (slice_shape sh s e st) q.
  Proof.
    intros. apply list_eq_nth; [rewrite slice_shape_length; rewrite ?sel_length; auto|].
    intros k Hk. rewrite slice_shape_length, sel_length in Hk by (rewrite !sel_length; auto).
    pose proof (q_lt k Hk). rewrite slice_shape_nth by (rewrite !sel_length; auto). rewrite !sel_nth, slice_shape_nth by lia. reflexivity.
  Qed.
  Lemma slice_idx_sel idx s st : length idx = n -> length s = n -> length st = n ->
    slice_idx (sel idx q) (sel s q) (sel st q) = sel (slice_idx idx s st) q.
  Proof.
    intros. apply list_eq_nth; [rewrite slice_idx_length; rewrite ?sel_length; auto|].
    intros k Hk. rewrite slice_idx_length, sel_length in Hk by (rewrite !sel_length; auto).
    pose proof (q_lt k Hk). rewrite slice_idx_nth by (rewrite !sel_length; auto). rewrite !sel_nth, slice_idx_nth by lia. reflexivity.
  Qed.
  Lemma pad_shape_sel sh pads : length sh = n -> length pads = n ->
    pad_shape (sel sh q) (selD (0, 0) pads q) = sel (pad_shape sh pads) q.
  Proof.
    intros. apply list_eq_nth; [rewrite pad_shape_length; rewrite ?sel_length, ?selD_length; auto|].
    intros k Hk. rewrite pad_shape_length, sel_length in Hk by (rewrite selD_length, sel_length; auto).
    pose proof (q_lt k Hk). rewrite pad_shape_nth by (rewrite ?selD_length, ?sel_length; auto).
    rewrite !sel_nth, selD_nth, pad_shape_nth by lia. reflexivity.
  Qed.
  Lemma reflect_idx_sel sh pads idx : length sh = n -> length pads = n -> length idx = n ->
    reflect_idx (sel sh q) (selD (0, 0) pads q) (sel idx q) = sel (reflect_idx sh pads idx) q.
  Proof.
    intros. apply list_eq_nth; [rewrite reflect_idx_length; rewrite ?sel_length, ?selD_length; auto|].
    intros k Hk. rewrite reflect_idx_length, sel_length in Hk by (rewrite ?selD_length, ?sel_length; auto).
    pose proof (q_lt k Hk). rewrite reflect_idx_nth by (rewrite ?selD_length, ?sel_length; auto).
    rewrite !sel_nth, selD_nth, reflect_idx_nth by lia. reflexivity.
  Qed.

  Definition in_pad (sh : list nat) (pads : list (nat * nat)) (idx : list nat) (k : nat) : bool :=
    (fst (nth k pads (0, 0)) <=? nth k idx 0) && (nth k idx 0 - fst (nth k pads (0, 0)) <? nth k sh 0).
  Lemma unpad_char sh : forall pads idx, length pads = length sh -> length idx = length sh ->
    unpad sh pads idx =
    if forallb (in_pad sh pads idx) (seq 0 (length sh))
    then Some (map (fun k => nth k idx 0 - fst (nth k pads (0, 0))) (seq 0 (length sh))) else None.
  Proof.
    induction sh as [|d sh IH]; intros [|[a b] pads] [|i idx] L1 L2; cbn [length] in *; try lia; [reflexivity|].
    cbn [unpad seq forallb map]. rewrite <- seq_shift. rewrite IH by lia.
    assert (forall l, forallb (in_pad (d :: sh) ((a, b) :: pads) (i :: idx)) (map S l) = forallb (in_pad sh pads idx) l) as E.
    { induction l; [reflexivity|]. cbn [map forallb]. rewrite IHl. reflexivity. }
    rewrite E. change (in_pad (d :: sh) ((a, b) :: pads) (i :: idx) 0) with ((a <=? i) && (i - a <? d)). cbn [nth fst].
    destruct ((a <=? i) && (i - a <? d)); [|reflexivity]. cbn [andb].
    destruct (forallb (in_pad sh pads idx) (seq 0 (length sh))); [|reflexivity]. cbn [option_map]. f_equal. f_equal.
    rewrite map_map. reflexivity.
  Qed.
  Lemma forallb_perm {T} (P : T -> bool) l m : Permutation l m -> forallb P l = forallb P m.
  Proof.
    induction 1; simpl; auto; [now rewrite IHPermutation| |congruence]. now rewrite !andb_assoc, (andb_comm (P y)).
  Qed.
  Lemma map_seq_nth {T} (g : nat -> T) : map (fun k => g (nth k q 0)) (seq 0 n) = map g q.
  Proof.
    assert (map (fun k => nth k q 0) (seq 0 n) = q) as E.
    { apply list_eq_nth; [rewrite map_length, seq_length; auto|]. intros k Hk. rewrite map_length, seq_length in Hk.
      rewrite (nth_indep _ 0 (nth 0 q 0)) by (rewrite map_length, seq_length; auto).
      rewrite (map_nth (fun k => nth k q 0)). rewrite seq_nth by auto. reflexivity. }
    transitivity (map g (map (fun k => nth k q 0) (seq 0 n))); [now rewrite map_map|now rewrite E].
  Qed.
  Lemma forallb_seq_nth (P P' : nat -> bool) : (forall k, k < n -> P' k = P (nth k q 0)) ->
    forallb P' (seq 0 n) = forallb P (seq 0 n).
  Proof.
    intro H. rewrite <- (forallb_perm P _ _ Hq). rewrite <- (map_id q) at 1. rewrite <- (map_seq_nth (fun k => k)).
    assert (forall l, Forall (fun k => k < n) l -> forallb P' l = forallb P (map (fun k => nth k q 0) l)) as E.
    { induction 1; [reflexivity|]. cbn [forallb map]. rewrite H by auto. now rewrite IHForall. }
    apply E. apply Forall_forall. intros k Hk. apply in_seq in Hk. lia.
  Qed.
  Lemma unpad_sel sh pads idx : length sh = n -> length pads = n -> length idx = n ->
    unpad (sel sh q) (selD (0, 0) pads q) (sel idx q) = option_map (fun i => sel i q) (unpad sh pads idx) /\
    (forall i, unpad sh pads idx = Some i -> length i = n).
  Proof.
    intros L1 L2 L3. rewrite !unpad_char by (rewrite ?selD_length, ?sel_length; congruence).
    rewrite sel_length, Lq, L1. rewrite (forallb_seq_nth (in_pad sh pads idx)).
    2: { intros k Hk. unfold in_pad. rewrite !sel_nth, selD_nth by lia. reflexivity. }
    split; [|destruct (forallb _ _); [intros i [= <-]; rewrite map_length, seq_length; auto|discriminate]].
    destruct (forallb (in_pad sh pads idx) (seq 0 n)); [|reflexivity]. cbn [option_map]. f_equal.
    apply list_eq_nth; [rewrite map_length, seq_length, sel_length; auto|]. intros k Hk. rewrite map_length, seq_length in Hk.
    rewrite sel_nth by lia. pose proof (q_lt k ltac:(lia)) as Hl.
    rewrite !nth_map_seq by lia.
    rewrite !sel_nth, selD_nth by lia. reflexivity.
  Qed.
End Tables.

Theorem pt_pad_ok {A} (v : A) perm pads (x : tensor A) : is_perm (length (tshape x)) perm -> length pads = length (tshape x) ->
  exists pads', pt_table perm pads = Some pads' /\
  teq (transpose perm (pad_op v pads' (transpose (pt_inv perm) x))) (pad_op v pads x).
Proof.
  intros Hp L. eexists. split; [apply (pt_table_spec (0, 0) _ _ _ Hp L)|]. fold (selD (0, 0) pads (pt_inv perm)).
  pose proof (pt_inv_perm _ _ Hp) as Hq. apply pt_back with (n := length (tshape x)); auto.
  - cbn [pad_op tshape]. now rewrite pad_shape_length.
  - cbn [pad_op tshape transpose]. apply (pad_shape_sel _ _ Hq); auto.
  - intros j Lj V. cbn [pad_op tget]. cbn [transpose tshape]. destruct (unpad_sel _ _ Hq _ _ j eq_refl L Lj) as [-> Hl].
    destruct (unpad (tshape x) pads j) as [i|] eqn:E; cbn [option_map]; [|reflexivity].
    apply (transpose_get (pt_inv perm) x i _ Hq). apply Hl; auto.
Qed.
Theorem pt_mirror_pad_ok {A} perm pads (x : tensor A) : is_perm (length (tshape x)) perm -> length pads = length (tshape x) ->
  exists pads', pt_table perm pads = Some pads' /\
  teq (transpose perm (mirror_pad pads' (transpose (pt_inv perm) x))) (mirror_pad pads x).
Proof.
  intros Hp L. eexists. split; [apply (pt_table_spec (0, 0) _ _ _ Hp L)|]. fold (selD (0, 0) pads (pt_inv perm)).
  pose proof (pt_inv_perm _ _ Hp) as Hq. apply pt_back with (n := length (tshape x)); auto.
  - cbn [mirror_pad tshape]. now rewrite pad_shape_length.
  - cbn [mirror_pad tshape transpose]. apply (pad_shape_sel _ _ Hq); auto.
  - intros j Lj V. unfold mirror_pad. cbn [tget]. cbn [transpose tshape]. rewrite (reflect_idx_sel _ _ Hq) by auto.
    apply (transpose_get (pt_inv perm) x _ _ Hq). now rewrite reflect_idx_length.
Qed.
Theorem pt_tile_ok {A} perm m (x : tensor A) : is_perm (length (tshape x)) perm -> length m = length (tshape x) ->
  exists m', pt_table perm m = Some m' /\
  teq (transpose perm (tile m' (transpose (pt_inv perm) x))) (tile m x).
Proof.
  intros Hp L. eexists. split; [apply (pt_table_spec 0 _ _ _ Hp L)|]. fold (sel m (pt_inv perm)).
  pose proof (pt_inv_perm _ _ Hp) as Hq. apply pt_back with (n := length (tshape x)); auto.
  - cbn [tile tshape]. now rewrite zipmul_length.
  - cbn [tile tshape transpose]. apply (zipmul_sel _ _ Hq); auto.
  - intros j Lj V. unfold tile. cbn [tget]. cbn [transpose tshape]. rewrite (modidx_sel _ _ Hq) by auto.
    apply (transpose_get (pt_inv perm) x _ _ Hq). now rewrite modidx_length.
Qed.
Theorem pt_strided_slice_ok {A} perm s e st (x : tensor A) : is_perm (length (tshape x)) perm ->
  length s = length (tshape x) -> length e = length (tshape x) -> length st = length (tshape x) ->
  exists s' e' st', pt_table perm s = Some s' /\ pt_table perm e = Some e' /\ pt_table perm st = Some st' /\
  teq (transpose perm (strided_slice s' e' st' (transpose (pt_inv perm) x))) (strided_slice s e st x).
Proof.
  intros Hp L1 L2 L3. do 3 eexists. split; [apply (pt_table_spec 0 _ _ _ Hp L1)|]. split; [apply (pt_table_spec 0 _ _ _ Hp L2)|].
  split; [apply (pt_table_spec 0 _ _ _ Hp L3)|]. fold (sel s (pt_inv perm)). fold (sel e (pt_inv perm)). fold (sel st (pt_inv perm)).
  pose proof (pt_inv_perm _ _ Hp) as Hq. apply pt_back with (n := length (tshape x)); auto.
  - cbn [strided_slice tshape]. now rewrite slice_shape_length.
  - cbn [strided_slice tshape transpose]. apply (slice_shape_sel _ _ Hq); auto.
  - intros j Lj V. unfold strided_slice. cbn [tget]. rewrite (slice_idx_sel _ _ Hq) by auto.
    apply (transpose_get (pt_inv perm) x _ _ Hq). rewrite slice_idx_length; congruence.
Qed.
Theorem pt_slice_ok {A} perm b z (x : tensor A) : is_perm (length (tshape x)) perm ->
  length b = length (tshape x) -> length z = length (tshape x) ->
  exists b' z', pt_table perm b = Some b' /\ pt_table perm z = Some z' /\
  teq (transpose perm (slice_op b' z' (transpose (pt_inv perm) x))) (slice_op b z x).
Proof.
  intros Hp L1 L2. do 2 eexists. split; [apply (pt_table_spec 0 _ _ _ Hp L1)|]. split; [apply (pt_table_spec 0 _ _ _ Hp L2)|].
  fold (sel b (pt_inv perm)). fold (sel z (pt_inv perm)).
  pose proof (pt_inv_perm _ _ Hp) as Hq. apply pt_back with (n := length (tshape x)); auto.
  intros j Lj V. unfold slice_op. cbn [tget]. rewrite (zip_plus_sel _ _ Hq) by auto.
  apply (transpose_get (pt_inv perm) x _ _ Hq). rewrite zip_plus_length; congruence.
Qed.

(* ------------------------------------------------------------------ *)
(** * Reductions *)

Lemma NoDup_app_intro {T} (l m : list T) : NoDup l -> NoDup m -> (forall a, In a l -> In a m -> False) -> NoDup (l ++ m).
Proof.
  induction 1 as [|a l Ha Hl IH]; intros Hm H; [auto|]. cbn [app]. constructor.
  - rewrite in_app_iff. intros [H1|H1]; [auto|]. apply (H a); simpl; auto.
  - apply IH; auto. intros b Hb. apply H; simpl; auto.
Qed.

Lemma indices_NoDup s : NoDup (indices s).
Proof.
  induction s as [|d s IH]; [constructor; [intros []|constructor]|]. cbn [indices].
  assert (forall a m, NoDup (flat_map (fun i => map (cons i) (indices s)) (seq a m))) as H; [|apply H].
  intros a m. revert a. induction m as [|m IHm]; intro a; [constructor|]. cbn [seq flat_map]. apply NoDup_app_intro.
  - apply NoDup_map_inj; auto. intros u v _ _ [= ->]. reflexivity.
  - apply IHm.
  - intros u Hu Hv. apply in_map_iff in Hu. destruct Hu as (r & <- & _). apply in_flat_map in Hv. destruct Hv as (b & Hb & Hv).
    apply in_map_iff in Hv. destruct Hv as (r' & [= E _] & _). apply in_seq in Hb. lia.
Qed.
Lemma indices_sel n s q : is_perm n q -> length s = n -> Permutation (indices (sel s q)) (map (fun i => sel i q) (indices s)).
Proof.
  intros Hq L. apply NoDup_Permutation.
  - apply indices_NoDup.
  - apply NoDup_map_inj; [|apply indices_NoDup]. intros a b Ha Hb E. apply indices_valid, valid_length in Ha, Hb.
    rewrite <- (sel_inv_r a q), <- (sel_inv_r b q), E by (rewrite ?Ha, ?Hb, L; auto). reflexivity.
  - intro i. rewrite in_map_iff, indices_valid. split.
    + intro V. exists (sel i (inv_perm q)). split.
      * apply sel_inv_l. rewrite (valid_length _ _ V), sel_length, (is_perm_length _ _ Hq). auto.
      * apply indices_valid. apply valid_transpose_inv; auto. now rewrite L.
    + intros (j & <- & Hj). apply indices_valid in Hj. apply valid_sel; auto. rewrite L. apply is_perm_Forall; auto.
Qed.
Lemma filter_perm {T} (P : T -> bool) l m : Permutation l m -> Permutation (filter P l) (filter P m).
Proof.
  induction 1; simpl; auto; [destruct (P x); auto| |eapply perm_trans; eauto].
  destruct (P x), (P y); auto. apply perm_swap.
Qed.
Lemma filter_map_comm {T U} (f : T -> U) (P : U -> bool) l : filter P (map f l) = map f (filter (fun a => P (f a)) l).
Proof. induction l; simpl; auto. destruct (P (f a)); simpl; now rewrite IHl. Qed.

Lemma pt_axes_spec n perm axes : is_perm n perm -> Forall (fun a => a < n) axes ->
  pt_axes perm axes = Some (map (fun a => find_pos a (pt_inv perm)) axes).
Proof.
  intros Hp. induction 1 as [|a axes Ha HF IH]; [reflexivity|]. cbn [pt_axes map]. rewrite IH.
  change (np_where a (pt_inv perm)) with (pt_axis perm a). rewrite (pt_axis_spec _ _ _ Hp Ha). reflexivity.
Qed.
Lemma fold_upd_length axes : forall s, length (fold_left (fun s k => upd s k 1) axes s) = length s.
Proof. induction axes; intro s; cbn [fold_left]; auto. rewrite IHaxes. apply upd_length. Qed.
Lemma fold_upd_sel n q axes : is_perm n q -> Forall (fun a => a < n) axes -> forall s, length s = n ->
  fold_left (fun s k => upd s k 1) (map (fun a => find_pos a q) axes) (sel s q) = sel (fold_left (fun s k => upd s k 1) axes s) q.
Proof.
  intros Hq. induction 1 as [|a axes Ha HF IH]; intros s L; [reflexivity|]. cbn [map fold_left].
  rewrite (sel_upd _ _ _ _ _ Hq L Ha). apply IH. now rewrite upd_length.
Qed.
Lemma agree_off_sel n q axes i j : is_perm n q -> Forall (fun a => a < n) axes -> length i = n -> length j = n ->
  agree_off (map (fun a => find_pos a q) axes) (sel i q) (sel j q) = agree_off axes i j.
Proof.
  intros Hq HF Li Lj. unfold agree_off. rewrite sel_length, (is_perm_length _ _ Hq), Li.
  apply (forallb_seq_nth n q Hq). intros k Hk. pose proof (is_perm_length _ _ Hq) as Lq.
  rewrite !sel_nth by lia. f_equal. clear Li Lj.
  induction HF as [|a axes Ha HF IH]; [reflexivity|]. cbn [map existsb]. rewrite IH. f_equal.
  assert (In a q) as Hin by (apply (is_perm_in n); auto).
  destruct (Nat.eqb_spec k (find_pos a q)) as [->|N].
  - rewrite nth_find_pos by auto. now rewrite Nat.eqb_refl.
  - destruct (Nat.eqb_spec (nth k q 0) a) as [E|]; [|reflexivity]. exfalso. apply N. rewrite <- E. symmetry. apply find_pos_nth; [|lia].
    eapply is_perm_NoDup; eauto.
Qed.

Theorem pt_reduce_ok {A B} (red : list A -> B) perm axes (x : tensor A) :
  (forall l m, Permutation l m -> red l = red m) ->
  is_perm (length (tshape x)) perm -> Forall (fun a => a < length (tshape x)) axes ->
  exists axes', pt_axes perm axes = Some axes' /\
  teq (transpose perm (reduce red axes' (transpose (pt_inv perm) x))) (reduce red axes x).
Proof.
  intros Hr Hp HF. eexists. split; [eapply pt_axes_spec; eauto|]. pose proof (pt_inv_perm _ _ Hp) as Hq.
  apply pt_back with (n := length (tshape x)); auto.
  - cbn [reduce tshape]. apply fold_upd_length.
  - cbn [reduce tshape transpose]. apply (fold_upd_sel _ _ _ Hq HF). reflexivity.
  - intros j L V. unfold reduce. cbn [tget]. apply Hr. cbn [transpose tshape].
    set (q := pt_inv perm) in *. set (n := length (tshape x)) in *.
    eapply perm_trans; [apply Permutation_map, filter_perm, (indices_sel n _ _ Hq eq_refl)|].
    rewrite filter_map_comm, map_map.
    rewrite (filter_ext_in _ (agree_off axes j)).
    2: { intros i Hi. apply indices_valid, valid_length in Hi. apply (agree_off_sel n); auto. }
    erewrite map_ext_in; [apply Permutation_refl|]. intros i Hi. apply filter_In in Hi. destruct Hi as [Hi _].
    apply indices_valid, valid_length in Hi. apply (transpose_get q x i n Hq). auto.
Qed.
