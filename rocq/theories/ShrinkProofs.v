(** A shrunk chain of layers computes the masked chain on the kept channels (C39). *)
From Coq Require Import List Arith ZArith Bool Reals Lra Lia Permutation.
From Verif Require Import Tensor ConvSpec FuseModel FuseProofs QuantModel QuantProofs QModModel QModProofs PruneModel SetOrderProofs SetTermProofs OrderProofs ShrinkModel.
Import ListNotations.
Local Open Scope R_scope.

(* ------------------------------------------------------------------ *)
(** * Vocabulary *)

Definition lbias (b : option (list R)) (o : nat) : R := match b with Some b => nth o b 0 | None => 0 end.
Definition run_pl (l : pl) (x : tensor R) : tensor R :=
  match l with
  | PlConv a w b => conv a x w (lbias b)
  | PlDeconv a os w b => deconv a os x w (lbias b)
  | PlLinear w b => fc x w (lbias b)
  | PlBn p => run_bn p ANone x
  | PlPrelu w => prelu_spec (fun c => nth c w 0) x
  | PlChan sh f => let dims := skipn 2 (tshape x) in
      mkT (nth 0 (tshape x) 0%nat :: nth 1 (tshape x) 0%nat :: sh dims)
          (fun idx => f dims (fun q => tget x (nth 0 idx 0%nat :: nth 1 idx 0%nat :: q)) (skipn 2 idx))
  | PlFlatten => reshape [nth 0 (tshape x) 0%nat; prod (tl (tshape x))] x
  end.
Definition run_pls (ls : list pl) (x : tensor R) : tensor R := fold_left (fun x l => run_pl l x) ls x.

(** the kept channels of an axis of size [n] in the order the code stores them; an axis that loses
    nothing is left alone *)
Definition kept_list (n : nat) (r : list nat) : list nat :=
  match complementary_list n r with
  | Some l => if (n =? length l)%nat then seq 0 n else l
  | None => []
  end.
(** the kept channels of [x] *)
Definition restrict (r : list nat) (x : tensor R) : tensor R := gather 1 (kept_list (nth 1 (tshape x) 0%nat) r) x.

(** balanced removal from [G] groups of [width] channels: [k] channels [per g] of each group *)
Definition balanced (G width k : nat) (per : nat -> list nat) (r : list nat) : Prop :=
  r = concat (map (fun g => map (fun x => width * g + x)%nat (per g)) (seq 0 G)) /\
  forall g, (g < G)%nat -> length (per g) = k /\ NoDup (per g) /\ Forall (fun x => (x < width)%nat) (per g) /\
                           few_removed width (per g).

(** conditions on a layer in the chain, [s] the shape of its operand *)
Definition spatial_ok (a : conv_attr) (s ks : list nat) : Prop :=
  let n := length (skipn 2 s) in
  (2 <= length s)%nat /\ length ks = n /\ length (ca_stride a) = n /\ length (ca_dil a) = n /\
  length (ca_pad a) = n /\ length (ca_pad_end a) = n.
Definition layer_ok (ri ro : list nat) (l : pl) (s : list nat) : Prop :=
  match l with
  | PlConv a w _ =>
      exists cout ipg ks, tshape w = cout :: ipg :: ks /\ spatial_ok a s ks /\
        nth 1 s 0%nat = (ipg * ca_groups a)%nat /\ (0 < ca_groups a)%nat /\
        if is_dw_conv a w then ro = ri
        else ca_groups a = 1%nat \/
             exists k pi k' po, (0 < ipg)%nat /\ (cout mod ca_groups a = 0)%nat /\
               balanced (ca_groups a) ipg k pi ri /\ few_removed (ipg * ca_groups a)%nat ri /\
               balanced (ca_groups a) (cout / ca_groups a)%nat k' po ro /\ few_removed cout ro
  | PlDeconv a os w _ =>
      exists cin cout ks, tshape w = cin :: cout :: ks /\ (2 <= length s)%nat /\ nth 1 s 0%nat = cin /\ ca_groups a = 1%nat
  | PlLinear w _ => exists n fo fi, tshape w = [fo; fi] /\ s = [n; fi]
  | PlBn p => (2 <= length s)%nat /\ length (bn_w p) = nth 1 s 0%nat /\ ro = ri
  | PlPrelu w => (2 <= length s)%nat /\ length w = nth 1 s 0%nat /\ ro = ri
  | PlChan sh f => (2 <= length s)%nat /\ ro = ri /\
      forall g h pos, (forall q, valid (skipn 2 s) q -> g q = h q) -> valid (sh (skipn 2 s)) pos ->
        f (skipn 2 s) g pos = f (skipn 2 s) h pos
  | PlFlatten => (2 <= length s)%nat /\ (0 < prod (skipn 2 s))%nat /\ ro = flat (prod (skipn 2 s)) ri /\
      few_removed (nth 1 s 0%nat) ri /\ few_removed (nth 1 s 0 * prod (skipn 2 s))%nat ro
  end.
(** a chain: the removed outputs of a layer are the removed inputs of the next *)
Fixpoint chain_ok (net : pnet) (ri : list nat) (x : tensor R) : Prop :=
  match net with
  | [] => True
  | (l, (ri', ro)) :: r => ri' = ri /\ layer_ok ri ro l (tshape x) /\ chain_ok r ro (run_pl (mask_layer ri ro l) x)
  end.
Fixpoint last_removed (net : pnet) (ri : list nat) : list nat :=
  match net with [] => ri | (_, (_, ro)) :: r => last_removed r ro end.

(* ------------------------------------------------------------------ *)
(** * Kept lists *)

Lemma filter_short {A} (p : A -> bool) l : (length (filter p l) <= length l)%nat.
Proof. induction l as [|a l IH]; cbn [filter length]; trivial. destruct (p a); cbn [length]; lia. Qed.
Lemma filter_full {A} (p : A -> bool) l : length (filter p l) = length l -> filter p l = l.
Proof.
  induction l as [|a l IH]; cbn [filter length]; trivial. pose proof (filter_short p l).
  destruct (p a); cbn [length]; intro H0; [f_equal; apply IH; lia|lia].
Qed.
Lemma kept_list_perm n r : Permutation (kept_list n r) (kept n r).
Proof.
  unfold kept_list. destruct (complementary_list_correct n r) as (l & -> & P & _).
  destruct (Nat.eqb_spec n (length l)) as [E|E]; [|exact P].
  replace (kept n r) with (seq 0 n); [apply Permutation_refl|]. symmetry. rewrite kept_unfold. apply filter_full.
  rewrite <- kept_unfold, <- (Permutation_length P), seq_length. auto.
Qed.
Lemma kept_list_asc n r : few_removed n r -> kept_list n r = kept n r.
Proof.
  intro H. pose proof (kept_list_perm n r) as Q. unfold kept_list in *.
  destruct (complementary_list_correct n r) as (l & E & P & A). rewrite E in *. specialize (A H). subst l.
  destruct (Nat.eqb_spec n (length (kept n r))) as [L|L]; [|reflexivity].
  symmetry. rewrite kept_unfold. apply filter_full. rewrite <- kept_unfold, seq_length. auto.
Qed.
Lemma kept_In n r c : In c (kept n r) <-> (c < n)%nat /\ ~ In c r.
Proof.
  rewrite kept_unfold, filter_In, in_seq, negb_true_iff. split.
  - intros (H & Q). split; [lia|]. intro C. apply nmem_In in C. congruence.
  - intros (H & Q). split; [lia|]. destruct (nmem c r) eqn:E; trivial. apply nmem_In in E. tauto.
Qed.
Lemma kept_list_In n r c : In c (kept_list n r) <-> (c < n)%nat /\ ~ In c r.
Proof.
  rewrite <- kept_In. split; apply Permutation_in; [|apply Permutation_sym]; apply kept_list_perm.
Qed.
Lemma kept_list_NoDup n r : NoDup (kept_list n r).
Proof.
  apply (Permutation_NoDup (Permutation_sym (kept_list_perm n r))). rewrite kept_unfold.
  apply NoDup_filter, seq_NoDup.
Qed.
Lemma kept_list_nth n r i : (i < length (kept_list n r))%nat ->
  (nth i (kept_list n r) 0 < n)%nat /\ ~ In (nth i (kept_list n r) 0%nat) r.
Proof. intro H. apply kept_list_In. apply nth_In. exact H. Qed.

(** cutting an axis, with the test whether anything is removed *)
Lemma cut_ok ax n r l (w : tensor R) : complementary_list n r = Some l -> nth ax (tshape w) 0%nat = n ->
  (ax < length (tshape w))%nat ->
  teq (if (n =? length l)%nat then w else gather ax l w) (gather ax (kept_list n r) w).
Proof.
  intros E Hn Hax. unfold kept_list. rewrite E. destruct (Nat.eqb_spec n (length l)) as [L|L].
  - unfold gather. split; cbn [tshape tget].
    + rewrite seq_length, <- Hn, upd_same by exact Hax. reflexivity.
    + intros idx V. pose proof (valid_nth _ _ ax V Hax) as Q. rewrite Hn in Q. rewrite seq_nth by exact Q.
      cbn [Nat.add]. rewrite upd_same; [reflexivity|]. rewrite (valid_length _ _ V). exact Hax.
  - split; [reflexivity|]. intros; reflexivity.
Qed.
Lemma cut_list n r l (b : list R) i : complementary_list n r = Some l -> (i < length (kept_list n r))%nat ->
  nth i (if (n =? length l)%nat then b else lgather l b) 0 = nth (nth i (kept_list n r) 0%nat) b 0.
Proof.
  intros E. unfold kept_list. rewrite E. destruct (Nat.eqb_spec n (length l)) as [L|L]; intro Hi.
  - rewrite seq_length in Hi. rewrite seq_nth by exact Hi. reflexivity.
  - unfold lgather. rewrite (nth_indep _ 0 (nth 0%nat b 0)) by (rewrite map_length; exact Hi).
    rewrite (map_nth (fun k => nth k b 0)). reflexivity.
Qed.
Lemma cut_bias n r l (b : option (list R)) i : complementary_list n r = Some l -> (i < length (kept_list n r))%nat ->
  lbias (if (n =? length l)%nat then b else option_map (lgather l) b) i = lbias b (nth i (kept_list n r) 0%nat).
Proof.
  intros E Hi. pose proof (cut_list n r l) as Q. destruct b as [b|]; [specialize (Q b i E Hi)|];
    destruct (n =? length l)%nat; cbn [option_map lbias] in *; trivial.
Qed.
Lemma lmask_nth r l c : ~ In c r -> nth c (lmask r l) 0 = nth c l 0.
Proof.
  intro H. unfold lmask. destruct (Nat.lt_ge_cases c (length l)) as [L|L].
  - rewrite nth_map_seq by exact L. destruct (nmem c r) eqn:E; trivial. apply nmem_In in E. tauto.
  - rewrite !nth_overflow; trivial. rewrite map_length, seq_length. exact L.
Qed.
Lemma lmask_bias r b c : ~ In c r -> lbias (option_map (lmask r) b) c = lbias b c.
Proof. intro H. destruct b; cbn [option_map lbias]; [apply lmask_nth; exact H|reflexivity]. Qed.
Lemma nmem_false c r : ~ In c r -> nmem c r = false.
Proof. intro H. destruct (nmem c r) eqn:E; trivial. apply nmem_In in E. tauto. Qed.

(* ------------------------------------------------------------------ *)
(** * Sums over kept channels *)

Lemma lsum_perm {A} (l l' : list A) f : Permutation l l' -> lsum l f = lsum l' f.
Proof.
  induction 1 as [|x l l' _ IH|x y l|l l' l'' _ IH1 _ IH2]; trivial.
  - rewrite !lsum_cons, IH. reflexivity.
  - rewrite !lsum_cons. ring.
  - congruence.
Qed.
Lemma lsum_support n J f : NoDup J -> (forall i, In i J -> (i < n)%nat) ->
  (forall i, (i < n)%nat -> ~ In i J -> f i = 0) -> lsum (seq 0 n) f = lsum J f.
Proof.
  intros HN HJ Hz. transitivity (lsum (filter (fun i => nmem i J) (seq 0 n)) f).
  - rewrite lsum_filter. apply lsum_ext. intros i Hi. apply in_seq in Hi. destruct (nmem i J) eqn:E; trivial.
    apply Hz; [lia|]. intro C. apply nmem_In in C. congruence.
  - apply lsum_perm. apply NoDup_Permutation; trivial; [apply NoDup_filter, seq_NoDup|].
    intro i. rewrite filter_In, in_seq, nmem_In. split; [tauto|]. intro H. split; trivial. specialize (HJ i H). lia.
Qed.
Lemma lsum_nth (J : list nat) f : lsum J f = lsum (seq 0 (length J)) (fun i => f (nth i J 0%nat)).
Proof.
  rewrite <- (lsum_map (fun i => nth i J 0%nat) (seq 0 (length J)) f). f_equal.
  induction J as [|j J IH]; [reflexivity|]. cbn [length seq map nth]. f_equal. rewrite IH at 1.
  rewrite <- seq_shift, map_map. apply map_ext. reflexivity.
Qed.

Lemma tap_valid : forall dims st dil pad pos k q, length st = length dims -> length dil = length dims ->
  length pad = length dims -> length pos = length dims -> length k = length dims ->
  tap dims st dil pad pos k = Some q -> valid dims q.
Proof.
  induction dims as [|d dims IH]; intros [|s st] [|l dil] [|p pad] [|o pos] [|t k] q H1 H2 H3 H4 H5 H; cbn in H1, H2, H3, H4, H5; try lia.
  - injection H as <-. constructor.
  - cbn [tap] in H. destruct ((p <=? o * s + t * l) && (o * s + t * l - p <? d))%nat eqn:E; [|discriminate].
    apply andb_prop in E. destruct E as (_ & E). apply Nat.ltb_lt in E.
    destruct (tap dims st dil pad pos k) as [q'|] eqn:T; [|discriminate]. cbn [option_map] in H. injection H as <-.
    constructor; trivial. apply (IH st dil pad pos k); trivial; lia.
Qed.
Lemma out_dims_length : forall dims st dil pb pe ks, length st = length dims -> length dil = length dims ->
  length pb = length dims -> length pe = length dims -> length ks = length dims ->
  length (out_dims dims st dil pb pe ks) = length dims.
Proof.
  induction dims as [|d dims IH]; intros [|s st] [|l dil] [|p pb] [|o pe] [|t k] H1 H2 H3 H4 H5; cbn in H1, H2, H3, H4, H5 |- *; try lia.
  f_equal. apply IH; lia.
Qed.

(* ------------------------------------------------------------------ *)
(** * One output element of a convolution *)

Lemma gather1_get (KI : list nat) (x xs : tensor R) n c q : teq xs (gather 1 KI x) -> (2 <= length (tshape x))%nat ->
  (n < nth 0 (tshape x) 0)%nat -> (c < length KI)%nat -> valid (skipn 2 (tshape x)) q ->
  tget xs (n :: c :: q) = tget x (n :: nth c KI 0%nat :: q).
Proof.
  intros (HS & HG) H2 Hn Hc V. rewrite HG; [reflexivity|]. rewrite HS. cbn [gather tshape].
  destruct (tshape x) as [|a [|b r]]; cbn [length] in H2; try lia. cbn in *. constructor; trivial. constructor; trivial.
Qed.
Lemma gather1_shape (KI : list nat) (x xs : tensor R) : teq xs (gather 1 KI x) -> (2 <= length (tshape x))%nat ->
  nth 0 (tshape xs) 0%nat = nth 0 (tshape x) 0%nat /\ nth 1 (tshape xs) 0%nat = length KI /\
  skipn 2 (tshape xs) = skipn 2 (tshape x) /\ length (tshape xs) = length (tshape x).
Proof.
  intros (HS & _) H2. rewrite HS. cbn [gather tshape]. destruct (tshape x) as [|a [|b r]]; cbn [length] in H2; try lia.
  cbn. auto.
Qed.

Lemma conv_restrict a a2 (x xs w wm w2 : tensor R) bm b2 KI J n o' o pos cout ipg cout' ipg' ks :
  ca_stride a2 = ca_stride a -> ca_dil a2 = ca_dil a -> ca_pad a2 = ca_pad a ->
  tshape wm = cout :: ipg :: ks -> tshape w2 = cout' :: ipg' :: ks ->
  teq xs (gather 1 KI x) -> spatial_ok a (tshape x) ks -> (n < nth 0 (tshape x) 0)%nat ->
  length pos = length (skipn 2 (tshape x)) ->
  length J = ipg' -> NoDup J -> (forall i, In i J -> (i < ipg)%nat) ->
  (forall i, (i < ipg')%nat -> (o' / (cout' / ca_groups a2) * ipg' + i < length KI)%nat /\
     nth (o' / (cout' / ca_groups a2) * ipg' + i) KI 0%nat = (o / (cout / ca_groups a) * ipg + nth i J 0)%nat) ->
  (forall i k, (i < ipg')%nat -> valid ks k -> tget w2 (o' :: i :: k) = tget wm (o :: nth i J 0%nat :: k)) ->
  (forall i k, (i < ipg)%nat -> ~ In i J -> valid ks k -> tget wm (o :: i :: k) = 0) ->
  b2 o' = bm o ->
  tget (conv a2 xs w2 b2) (n :: o' :: pos) = tget (conv a x wm bm) (n :: o :: pos).
Proof.
  intros E1 E2 E3 Hm H2 Hx (L2 & Lk & Ls & Ld & Lp & Le) Hn Lpos HJ ND HJi HKI Hw Hz Hb.
  destruct (gather1_shape _ _ _ Hx L2) as (S0 & S1 & S2 & _).
  unfold conv. rewrite Hm, H2, S2, E1, E2, E3. cbn [tget nth skipn]. rewrite Hb. f_equal.
  rewrite (lsum_support ipg J _ ND HJi).
  2:{ intros i Hi Hin. apply lsum_zero. intros k Hk. apply indices_valid in Hk. rewrite Hz by trivial. ring. }
  rewrite (lsum_nth J), HJ. apply lsum_ext. intros i Hi. apply in_seq in Hi. destruct (HKI i ltac:(lia)) as (K1 & K2).
  apply lsum_ext. intros k Hk. apply indices_valid in Hk. rewrite (Hw i k) by (trivial; lia). f_equal.
  destruct tap as [q|] eqn:T; [|reflexivity]. cbn [read0].
  assert (Vq : valid (skipn 2 (tshape x)) q)
    by (apply (tap_valid _ _ _ _ _ _ _ Ls Ld Lp Lpos ltac:(rewrite (valid_length _ _ Hk); exact Lk) T)).
  rewrite (gather1_get KI x xs _ _ _ Hx L2 Hn K1 Vq).
  rewrite K2. reflexivity.
Qed.

(* ------------------------------------------------------------------ *)
(** * Layers *)

Lemma teq_upd_valid (ax : nat) (w w' : tensor R) keep : teq w' (gather ax keep w) -> forall idx, valid (tshape w') idx ->
  tget w' idx = tget w (upd idx ax (nth (nth ax idx 0%nat) keep 0%nat)).
Proof. intros (_ & G) idx V. rewrite (G idx V). reflexivity. Qed.

(** goal form of a layer lemma: restriction of the masked output *)
Definition kept_out (K : list nat) (y' y : tensor R) : Prop := teq y' (gather 1 K y).
Lemma kept_out_intro K (y' y : tensor R) : (2 <= length (tshape y))%nat ->
  nth 0 (tshape y') 0%nat = nth 0 (tshape y) 0%nat -> nth 1 (tshape y') 0%nat = length K ->
  skipn 2 (tshape y') = skipn 2 (tshape y) -> (2 <= length (tshape y'))%nat ->
  (forall n o pos, (n < nth 0 (tshape y) 0)%nat -> (o < length K)%nat -> valid (skipn 2 (tshape y)) pos ->
     tget y' (n :: o :: pos) = tget y (n :: nth o K 0%nat :: pos)) -> kept_out K y' y.
Proof.
  intros H2 S0 S1 S2 H2' G. split.
  - cbn [gather tshape]. destruct (tshape y) as [|a [|b r]], (tshape y') as [|a' [|b' r']]; cbn [length] in H2, H2'; try lia.
    cbn in *. congruence.
  - intros idx V. cbn [gather tget]. destruct (tshape y) as [|a [|b r]], (tshape y') as [|a' [|b' r']]; cbn [length] in H2, H2'; try lia.
    cbn in *. subst. inversion V as [|n d r0 s0 Hn V1]; subst idx d s0. inversion V1 as [|c d r1 s1 Hc V2]; subst r0 d s1.
    cbn [nth upd]. apply G; trivial.
Qed.

Lemma is_dw_spec a w cout ipg ks : tshape w = cout :: ipg :: ks -> (0 < ca_groups a)%nat ->
  is_dw_conv a w = true -> cout = ca_groups a /\ ipg = 1%nat.
Proof.
  intros Hw HG H. unfold is_dw_conv in H. rewrite Hw in H. cbn [nth] in H. apply andb_prop in H. destruct H as (H1 & H2).
  apply Nat.eqb_eq in H1. apply Nat.eqb_eq in H2. split; nia.
Qed.

Lemma dw_restrict a (w x xs : tensor R) b ri l' cout ipg ks :
  tshape w = cout :: ipg :: ks -> spatial_ok a (tshape x) ks -> nth 1 (tshape x) 0%nat = (ipg * ca_groups a)%nat ->
  (0 < ca_groups a)%nat -> is_dw_conv a w = true ->
  shrink_conv ri ri a w b = Some l' -> teq xs (restrict ri x) ->
  kept_out (kept_list cout ri) (run_pl l' xs) (run_pl (mask_conv ri ri a w b) x).
Proof.
  intros Hw Sp Hc HG Hdw E Hx. destruct (is_dw_spec _ _ _ _ _ Hw HG Hdw) as (-> & ->).
  unfold shrink_conv in E. unfold mask_conv. rewrite Hdw, Hw in *. cbn [nth] in E.
  destruct (complementary_list (ca_groups a) ri) as [keep|] eqn:EK; [|discriminate]. cbn [obind] in E.
  unfold restrict in Hx. rewrite Hc, Nat.mul_1_l in Hx.
  pose proof (cut_ok 0 (ca_groups a) ri keep w EK ltac:(rewrite Hw; reflexivity) ltac:(rewrite Hw; cbn; lia)) as CW.
  pose proof (fun i => cut_bias (ca_groups a) ri keep b i EK) as CB.
  assert (Q : exists a2 w2 b2, l' = PlConv a2 w2 b2 /\ ca_stride a2 = ca_stride a /\ ca_dil a2 = ca_dil a /\
    ca_pad a2 = ca_pad a /\ ca_pad_end a2 = ca_pad_end a /\ ca_groups a2 = length (kept_list (ca_groups a) ri) /\
    teq w2 (gather 0 (kept_list (ca_groups a) ri) w) /\
    forall i, (i < length (kept_list (ca_groups a) ri))%nat -> lbias b2 i = lbias b (nth i (kept_list (ca_groups a) ri) 0%nat)).
  { destruct (Nat.eqb_spec (ca_groups a) (length keep)) as [L|L]; injection E as <-; do 3 eexists; (split; [reflexivity|]);
      cbn [ca_stride ca_dil ca_pad ca_pad_end ca_groups]; repeat (split; [reflexivity|]); (split; [|split; [exact CW|exact CB]]).
    - unfold kept_list. rewrite EK, <- L, Nat.eqb_refl, seq_length. reflexivity.
    - unfold kept_list. rewrite EK. destruct (Nat.eqb_spec (ca_groups a) (length keep)); [lia|reflexivity]. }
  destruct Q as (a2 & w2 & b2 & -> & A1 & A2 & A3 & A4 & A5 & W2 & B2). set (K := kept_list (ca_groups a) ri) in *.
  pose proof Sp as (L2 & Lk & Ls & Ld & Lp & Le). destruct (gather1_shape _ _ _ Hx L2) as (S0 & S1 & S2 & S3).
  assert (Sw2 : tshape w2 = length K :: 1%nat :: ks) by (rewrite (proj1 W2); cbn [gather tshape]; rewrite Hw; reflexivity).
  apply kept_out_intro; cbn [run_pl conv tshape tmask nth]; rewrite ?Sw2, ?Hw; cbn [nth length]; try lia; trivial.
  - rewrite A1, A2, A3, A4, S2. reflexivity.
  - intros n o pos Hn Ho V. pose proof (kept_list_nth _ _ _ Ho) as (N1 & N2). fold K in N1, N2.
    assert (LP : length pos = length (skipn 2 (tshape x))).
    { rewrite (valid_length _ _ V). apply out_dims_length; trivial. }
    eapply (conv_restrict a a2 x xs w _ w2 _ _ K [0%nat] n o (nth o K 0%nat) pos (ca_groups a) 1 (length K) 1 ks); trivial.
    + constructor; [intros []|constructor].
    + intros i [<-|[]]. lia.
    + intros i Hi. replace i with 0%nat by lia. rewrite A5, !Nat.div_same, !Nat.div_1_r by lia.
      cbn [nth]. rewrite !Nat.mul_1_r, !Nat.add_0_r. split; [exact Ho|reflexivity].
    + intros i k Hi Vk. replace i with 0%nat by lia. cbn [nth tget tmask].
      rewrite (teq_upd_valid 0 w w2 K W2); [|rewrite Sw2; constructor; [exact Ho|constructor; [lia|exact Vk]]].
      cbn [upd nth]. rewrite nmem_false by exact N2. reflexivity.
    + intros i k Hi Hin _. exfalso. apply Hin. left. lia.
    + rewrite B2 by exact Ho. symmetry. apply lmask_bias. exact N2.
Qed.

(** the two cuts of a weight *)
Lemma cut2 (w w1 w2 : tensor R) a b ks ki ko : tshape w = a :: b :: ks ->
  teq w1 (gather 1 ki w) -> teq w2 (gather 0 ko w1) -> Forall (fun o => (o < a)%nat) ko ->
  tshape w2 = length ko :: length ki :: ks /\
  forall o i k, (o < length ko)%nat -> (i < length ki)%nat -> valid ks k ->
    tget w2 (o :: i :: k) = tget w (nth o ko 0%nat :: nth i ki 0%nat :: k).
Proof.
  intros Hw T1 T2 F. assert (S1 : tshape w1 = a :: length ki :: ks) by (rewrite (proj1 T1); cbn [gather tshape]; rewrite Hw; reflexivity).
  assert (S2 : tshape w2 = length ko :: length ki :: ks) by (rewrite (proj1 T2); cbn [gather tshape]; rewrite S1; reflexivity).
  split; [exact S2|]. intros o i k Ho Hi V.
  rewrite (teq_upd_valid 0 w1 w2 ko T2) by (rewrite S2; repeat (constructor; trivial)). cbn [upd nth].
  rewrite (teq_upd_valid 1 w w1 ki T1); [reflexivity|]. rewrite S1. constructor; [|constructor; trivial].
  rewrite Forall_forall in F. apply F. apply nth_In. exact Ho.
Qed.
Lemma kept_list_lt n r : Forall (fun o => (o < n)%nat) (kept_list n r).
Proof. apply Forall_forall. intros c H. apply kept_list_In in H. tauto. Qed.

Lemma conv1_restrict a (w x xs : tensor R) b ri ro l' cout ipg ks :
  tshape w = cout :: ipg :: ks -> spatial_ok a (tshape x) ks -> nth 1 (tshape x) 0%nat = (ipg * ca_groups a)%nat ->
  ca_groups a = 1%nat -> is_dw_conv a w = false ->
  shrink_conv ri ro a w b = Some l' -> teq xs (restrict ri x) ->
  kept_out (kept_list cout ro) (run_pl l' xs) (run_pl (mask_conv ri ro a w b) x).
Proof.
  intros Hw Sp Hc HG Hdw E Hx. unfold shrink_conv in E. unfold mask_conv. rewrite Hdw, HG, Hw in *. cbn [nth Nat.eqb] in E.
  destruct (complementary_list ipg ri) as [ki|] eqn:EI; [|discriminate]. cbn [obind] in E.
  destruct (complementary_list cout ro) as [ko|] eqn:EO; [|discriminate]. cbn [obind] in E.
  unfold restrict in Hx. rewrite Hc, Nat.mul_1_r in Hx.
  set (w1 := if (ipg =? length ki)%nat then w else gather 1 ki w) in *.
  assert (C1 : teq w1 (gather 1 (kept_list ipg ri) w))
    by (apply cut_ok; [exact EI|rewrite Hw; reflexivity|rewrite Hw; cbn; lia]).
  assert (S1 : tshape w1 = cout :: length (kept_list ipg ri) :: ks) by (rewrite (proj1 C1); cbn [gather tshape]; rewrite Hw; reflexivity).
  pose proof (cut_ok 0 cout ro ko w1 EO ltac:(rewrite S1; reflexivity) ltac:(rewrite S1; cbn; lia)) as C0.
  pose proof (fun i => cut_bias cout ro ko b i EO) as CB.
  assert (Q : exists w2 b2, l' = PlConv a w2 b2 /\ teq w2 (gather 0 (kept_list cout ro) w1) /\
    forall i, (i < length (kept_list cout ro))%nat -> lbias b2 i = lbias b (nth i (kept_list cout ro) 0%nat)).
  { destruct (cout =? length ko)%nat; injection E as <-; do 2 eexists; (split; [reflexivity|]); split; trivial. }
  destruct Q as (w2 & b2 & -> & W2 & B2).
  destruct (cut2 w w1 w2 cout ipg ks _ _ Hw C1 W2 (kept_list_lt cout ro)) as (S2w & G2).
  set (KI := kept_list ipg ri) in *. set (K := kept_list cout ro) in *.
  pose proof Sp as (L2 & Lk & Ls & Ld & Lp & Le). destruct (gather1_shape _ _ _ Hx L2) as (S0 & S1x & S2 & S3).
  apply kept_out_intro; cbn [run_pl conv tshape tmask nth]; rewrite ?S2w, ?Hw; cbn [nth length]; try lia; trivial.
  - rewrite S2. reflexivity.
  - intros n o pos Hn Ho V. pose proof (kept_list_nth _ _ _ Ho) as (N1 & N2). fold K in N1, N2.
    assert (LP : length pos = length (skipn 2 (tshape x))).
    { rewrite (valid_length _ _ V). apply out_dims_length; trivial. }
    assert (D : (nth o K 0 / (cout / 1) = 0)%nat) by (rewrite Nat.div_1_r; apply Nat.div_small; exact N1).
    eapply (conv_restrict a a x xs w _ w2 _ _ KI KI n o (nth o K 0%nat) pos cout ipg (length K) (length KI) ks); trivial.
    + apply kept_list_NoDup.
    + intros i Hi. apply kept_list_In in Hi. tauto.
    + intros i Hi. rewrite HG, D, Nat.div_1_r, (Nat.div_small o) by exact Ho. cbn [Nat.mul Nat.add]. auto.
    + intros i k Hi Vk. rewrite G2 by trivial. cbn [tget tmask nth]. rewrite D. cbn [Nat.mul Nat.add].
      pose proof (kept_list_nth _ _ _ Hi) as (M1 & M2). fold KI in M1, M2.
      rewrite (nmem_false _ _ M2), (nmem_false _ _ N2). reflexivity.
    + intros i k Hi Hin _. cbn [tget tmask nth]. rewrite D. cbn [Nat.mul Nat.add].
      destruct (nmem i ri) eqn:M; [reflexivity|]. exfalso. apply Hin. apply kept_list_In. split; [exact Hi|].
      intro C. apply nmem_In in C. congruence.
    + rewrite B2 by exact Ho. symmetry. apply lmask_bias. exact N2.
Qed.

(* ------------------------------------------------------------------ *)
(** ** Grouped convolutions *)

Lemma NoDup_app_intro {A} (l l' : list A) : NoDup l -> NoDup l' -> (forall x, In x l -> In x l' -> False) -> NoDup (l ++ l').
Proof.
  intros H1 H2 HD. induction l as [|a l IH]; trivial. inversion H1 as [|a' l0 Ha Hl]; subst a' l0. cbn [app]. constructor.
  - rewrite in_app_iff. intros [H|H]; [tauto|]. apply (HD a); [left; reflexivity|exact H].
  - apply IH; trivial. intros x Hx. apply HD. right. exact Hx.
Qed.
Lemma kept_length n r : NoDup r -> Forall (fun x => (x < n)%nat) r -> length (kept n r) = (n - length r)%nat.
Proof.
  intros HN F. assert (P : Permutation (seq 0 n) (r ++ kept n r)).
  { apply NoDup_Permutation; [apply seq_NoDup| |].
    - apply NoDup_app_intro; trivial; [rewrite kept_unfold; apply NoDup_filter, seq_NoDup|].
      intros x H1 H2. apply kept_In in H2. tauto.
    - intro x. rewrite in_seq, in_app_iff, kept_In. rewrite Forall_forall in F. split.
      + intro H. destruct (in_dec Nat.eq_dec x r); [left; trivial|right; split; [lia|trivial]].
      + intros [H|H]; [specialize (F x H)|]; lia. }
  apply Permutation_length in P. rewrite seq_length, app_length in P. lia.
Qed.
Lemma blocks_lt width per G : (forall g, (g < G)%nat -> Forall (fun x => (x < width)%nat) (per g)) ->
  Forall (fun x => (x < width * G)%nat) (concat (map (fun g => map (fun x => width * g + x)%nat (per g)) (seq 0 G))).
Proof.
  intro H. apply Forall_forall. intros x Hx. apply in_concat in Hx. destruct Hx as (l & Hl & Hx). apply in_map_iff in Hl.
  destruct Hl as (g & <- & Hg). apply in_seq in Hg. apply in_map_iff in Hx. destruct Hx as (y & <- & Hy).
  assert (Hg' : (g < G)%nat) by lia. specialize (H g Hg'). rewrite Forall_forall in H. specialize (H y Hy). nia.
Qed.
Lemma kept_blocks width per G : (forall g, (g < G)%nat -> Forall (fun x => (x < width)%nat) (per g)) ->
  kept (width * G) (concat (map (fun g => map (fun x => width * g + x)%nat (per g)) (seq 0 G))) =
  concat (map (fun g => map (fun x => width * g + x)%nat (kept width (per g))) (seq 0 G)).
Proof.
  induction G as [|G IH]; intro H; [rewrite Nat.mul_0_r; reflexivity|].
  rewrite seq_S, !map_app, !concat_app. cbn [Nat.add map concat]. rewrite !app_nil_r, Nat.mul_succ_r.
  rewrite kept_concat by (apply blocks_lt; intros; apply H; lia). rewrite IH by (intros; apply H; lia). reflexivity.
Qed.
Lemma nth_blocks {A} (F : nat -> list A) m d : forall G g i, (forall g, (g < G)%nat -> length (F g) = m) ->
  (g < G)%nat -> (i < m)%nat -> nth (g * m + i) (concat (map F (seq 0 G))) d = nth i (F g) d.
Proof.
  intro G. revert F. induction G as [|G IH]; intros F g i H Hg Hi; [lia|]. cbn [seq map concat].
  destruct g as [|g].
  - cbn [Nat.mul Nat.add]. apply app_nth1. rewrite H by lia. exact Hi.
  - rewrite app_nth2 by (rewrite H by lia; nia). rewrite H by lia.
    replace (S g * m + i - m)%nat with (g * m + i)%nat by lia.
    rewrite <- seq_shift, map_map. apply (IH (fun j => F (S j)) g i); trivial; [intros; apply H; lia|lia].
Qed.
Lemma length_blocks {A} (F : nat -> list A) m : forall G, (forall g, (g < G)%nat -> length (F g) = m) ->
  length (concat (map F (seq 0 G))) = (G * m)%nat.
Proof.
  intro G. revert F. induction G as [|G IH]; intros F H; [reflexivity|]. cbn [seq map concat].
  rewrite app_length, H by lia. rewrite <- seq_shift, map_map, (IH (fun j => F (S j))) by (intros; apply H; lia). reflexivity.
Qed.

(** the kept channels of a balanced removal *)
Lemma balanced_kept G width k per r : balanced G width k per r ->
  let m := (width - k)%nat in
  length (kept (width * G) r) = (G * m)%nat /\
  (forall g i, (g < G)%nat -> (i < m)%nat ->
     nth (g * m + i) (kept (width * G) r) 0%nat = (width * g + nth i (kept width (per g)) 0)%nat) /\
  (forall g, (g < G)%nat -> length (kept width (per g)) = m).
Proof.
  intros (-> & H) m. assert (L : forall g, (g < G)%nat -> length (kept width (per g)) = m).
  { intros g Hg. destruct (H g Hg) as (H1 & H2 & H3 & _). rewrite kept_length by trivial. unfold m. lia. }
  rewrite kept_blocks by (intros g Hg; apply H; exact Hg). split; [|split; [|exact L]].
  - apply length_blocks. intros g Hg. rewrite map_length. apply L. exact Hg.
  - intros g i Hg Hi. rewrite nth_blocks with (m := m); trivial.
    + rewrite (nth_indep _ 0%nat (width * g + 0)%nat) by (rewrite map_length, L; trivial).
      rewrite (map_nth (fun x => (width * g + x)%nat)). reflexivity.
    + intros j Hj. rewrite map_length. apply L. exact Hj.
Qed.
Lemma balanced_length G width k per r : balanced G width k per r -> length r = (G * k)%nat.
Proof. intros (-> & H). apply length_blocks. intros g Hg. rewrite map_length. apply H. exact Hg. Qed.
Lemma balanced_keep G width k per r g : balanced G width k per r -> (g < G)%nat ->
  group_keep r G width g = Some (kept width (per g)).
Proof.
  intros (-> & H) Hg. unfold group_keep.
  set (pl := map per (seq 0 G)).
  assert (LG : G = length pl) by (unfold pl; rewrite map_length, seq_length; reflexivity).
  assert (PG : forall j, (j < G)%nat -> nth j pl [] = per j).
  { intros j Hj. unfold pl. apply (nth_map_seq per). exact Hj. }
  replace (concat (map (fun g => map (fun x => (width * g + x)%nat) (per g)) (seq 0 G))) with
    (concat (map (fun g => map (fun x => (width * g + x)%nat) (nth g pl [])) (seq 0 (length pl)))).
  2:{ rewrite <- LG. f_equal. apply map_ext_in. intros j Hj. apply in_seq in Hj. rewrite PG by lia. reflexivity. }
  assert (FK : Forall (fun l => length l = k) pl).
  { apply Forall_forall. intros l Hl. unfold pl in Hl. apply in_map_iff in Hl. destruct Hl as (j & <- & Hj).
    apply in_seq in Hj. apply H. lia. }
  rewrite LG at 1. rewrite (group_slice_concat width k pl g FK) by (rewrite <- LG; exact Hg).
  rewrite PG by exact Hg.
  assert (E : map Z.to_nat (filter (Z.leb 0) (map Z.of_nat (per g))) = per g).
  { clear. induction (per g) as [|a l IH]; trivial. cbn [map filter].
    destruct (Z.leb_spec 0 (Z.of_nat a)); [|lia]. cbn [map]. rewrite Nat2Z.id, IH. reflexivity. }
  rewrite E. destruct (H g Hg) as (_ & _ & _ & F). destruct (complementary_list_correct width (per g)) as (l & -> & _ & Q).
  rewrite (Q F). reflexivity.
Qed.

Lemma oall_map_eq {A B} (f : A -> option B) (h : A -> B) l : (forall x, In x l -> f x = Some (h x)) -> oall (map f l) = Some (map h l).
Proof.
  induction l as [|a l IH]; intro H; [reflexivity|]. cbn [map oall]. rewrite H by (left; reflexivity).
  rewrite IH by (intros; apply H; right; trivial). reflexivity.
Qed.
Lemma group_in_ok a (w w1 : tensor R) ri k pi cout ipg ks : tshape w = cout :: ipg :: ks -> (0 < ipg)%nat ->
  (0 < ca_groups a)%nat -> (cout mod ca_groups a = 0)%nat -> balanced (ca_groups a) ipg k pi ri ->
  shrink_group_in ri a w = Some w1 ->
  tshape w1 = cout :: (ipg - k)%nat :: ks /\
  forall o i r, (o < cout)%nat -> (i < ipg - k)%nat ->
    tget w1 (o :: i :: r) = tget w (o :: nth i (kept ipg (pi (o / (cout / ca_groups a))%nat)) 0%nat :: r).
Proof.
  intros Hw Hipg HG Hdiv B E. unfold shrink_group_in in E. rewrite Hw in E. cbn [nth] in E.
  pose proof (balanced_length _ _ _ _ _ B) as LB. set (G := ca_groups a) in *. rewrite LB in E.
  assert (Ho : forall o, (o < cout)%nat -> (o / (cout / G) < G)%nat).
  { intros o Hlt. apply Nat.div_lt_upper_bound.
    - intro C. pose proof (Nat.div_mod cout G ltac:(lia)). rewrite C in *. lia.
    - pose proof (Nat.div_mod cout G ltac:(lia)). nia. }
  destruct (Nat.eqb_spec (ipg * G) (ipg * G - G * k)) as [Q|Q].
  - injection E as <-. assert (k = 0)%nat by nia. subst k. rewrite Nat.sub_0_r. split; [exact Hw|].
    intros o i r Hlt Hi. do 2 f_equal. f_equal. destruct B as (_ & H). destruct (H _ (Ho o Hlt)) as (L0 & _).
    destruct (pi (o / (cout / G))%nat); [|discriminate]. rewrite kept_unfold. rewrite filter_ext with (g := fun _ => true) by reflexivity.
    rewrite filter_true, seq_nth by exact Hi. reflexivity.
  - assert (EK : oall (map (group_keep ri G ipg) (seq 0 G)) = Some (map (fun g => kept ipg (pi g)) (seq 0 G))).
    { apply oall_map_eq. intros g Hg. apply in_seq in Hg. apply (balanced_keep _ _ _ _ _ _ B). lia. }
    rewrite EK in E. cbn [obind] in E. destruct (balanced_kept _ _ _ _ _ B) as (_ & _ & L).
    destruct forallb; [|discriminate]. injection E as <-. cbn [tshape tget].
    assert (N0 : length (nth 0 (map (fun g => kept ipg (pi g)) (seq 0 G)) []) = (ipg - k)%nat).
    { rewrite (nth_map_seq (fun g => kept ipg (pi g)) G 0 [] HG). apply L. exact HG. }
    rewrite N0. split; [reflexivity|]. intros o i r Hlt Hi. cbn [upd nth].
    rewrite (nth_map_seq (fun g => kept ipg (pi g))) by (apply Ho; exact Hlt). reflexivity.
Qed.

Lemma convg_restrict a (w x xs : tensor R) b ri ro l' cout ipg ks k pi k' po :
  tshape w = cout :: ipg :: ks -> spatial_ok a (tshape x) ks -> nth 1 (tshape x) 0%nat = (ipg * ca_groups a)%nat ->
  (1 < ca_groups a)%nat -> is_dw_conv a w = false -> (0 < ipg)%nat -> (cout mod ca_groups a = 0)%nat ->
  balanced (ca_groups a) ipg k pi ri -> few_removed (ipg * ca_groups a)%nat ri ->
  balanced (ca_groups a) (cout / ca_groups a)%nat k' po ro -> few_removed cout ro ->
  shrink_conv ri ro a w b = Some l' -> teq xs (restrict ri x) ->
  kept_out (kept_list cout ro) (run_pl l' xs) (run_pl (mask_conv ri ro a w b) x).
Proof.
  intros Hw Sp Hc HG Hdw Hipg Hdiv Bi Fi Bo Fo E Hx. unfold shrink_conv in E. unfold mask_conv. rewrite Hdw, Hw in *. cbn [nth] in E.
  destruct (Nat.eqb_spec (ca_groups a) 1) as [C|_]; [lia|].
  destruct (shrink_group_in ri a w) as [w1|] eqn:E1; [|discriminate]. cbn [obind] in E.
  destruct (complementary_list cout ro) as [ko|] eqn:EO; [|discriminate]. cbn [obind] in E.
  destruct (group_in_ok a w w1 ri k pi cout ipg ks Hw Hipg ltac:(lia) Hdiv Bi E1) as (S1 & G1).
  unfold restrict in Hx. rewrite Hc, (kept_list_asc _ _ Fi) in Hx.
  pose proof (cut_ok 0 cout ro ko w1 EO ltac:(rewrite S1; reflexivity) ltac:(rewrite S1; cbn; lia)) as C0.
  pose proof (fun i => cut_bias cout ro ko b i EO) as CB.
  assert (Q : exists w2 b2, l' = PlConv a w2 b2 /\ teq w2 (gather 0 (kept_list cout ro) w1) /\
    forall i, (i < length (kept_list cout ro))%nat -> lbias b2 i = lbias b (nth i (kept_list cout ro) 0%nat)).
  { destruct (cout =? length ko)%nat; injection E as <-; do 2 eexists; (split; [reflexivity|]); split; trivial. }
  destruct Q as (w2 & b2 & -> & W2 & B2).
  set (G := ca_groups a) in *. set (opg := (cout / G)%nat) in *.
  assert (EC : cout = (opg * G)%nat) by (pose proof (Nat.div_mod cout G ltac:(lia)); unfold opg; lia).
  destruct (balanced_kept _ _ _ _ _ Bi) as (LI & NI & KIg). destruct (balanced_kept _ _ _ _ _ Bo) as (LO & NO & KOg).
  assert (EKO : kept_list cout ro = kept (opg * G) ro) by (rewrite (kept_list_asc _ _ Fo), EC at 1; reflexivity).
  set (KI := kept (ipg * G) ri) in *. set (K := kept_list cout ro) in *.
  set (m := (ipg - k)%nat) in *. set (m' := (opg - k')%nat) in *.
  assert (S2w : tshape w2 = length K :: m :: ks) by (rewrite (proj1 W2); cbn [gather tshape]; rewrite S1; reflexivity).
  pose proof Sp as (L2 & Lk & Ls & Ld & Lp & Le). destruct (gather1_shape _ _ _ Hx L2) as (S0 & S1x & S2 & S3).
  assert (LK : length K = (G * m')%nat) by (rewrite EKO; exact LO).
  apply kept_out_intro; cbn [run_pl conv tshape tmask nth]; rewrite ?S2w, ?Hw; cbn [nth length]; try lia; trivial.
  - rewrite S2. reflexivity.
  - intros n o pos Hn Ho V. pose proof (kept_list_nth _ _ _ Ho) as (N1 & N2). fold K in N1, N2.
    assert (LP : length pos = length (skipn 2 (tshape x))).
    { rewrite (valid_length _ _ V). apply out_dims_length; trivial. }
    assert (Hm' : (0 < m')%nat) by (destruct m'; lia).
    set (g := (o / m')%nat) in *. assert (Hg : (g < G)%nat) by (apply Nat.div_lt_upper_bound; nia).
    assert (Hmod : (o mod m' < m')%nat) by (apply Nat.mod_upper_bound; lia).
    assert (Eo : o = (g * m' + o mod m')%nat) by (pose proof (Nat.div_mod o m' ltac:(lia)); unfold g; lia).
    assert (NK : nth o K 0%nat = (opg * g + nth (o mod m') (kept opg (po g)) 0)%nat).
    { rewrite Eo at 1. rewrite EKO. apply NO; trivial. }
    assert (Hin : (nth (o mod m') (kept opg (po g)) 0 < opg)%nat).
    { assert (I : In (nth (o mod m') (kept opg (po g)) 0%nat) (kept opg (po g))) by (apply nth_In; rewrite KOg by exact Hg; exact Hmod).
      apply kept_In in I. tauto. }
    assert (Dg : (nth o K 0 / opg = g)%nat).
    { rewrite NK. symmetry. apply (Nat.div_unique _ _ _ (nth (o mod m') (kept opg (po g)) 0)%nat); lia. }
    assert (D' : (length K / G = m')%nat) by (rewrite LK, Nat.mul_comm; apply Nat.div_mul; lia).
    assert (Iin : forall i, In i (kept ipg (pi g)) <-> (i < ipg)%nat /\ ~ In (g * ipg + i)%nat ri).
    { intro i. destruct Bi as (ER & HB). rewrite kept_In. split; intros (A1 & A2); (split; [exact A1|]); intro C; apply A2.
      - rewrite ER in C. apply in_concat in C. destruct C as (l & Hl & C). apply in_map_iff in Hl. destruct Hl as (j & <- & Hj).
        apply in_seq in Hj. apply in_map_iff in C. destruct C as (y & C & Hy).
        destruct (HB j ltac:(lia)) as (_ & _ & F & _). rewrite Forall_forall in F. specialize (F y Hy).
        assert (j = g) by nia. subst j. replace i with y by lia. exact Hy.
      - rewrite ER. apply in_concat. exists (map (fun x => (ipg * g + x)%nat) (pi g)). split.
        + apply (in_map (fun g => map (fun x => (ipg * g + x)%nat) (pi g))). apply in_seq. lia.
        + apply in_map_iff. exists i. split; [lia|exact C]. }
    eapply (conv_restrict a a x xs w _ w2 _ _ KI (kept ipg (pi g)) n o (nth o K 0%nat) pos cout ipg (length K) m ks); trivial.
    + apply KIg. exact Hg.
    + rewrite kept_unfold. apply NoDup_filter, seq_NoDup.
    + intros i Hi. apply kept_In in Hi. tauto.
    + intros i Hi. fold G. fold opg. rewrite D', Dg. fold g. split; [rewrite LI; nia|]. rewrite NI by trivial. lia.
    + intros i kk Hi Vk. rewrite (teq_upd_valid 0 w1 w2 K W2) by (rewrite S2w; repeat (constructor; trivial)).
      cbn [upd nth]. rewrite G1 by trivial. fold opg. rewrite Dg. cbn [tget tmask nth]. rewrite Dg.
      assert (I : In (nth i (kept ipg (pi g)) 0%nat) (kept ipg (pi g))) by (apply nth_In; rewrite KIg by exact Hg; exact Hi).
      apply Iin in I. rewrite (nmem_false _ _ (proj2 I)), (nmem_false _ _ N2). reflexivity.
    + intros i kk Hi Hnot _. cbn [tget tmask nth]. fold G; fold opg. rewrite ?Dg.
      destruct (nmem (g * ipg + i) ri) eqn:M; [reflexivity|]. exfalso. apply Hnot. apply Iin. split; [exact Hi|].
      intro C. apply nmem_In in C. congruence.
    + rewrite B2 by exact Ho. symmetry. apply lmask_bias. exact N2.
Qed.

(* ------------------------------------------------------------------ *)
(** ** The other layers *)

Lemma deconv_restrict a os (w x xs : tensor R) b ri ro l' cin cout ks :
  tshape w = cin :: cout :: ks -> (2 <= length (tshape x))%nat -> nth 1 (tshape x) 0%nat = cin -> ca_groups a = 1%nat ->
  shrink_layer ri ro (PlDeconv a os w b) = Some l' -> teq xs (restrict ri x) ->
  kept_out (kept_list cout ro) (run_pl l' xs) (run_pl (mask_layer ri ro (PlDeconv a os w b)) x).
Proof.
  intros Hw L2 Hc HG E Hx. cbn [shrink_layer] in E. rewrite Hw, HG in E. cbn [nth] in E. rewrite Nat.mul_1_r in E.
  destruct (complementary_list cin ri) as [ki|] eqn:EI; [|discriminate]. cbn [obind] in E.
  destruct (complementary_list cout ro) as [ko|] eqn:EO; [|discriminate]. cbn [obind] in E.
  unfold restrict in Hx. rewrite Hc in Hx.
  set (w1 := if (cin =? length ki)%nat then w else gather 0 ki w) in *.
  assert (C1 : teq w1 (gather 0 (kept_list cin ri) w))
    by (apply cut_ok; [exact EI|rewrite Hw; reflexivity|rewrite Hw; cbn; lia]).
  assert (S1 : tshape w1 = length (kept_list cin ri) :: cout :: ks) by (rewrite (proj1 C1); cbn [gather tshape]; rewrite Hw; reflexivity).
  pose proof (cut_ok 1 cout ro ko w1 EO ltac:(rewrite S1; reflexivity) ltac:(rewrite S1; cbn; lia)) as C0.
  pose proof (fun i => cut_bias cout ro ko b i EO) as CB.
  assert (Q : exists w2 b2, l' = PlDeconv a os w2 b2 /\ teq w2 (gather 1 (kept_list cout ro) w1) /\
    forall i, (i < length (kept_list cout ro))%nat -> lbias b2 i = lbias b (nth i (kept_list cout ro) 0%nat)).
  { destruct (cout =? length ko)%nat; injection E as <-; do 2 eexists; (split; [reflexivity|]); split; trivial. }
  destruct Q as (w2 & b2 & -> & W2 & B2). cbn [mask_layer].
  set (KI := kept_list cin ri) in *. set (K := kept_list cout ro) in *.
  assert (S2w : tshape w2 = length KI :: length K :: ks) by (rewrite (proj1 W2); cbn [gather tshape]; rewrite S1; reflexivity).
  destruct (gather1_shape _ _ _ Hx L2) as (S0 & S1x & S2 & S3).
  apply kept_out_intro; cbn [run_pl deconv tshape tmask nth]; rewrite ?S2w, ?Hw; cbn [nth length]; rewrite ?HG; try lia; trivial.
  intros n o pos Hn Ho V. pose proof (kept_list_nth _ _ _ Ho) as (N1 & N2). fold K in N1, N2.
  unfold deconv. cbn [tget]. rewrite S2w. cbn [tmask tshape tget]. rewrite Hw, HG, S2. cbn [nth].
  rewrite !Nat.div_1_r, (Nat.div_small o), (Nat.div_small (nth o K 0%nat)) by trivial.
  rewrite (Nat.mod_small o), (Nat.mod_small (nth o K 0%nat)) by trivial. cbn [Nat.mul Nat.add].
  rewrite B2, lmask_bias by trivial. f_equal.
  rewrite (lsum_support cin KI).
  2:{ apply kept_list_NoDup. }
  2:{ intros i Hi. apply kept_list_In in Hi. tauto. }
  2:{ intros i Hi Hin. apply lsum_zero. intros k Hk. apply lsum_zero. intros q Hq. destruct hits; trivial.
      destruct (nmem i ri) eqn:M; cbn [orb]; [ring|]. exfalso. apply Hin. apply kept_list_In. split; trivial.
      intro C. apply nmem_In in C. congruence. }
  rewrite (lsum_nth KI). apply lsum_ext. intros i Hi. apply in_seq in Hi. assert (Hi' : (i < length KI)%nat) by lia.
  pose proof (kept_list_nth _ _ _ Hi') as (M1 & M2). fold KI in M1, M2.
  apply lsum_ext. intros k Hk. apply indices_valid in Hk. apply lsum_ext. intros q Hq. apply indices_valid in Hq.
  destruct hits; trivial. rewrite (nmem_false _ _ M2), (nmem_false _ _ N2). cbn [orb].
  rewrite (gather1_get KI x xs) by trivial. f_equal.
  rewrite (teq_upd_valid 1 w1 w2 K W2) by (rewrite S2w; repeat (constructor; trivial)). cbn [upd nth].
  rewrite (teq_upd_valid 0 w w1 KI C1) by (rewrite S1; repeat (constructor; trivial)). reflexivity.
Qed.

Lemma linear_restrict (w x xs : tensor R) b ri ro l' n fo fi :
  tshape w = [fo; fi] -> tshape x = [n; fi] ->
  shrink_layer ri ro (PlLinear w b) = Some l' -> teq xs (restrict ri x) ->
  kept_out (kept_list fo ro) (run_pl l' xs) (run_pl (mask_layer ri ro (PlLinear w b)) x).
Proof.
  intros Hw Sx E Hx. cbn [shrink_layer] in E. rewrite Hw in E. cbn [nth] in E.
  destruct (complementary_list fi ri) as [ki|] eqn:EI; [|discriminate]. cbn [obind] in E.
  destruct (complementary_list fo ro) as [ko|] eqn:EO; [|discriminate]. cbn [obind] in E.
  unfold restrict in Hx. assert (L2 : (2 <= length (tshape x))%nat) by (rewrite Sx; cbn; lia).
  assert (Hc : nth 1 (tshape x) 0%nat = fi) by (rewrite Sx; reflexivity). rewrite Hc in Hx.
  set (w1 := if (fi =? length ki)%nat then w else gather 1 ki w) in *.
  assert (C1 : teq w1 (gather 1 (kept_list fi ri) w))
    by (apply cut_ok; [exact EI|rewrite Hw; reflexivity|rewrite Hw; cbn; lia]).
  assert (S1 : tshape w1 = [fo; length (kept_list fi ri)]) by (rewrite (proj1 C1); cbn [gather tshape]; rewrite Hw; reflexivity).
  pose proof (cut_ok 0 fo ro ko w1 EO ltac:(rewrite S1; reflexivity) ltac:(rewrite S1; cbn; lia)) as C0.
  pose proof (fun i => cut_bias fo ro ko b i EO) as CB.
  assert (Q : exists w2 b2, l' = PlLinear w2 b2 /\ teq w2 (gather 0 (kept_list fo ro) w1) /\
    forall i, (i < length (kept_list fo ro))%nat -> lbias b2 i = lbias b (nth i (kept_list fo ro) 0%nat)).
  { destruct (fo =? length ko)%nat; injection E as <-; do 2 eexists; (split; [reflexivity|]); split; trivial. }
  destruct Q as (w2 & b2 & -> & W2 & B2). cbn [mask_layer].
  destruct (cut2 w w1 w2 fo fi [] _ _ Hw C1 W2 (kept_list_lt fo ro)) as (S2w & G2).
  set (KI := kept_list fi ri) in *. set (K := kept_list fo ro) in *.
  assert (Sxs : tshape xs = [n; length KI]) by (rewrite (proj1 Hx); cbn [gather tshape]; rewrite Sx; reflexivity).
  apply kept_out_intro; cbn [run_pl fc tshape tmask]; rewrite ?S2w, ?Hw, ?Sx, ?Sxs; cbn [nth length removelast app]; try lia; trivial.
  intros n0 o pos Hn Ho V. cbn [skipn] in V. inversion V. subst pos.
  pose proof (kept_list_nth _ _ _ Ho) as (N1 & N2). fold K in N1, N2.
  unfold fc. cbn [tget]. rewrite S2w. cbn [tmask tshape tget]. rewrite Hw. cbn [nth last removelast app].
  rewrite B2, lmask_bias by trivial. f_equal.
  rewrite (lsum_support fi KI).
  2:{ apply kept_list_NoDup. }
  2:{ intros i Hi. apply kept_list_In in Hi. tauto. }
  2:{ intros i Hi Hin. destruct (nmem i ri) eqn:M; cbn [orb]; [ring|]. exfalso. apply Hin. apply kept_list_In. split; trivial.
      intro C. apply nmem_In in C. congruence. }
  rewrite (lsum_nth KI). apply lsum_ext. intros i Hi. apply in_seq in Hi. assert (Hi' : (i < length KI)%nat) by lia.
  pose proof (kept_list_nth _ _ _ Hi') as (M1 & M2). fold KI in M1, M2.
  rewrite (nmem_false _ _ M2), (nmem_false _ _ N2). cbn [orb].
  rewrite G2 by (trivial; constructor). f_equal.
  apply (gather1_get KI x xs n0 i [] Hx L2); trivial; [rewrite Sx; exact Hn|rewrite Sx; constructor].
Qed.

Lemma bn_restrict p (x xs : tensor R) ri l' : (2 <= length (tshape x))%nat -> length (bn_w p) = nth 1 (tshape x) 0%nat ->
  shrink_layer ri ri (PlBn p) = Some l' -> teq xs (restrict ri x) ->
  kept_out (kept_list (nth 1 (tshape x) 0%nat) ri) (run_pl l' xs) (run_pl (mask_layer ri ri (PlBn p)) x).
Proof.
  intros L2 HL E Hx. cbn [shrink_layer] in E. rewrite HL in E. set (C := nth 1 (tshape x) 0%nat) in *.
  destruct (complementary_list C ri) as [keep|] eqn:EK; [|discriminate]. cbn [obind] in E.
  unfold restrict in Hx. fold C in Hx. set (K := kept_list C ri) in *.
  pose proof (fun b i => cut_list C ri keep b i EK) as CL.
  assert (Q : exists q, l' = PlBn q /\ bn_eps q = bn_eps p /\ forall i, (i < length K)%nat ->
     nth i (bn_w q) 0 = nth (nth i K 0%nat) (bn_w p) 0 /\ nth i (bn_b q) 0 = nth (nth i K 0%nat) (bn_b p) 0 /\
     nth i (bn_mean q) 0 = nth (nth i K 0%nat) (bn_mean p) 0 /\ nth i (bn_var q) 0 = nth (nth i K 0%nat) (bn_var p) 0).
  { destruct (C =? length keep)%nat; injection E as <-; eexists; (split; [reflexivity|]); (split; [reflexivity|]);
      intros i Hi; cbn [bn_w bn_b bn_mean bn_var]; repeat split; apply (CL _ i Hi). }
  destruct Q as (q & -> & Ee & Eq). destruct (gather1_shape _ _ _ Hx L2) as (S0 & S1x & S2 & S3).
  apply kept_out_intro; cbn [mask_layer run_pl run_bn tmap batch_norm tshape]; trivial; [lia|].
  intros n o pos Hn Ho V. pose proof (kept_list_nth _ _ _ Ho) as (N1 & N2). fold K in N1, N2.
  cbn [mask_layer run_pl run_bn tmap batch_norm tget nth bn_eps bn_w bn_b bn_mean bn_var act_fn].
  destruct (Eq o Ho) as (-> & -> & -> & ->). rewrite !lmask_nth, Ee by exact N2.
  rewrite (gather1_get K x xs _ _ _ Hx L2 Hn Ho V). reflexivity.
Qed.
Lemma prelu_restrict w (x xs : tensor R) ri l' : (2 <= length (tshape x))%nat -> length w = nth 1 (tshape x) 0%nat ->
  shrink_layer ri ri (PlPrelu w) = Some l' -> teq xs (restrict ri x) ->
  kept_out (kept_list (nth 1 (tshape x) 0%nat) ri) (run_pl l' xs) (run_pl (mask_layer ri ri (PlPrelu w)) x).
Proof.
  intros L2 HL E Hx. cbn [shrink_layer] in E. rewrite HL in E. set (C := nth 1 (tshape x) 0%nat) in *.
  destruct (complementary_list C ri) as [keep|] eqn:EK; [|discriminate]. cbn [obind] in E.
  unfold restrict in Hx. fold C in Hx. set (K := kept_list C ri) in *.
  pose proof (fun b i => cut_list C ri keep b i EK) as CL.
  assert (Q : exists q, l' = PlPrelu q /\ forall i, (i < length K)%nat -> nth i q 0 = nth (nth i K 0%nat) w 0).
  { destruct (C =? length keep)%nat; injection E as <-; eexists; (split; [reflexivity|]); intros i Hi; apply (CL _ i Hi). }
  destruct Q as (q & -> & Eq). destruct (gather1_shape _ _ _ Hx L2) as (S0 & S1x & S2 & S3).
  apply kept_out_intro; cbn [mask_layer run_pl prelu_spec tshape]; trivial; [lia|].
  intros n o pos Hn Ho V. pose proof (kept_list_nth _ _ _ Ho) as (N1 & N2). fold K in N1, N2.
  cbn [mask_layer run_pl prelu_spec tget nth]. rewrite (gather1_get K x xs _ _ _ Hx L2 Hn Ho V), (Eq o Ho), lmask_nth by exact N2.
  reflexivity.
Qed.
Lemma chan_restrict sh f (x xs : tensor R) ri : (2 <= length (tshape x))%nat ->
  (forall g h pos, (forall q, valid (skipn 2 (tshape x)) q -> g q = h q) -> valid (sh (skipn 2 (tshape x))) pos ->
     f (skipn 2 (tshape x)) g pos = f (skipn 2 (tshape x)) h pos) ->
  teq xs (restrict ri x) ->
  kept_out (kept_list (nth 1 (tshape x) 0%nat) ri) (run_pl (PlChan sh f) xs) (run_pl (PlChan sh f) x).
Proof.
  intros L2 Hf Hx. unfold restrict in Hx. set (K := kept_list _ ri) in *.
  destruct (gather1_shape _ _ _ Hx L2) as (S0 & S1x & S2 & S3).
  apply kept_out_intro; cbn [run_pl tshape nth length]; trivial; try lia.
  - rewrite S2. reflexivity.
  - intros n o pos Hn Ho V. cbn [run_pl tget nth]. rewrite S2. change (skipn 2 (n :: o :: pos)) with pos.
    change (skipn 2 (n :: nth o K 0%nat :: pos)) with pos. apply Hf; [|exact V]. intros q Vq. apply (gather1_get K x xs); trivial.
Qed.

Lemma nth_flat s K f : (0 < s)%nat -> (f < length K * s)%nat ->
  nth f (flat s K) 0%nat = (nth (f / s) K 0 * s + f mod s)%nat.
Proof.
  intro Hs. revert f. induction K as [|c K IH]; intros f Hf; cbn [length] in Hf; [lia|].
  change (flat s (c :: K)) with (seq (c * s) s ++ flat s K). destruct (Nat.lt_ge_cases f s) as [L|L].
  - rewrite app_nth1 by (rewrite seq_length; exact L). rewrite seq_nth by exact L. rewrite Nat.div_small, Nat.mod_small by exact L. reflexivity.
  - rewrite app_nth2 by (rewrite seq_length; exact L). rewrite seq_length, IH by nia.
    replace f with (f - s + 1 * s)%nat at 3 4 by lia. rewrite Nat.div_add, Nat.mod_add by lia.
    rewrite Nat.add_1_r. reflexivity.
Qed.
Lemma flatten_get (x : tensor R) N C dims n f : tshape x = N :: C :: dims -> (n < N)%nat -> (f < C * prod dims)%nat ->
  tget (run_pl PlFlatten x) [n; f] = tget x (n :: f / prod dims :: unravel dims (f mod prod dims))%nat.
Proof.
  intros Sx Hn Hf. cbn [run_pl reshape tget]. rewrite Sx. f_equal. cbn [nth tl ravel]. 
  set (S := prod dims) in *. change (prod (C :: dims)) with (C * S)%nat. cbn [prod]. rewrite Nat.mul_1_r.
  assert (0 < S)%nat by (destruct S; lia).
  cbn [unravel]. change (prod (C :: dims)) with (C * S)%nat. change (prod dims) with S. f_equal.
  - symmetry. apply (Nat.div_unique _ _ _ f); lia.
  - replace ((n * (C * S) + (f * 1 + 0)) mod (C * S))%nat with f; [reflexivity|]. apply (Nat.mod_unique _ _ n); lia.
Qed.
Lemma flatten_restrict (x xs : tensor R) ri : (2 <= length (tshape x))%nat -> (0 < prod (skipn 2 (tshape x)))%nat ->
  few_removed (nth 1 (tshape x) 0%nat) ri ->
  few_removed (nth 1 (tshape x) 0 * prod (skipn 2 (tshape x)))%nat (flat (prod (skipn 2 (tshape x))) ri) ->
  teq xs (restrict ri x) ->
  kept_out (kept_list (nth 1 (tshape x) 0 * prod (skipn 2 (tshape x)))%nat (flat (prod (skipn 2 (tshape x))) ri))
           (run_pl PlFlatten xs) (run_pl PlFlatten x).
Proof.
  intros L2 HS F1 F2 Hx. rewrite (kept_list_asc _ _ F2), kept_flat. unfold restrict in Hx. rewrite (kept_list_asc _ _ F1) in Hx.
  destruct (tshape x) as [|N [|C dims]] eqn:Sx; cbn [length] in L2; try lia. cbn [nth skipn] in *.
  set (K := kept C ri) in *. set (S := prod dims) in *.
  assert (Sxs : tshape xs = N :: length K :: dims) by (rewrite (proj1 Hx); cbn [gather tshape]; rewrite Sx; reflexivity).
  apply kept_out_intro.
  6:{ intros n o pos Hn Ho V. cbn [run_pl reshape tshape] in Hn, V. rewrite Sx in Hn, V. cbn [nth tl skipn] in Hn, V. inversion V. subst pos.
      rewrite flat_length in Ho. rewrite nth_flat by trivial.
    assert (HK : (o / S < length K)%nat) by (apply Nat.div_lt_upper_bound; lia).
    assert (HC : (nth (o / S) K 0 < C)%nat) by (assert (I : In (nth (o / S) K 0%nat) K) by (apply nth_In; exact HK); apply kept_In in I; tauto).
    assert (HM : (o mod S < S)%nat) by (apply Nat.mod_upper_bound; lia).
    rewrite (flatten_get xs N (length K) dims n o Sxs Hn Ho), (flatten_get x N C dims _ _ Sx Hn) by (fold S; nia). fold S.
    rewrite (Nat.add_comm (_ * S)), Nat.div_add, Nat.mod_add, (Nat.div_small (o mod S)), (Nat.mod_small (o mod S)) by lia.
    cbn [Nat.add]. apply (gather1_get K x xs); trivial; rewrite Sx; trivial.  cbn [skipn]. apply unravel_valid. exact HM. }
  all: cbn [run_pl reshape tshape]; rewrite ?Sx, ?Sxs; cbn [nth length tl skipn]; try lia; trivial.
  rewrite flat_length. reflexivity.
Qed.

(* ------------------------------------------------------------------ *)
(** * Chains *)

Lemma layer_restrict ri ro l (x xs : tensor R) l' : layer_ok ri ro l (tshape x) -> shrink_layer ri ro l = Some l' ->
  teq xs (restrict ri x) -> teq (run_pl l' xs) (restrict ro (run_pl (mask_layer ri ro l) x)).
Proof.
  intros OK E Hx. unfold restrict at 1. destruct l as [a w b|a os w b|w b|p|w|sh f|]; cbn [layer_ok] in OK.
  - destruct OK as (cout & ipg & ks & Hw & Sp & Hc & HG & OK). cbn [shrink_layer mask_layer] in *.
    assert (EN : nth 1 (tshape (run_pl (mask_conv ri ro a w b) x)) 0%nat = cout).
    { unfold mask_conv. destruct (is_dw_conv a w); cbn [run_pl conv tshape tmask nth]; rewrite Hw; reflexivity. }
    rewrite EN. destruct (is_dw_conv a w) eqn:D.
    + subst ro. apply (dw_restrict a w x xs b ri l' cout ipg ks); trivial.
    + destruct OK as [OK|(k & pi & k' & po & Hipg & Hd & Bi & Fi & Bo & Fo)].
      * apply (conv1_restrict a w x xs b ri ro l' cout ipg ks); trivial.
      * destruct (Nat.eq_dec (ca_groups a) 1) as [G1|G1].
        -- apply (conv1_restrict a w x xs b ri ro l' cout ipg ks); trivial.
        -- apply (convg_restrict a w x xs b ri ro l' cout ipg ks k pi k' po); trivial. lia.
  - destruct OK as (cin & cout & ks & Hw & L2 & Hc & HG).
    replace (nth 1 (tshape (run_pl (mask_layer ri ro (PlDeconv a os w b)) x)) 0%nat) with cout.
    + apply (deconv_restrict a os w x xs b ri ro l' cin cout ks); trivial.
    + cbn [mask_layer run_pl deconv tshape tmask nth]. rewrite Hw, HG. cbn [nth]. lia.
  - destruct OK as (n & fo & fi & Hw & Sx).
    replace (nth 1 (tshape (run_pl (mask_layer ri ro (PlLinear w b)) x)) 0%nat) with fo.
    + apply (linear_restrict w x xs b ri ro l' n fo fi); trivial.
    + cbn [mask_layer run_pl fc tshape tmask nth]. rewrite Hw, Sx. reflexivity.
  - destruct OK as (L2 & HL & ->). exact (bn_restrict p x xs ri l' L2 HL E Hx).
  - destruct OK as (L2 & HL & ->). exact (prelu_restrict w x xs ri l' L2 HL E Hx).
  - destruct OK as (L2 & -> & Hf). injection E as <-. exact (chan_restrict sh f x xs ri L2 Hf Hx).
  - destruct OK as (L2 & HS & -> & F1 & F2). injection E as <-. cbn [mask_layer].
    replace (nth 1 (tshape (run_pl PlFlatten x)) 0%nat) with (nth 1 (tshape x) 0 * prod (skipn 2 (tshape x)))%nat.
    + apply flatten_restrict; trivial.
    + cbn [run_pl reshape tshape nth]. destruct (tshape x) as [|N [|C dims]]; cbn [length] in L2; try lia. reflexivity.
Qed.

Lemma compl_some n r : exists l, complementary_list n r = Some l.
Proof. destruct (complementary_list_correct n r) as (l & E & _). exists l. exact E. Qed.
Lemma group_in_some a (w : tensor R) ri k pi : (0 < ca_groups a)%nat ->
  balanced (ca_groups a) (nth 1 (tshape w) 0%nat) k pi ri -> exists w1, shrink_group_in ri a w = Some w1.
Proof.
  intros HG B. unfold shrink_group_in. set (ipg := nth 1 (tshape w) 0%nat) in *. destruct Nat.eqb; [eexists; reflexivity|].
  rewrite (oall_map_eq _ (fun g => kept ipg (pi g))) by (intros g Hg; apply in_seq in Hg; apply (balanced_keep _ _ _ _ _ _ B); lia).
  cbn [obind]. destruct (balanced_kept _ _ _ _ _ B) as (_ & _ & L).
  rewrite (nth_map_seq (fun g => kept ipg (pi g)) _ 0 [] HG), (L 0%nat HG).
  rewrite (proj2 (forallb_forall _ _)); [eexists; reflexivity|]. intros l Hl. apply in_map_iff in Hl.
  destruct Hl as (g & <- & Hg). apply in_seq in Hg. rewrite L by lia. apply Nat.eqb_refl.
Qed.
Lemma layer_some ri ro l s : layer_ok ri ro l s -> exists l', shrink_layer ri ro l = Some l'.
Proof.
  intro OK. destruct l as [a w b|a os w b|w b|p|w|sh f|]; cbn [layer_ok shrink_layer] in *.
  - destruct OK as (cout & ipg & ks & Hw & Sp & Hc & HG & OK). unfold shrink_conv.
    destruct (is_dw_conv a w).
    + destruct (compl_some (nth 0 (tshape w) 0%nat) ri) as (l & ->). cbn [obind]. destruct Nat.eqb; eexists; reflexivity.
    + destruct (compl_some (nth 0 (tshape w) 0%nat) ro) as (l & ->). cbn [obind].
      assert (Q : exists w1, (if (ca_groups a =? 1)%nat
           then obind (complementary_list (nth 1 (tshape w) 0%nat) ri) (fun keep =>
                Some (if (nth 1 (tshape w) 0 =? length keep)%nat then w else gather 1 keep w))
           else shrink_group_in ri a w) = Some w1).
      { destruct (Nat.eqb_spec (ca_groups a) 1) as [G1|G1].
        - destruct (compl_some (nth 1 (tshape w) 0%nat) ri) as (l0 & ->). eexists; reflexivity.
        - destruct OK as [OK|(k & pi & k' & po & Hipg & Hd & Bi & _)]; [lia|]. apply (group_in_some a w ri k pi HG).
          rewrite Hw. exact Bi. }
      destruct Q as (w1 & ->). cbn [obind]. eexists; reflexivity.
  - destruct (compl_some (nth 0 (tshape w) 0%nat) ri) as (l & ->). cbn [obind].
    destruct (compl_some (nth 1 (tshape w) 0%nat) ro) as (l' & ->). eexists; reflexivity.
  - destruct (compl_some (nth 1 (tshape w) 0%nat) ri) as (l & ->). cbn [obind].
    destruct (compl_some (nth 0 (tshape w) 0%nat) ro) as (l' & ->). eexists; reflexivity.
  - destruct (compl_some (length (bn_w p)) ri) as (l & ->). eexists; reflexivity.
  - destruct (compl_some (length w) ri) as (l & ->). eexists; reflexivity.
  - eexists; reflexivity.
  - eexists; reflexivity.
Qed.

Lemma shrink_net_correct : forall net ri (x xs : tensor R), chain_ok net ri x -> teq xs (restrict ri x) ->
  exists ls, shrink_net net = Some ls /\
    teq (run_pls ls xs) (restrict (last_removed net ri) (run_pls (mask_net net) x)).
Proof.
  induction net as [|(l & ri' & ro) net IH]; intros ri x xs OK Hx.
  - exists []. split; [reflexivity|exact Hx].
  - destruct OK as (-> & OK & CH). destruct (layer_some _ _ _ _ OK) as (l' & E). cbn [shrink_net]. rewrite E. cbn [obind].
    destruct (IH ro _ _ CH (layer_restrict _ _ _ _ _ _ OK E Hx)) as (ls & -> & T). cbn [obind].
    exists (l' :: ls). split; [reflexivity|]. exact T.
Qed.
