(** Proofs about [QGruModel]. *)
From Coq Require Import List Arith Bool Reals Lia Lra.
From Verif Require Import Tensor ReshapeProofs LowerProofs FuseProofs FuseMiscProofs AtenConvProofs AtenEltProofs AtenLinProofs.
From Verif Require Import ConvSpec CatSpec LayoutSpec FuseModel MoveSpec EltSpec LinSpec RnnSpec AtenRnnModel AtenRnnProofs QGruModel.
Import ListNotations.
Local Open Scope R_scope.

Lemma gate_len H : (3 * H / 3)%nat = H.
Proof. rewrite Nat.mul_comm. apply Nat.div_mul. lia. Qed.

(** [hgates] of a state *)
Lemma linear_state B H K w b h f g : rep B K h f -> tshape w = [(3 * H)%nat; K] -> (g < 3)%nat ->
  exists t, linear w b h = Some t /\
    rep B H (chunk3 t g) (prod_in K (fun g j k => tget w [(g * H + j)%nat; k]) (fun g j => match b with Some v => tget v [(g * H + j)%nat] | None => 0 end) f g).
Proof.
  intros [Sh Gh] Sw Hg. unfold linear. rewrite Sw, Sh. cbn [nth last]. rewrite Nat.eqb_refl. eexists. split; [reflexivity|].
  unfold chunk3, split_part, axis_size. cbn [tshape removelast app length]. change (2 - 1)%nat with 1%nat. cbn [nth upd]. rewrite gate_len.
  split; [reflexivity|]. intros bt j Hb Hj. cbn [tget upd nth last removelast app]. unfold prod_in. rewrite Rplus_comm. f_equal.
  apply lsum_ext. intros k Hk. apply in_seq in Hk. rewrite Gh by lia. reflexivity.
Qed.
Lemma linear_det w b h t t' : linear w b h = Some t -> linear w b h = Some t' -> t = t'.
Proof. congruence. Qed.
(** [igates] of a sequence, at one step *)
Lemma linear_seq B H K w b x xs g k : seqrep false B K x xs -> tshape w = [(3 * H)%nat; K] -> (g < 3)%nat -> (k < length xs)%nat ->
  exists t u, linear w b x = Some t /\ index0 k (chunk3 t g) = Some u /\
    rep B H u (prod_in K (fun g j k => tget w [(g * H + j)%nat; k]) (fun g j => match b with Some v => tget v [(g * H + j)%nat] | None => 0 end) (nth k xs no_mat) g).
Proof.
  intros [Sx Gx] Sw Hg Hk. unfold linear. rewrite Sw, Sx. cbn [nth last]. rewrite Nat.eqb_refl. eexists. eexists. split; [reflexivity|].
  unfold chunk3, split_part, axis_size. cbn [tshape removelast app length]. change (3 - 1)%nat with 2%nat. cbn [nth upd]. rewrite gate_len.
  unfold index0. cbn [tshape nth]. apply Nat.ltb_lt in Hk as Hk'. rewrite Hk'. split; [reflexivity|].
  split; [reflexivity|]. intros bt j Hb Hj. unfold unpack. cbn [tget insert_at firstn skipn app upd nth last removelast]. unfold prod_in.
  rewrite Rplus_comm. f_equal. apply lsum_ext. intros q Hq. apply in_seq in Hq. rewrite <- (Gx k bt q) by lia. reflexivity.
Qed.

Section Cell.
  Context (B H K : nat) (p : rnn_params) (Pok : params_ok 3 H K p).
  Lemma biases_in f g : prod_in K (fun g j k => tget (w_ih p) [(g * H + j)%nat; k]) (fun g j => match option_map fst (biases p) with Some v => tget v [(g * H + j)%nat] | None => 0 end) f g
    = prod_in K (pW H p) (bias_in H p) f g.
  Proof. unfold prod_in, pW, bias_in. destruct (biases p) as [[u v]|]; reflexivity. Qed.
  Lemma biases_hid f g : prod_in H (fun g j k => tget (w_hh p) [(g * H + j)%nat; k]) (fun g j => match option_map snd (biases p) with Some v => tget v [(g * H + j)%nat] | None => 0 end) f g
    = prod_in H (pR H p) (bias_hid H p) f g.
  Proof. unfold prod_in, pR, bias_hid. destruct (biases p) as [[u v]|]; reflexivity. Qed.

  Lemma step_ok ri zi ni hx (f fh : mat) :
    rep B H ri (prod_in K (pW H p) (bias_in H p) f 0) -> rep B H zi (prod_in K (pW H p) (bias_in H p) f 1) ->
    rep B H ni (prod_in K (pW H p) (bias_in H p) f 2) -> rep B H hx fh ->
    exists h, qgru_step p ri zi ni hx = Some h /\ rep B H h (gru_cell p f fh).
  Proof.
    intros Hr Hz Hn Hh. unfold qgru_step. destruct Pok as (Sw & Sr & _).
    destruct (linear_state B H H (w_hh p) (option_map snd (biases p)) hx fh 0 Hh Sr ltac:(lia)) as (hg & E & R0).
    destruct (linear_state B H H (w_hh p) (option_map snd (biases p)) hx fh 1 Hh Sr ltac:(lia)) as (hg1 & E1 & R1).
    destruct (linear_state B H H (w_hh p) (option_map snd (biases p)) hx fh 2 Hh Sr ltac:(lia)) as (hg2 & E2 & R2).
    rewrite (linear_det _ _ _ _ _ E1 E) in R1. rewrite (linear_det _ _ _ _ _ E2 E) in R2. rewrite E. cbn [obind].
    rewrite biases_hid in R0, R1, R2.
    destruct (rep_binop2 Rplus B H _ _ _ _ Hr R0) as (r & Er & Rr). rewrite Er. cbn [obind].
    destruct (rep_binop2 Rplus B H _ _ _ _ Hz R1) as (z & Ez & Rz). rewrite Ez. cbn [obind].
    destruct (rep_binop2 Rmult B H _ _ _ _ (rep_tmap sigmoid _ _ _ _ Rr) R2) as (rn & Ern & Rrn). rewrite Ern. cbn [obind].
    destruct (rep_binop2 Rplus B H _ _ _ _ Hn Rrn) as (n & En & Rn). rewrite En. cbn [obind].
    pose proof (rep_tmap (fun v => v + 1) _ _ _ _ (rep_tmap (fun v => v * -1) _ _ _ _ (rep_tmap sigmoid _ _ _ _ Rz))) as R1z.
    destruct (rep_binop2 Rmult B H _ _ _ _ R1z (rep_tmap tanh _ _ _ _ Rn)) as (a & Ea & Ra). rewrite Ea. cbn [obind].
    destruct (rep_binop2 Rmult B H _ _ _ _ (rep_tmap sigmoid _ _ _ _ Rz) Hh) as (b & Eb & Rb). rewrite Eb. cbn [obind].
    destruct (rep_binop2 Rplus B H _ _ _ _ Ra Rb) as (h & Eh & Rh'). exists h. split; [exact Eh|].
    rewrite (gru_cell_eq H K) by exact Pok. eapply rep_congr; [exact Rh'|]. intros bt j Hb Hj. unfold gcell. cbv beta zeta. ring.
  Qed.
  Lemma loop_ok ig x xs : seqrep false B K x xs -> linear (w_ih p) (option_map fst (biases p)) x = Some ig ->
    forall n k hx fh, (k + n = length xs)%nat -> rep B H hx fh ->
    exists hs h, qgru_loop p ig (seq k n) hx = Some (hs, h) /\ Forall2 (rep B H) hs (run gru_cell p fh (skipn k xs)) /\
      rep B H h (last (run gru_cell p fh (skipn k xs)) fh).
  Proof.
    intros Hx Ei. destruct Pok as (Sw & Sr & _). induction n as [|n IH]; intros k hx fh Hk Hh.
    - rewrite skipn_all2 by lia. exists [], hx. cbn. repeat split; auto; apply Hh.
    - cbn [seq qgru_loop].
      destruct (linear_seq B H K (w_ih p) (option_map fst (biases p)) x xs 0 k Hx Sw ltac:(lia) ltac:(lia)) as (t0 & u0 & L0 & U0 & V0).
      destruct (linear_seq B H K (w_ih p) (option_map fst (biases p)) x xs 1 k Hx Sw ltac:(lia) ltac:(lia)) as (t1 & u1 & L1 & U1 & V1).
      destruct (linear_seq B H K (w_ih p) (option_map fst (biases p)) x xs 2 k Hx Sw ltac:(lia) ltac:(lia)) as (t2 & u2 & L2 & U2 & V2).
      rewrite (linear_det _ _ _ _ _ L0 Ei) in U0. rewrite (linear_det _ _ _ _ _ L1 Ei) in U1. rewrite (linear_det _ _ _ _ _ L2 Ei) in U2.
      rewrite U0, U1, U2. cbn [obind]. rewrite biases_in in V0, V1, V2.
      destruct (step_ok u0 u1 u2 hx _ fh V0 V1 V2 Hh) as (h1 & E1 & R1). rewrite E1. cbn [obind].
      destruct (IH (S k) h1 _ ltac:(lia) R1) as (hs & h & E & F & Q). rewrite E. cbn [obind fst snd].
      assert (skipn k xs = nth k xs no_mat :: skipn (S k) xs) as Sk.
      { clear - Hk. revert k Hk. induction xs as [|a xs IHx]; intros k Hk; [cbn in Hk; lia|]. destruct k as [|k]; [reflexivity|]. cbn [skipn nth]. apply IHx. cbn in Hk. lia. }
      rewrite Sk. cbn [run]. exists (h1 :: hs), h. split; [reflexivity|]. split; [constructor; auto|]. rewrite last_cons. exact Q.
  Qed.
  Lemma stack_ok hs fs : hs <> [] -> Forall2 (rep B H) hs fs -> stack0 hs = Some (pack 0 0 hs) /\ seqrep false B H (pack 0 0 hs) fs.
  Proof.
    intros N F. split; [|exact (pack_steps false B H hs fs N F)]. destruct hs as [|t hs]; [congruence|]. unfold stack0.
    assert (Forall (fun u => tshape u = [B; H]) (t :: hs)) as Fs by (clear - F; induction F as [|a b l m [S _] F IH]; constructor; auto).
    inversion Fs as [|? ? St _]; subst. rewrite St.
    replace (forallb (fun u => list_eqb (tshape u) [B; H]) (t :: hs)) with true; [reflexivity|]. symmetry. apply forallb_forall.
    intros u Hu. rewrite Forall_forall in Fs. rewrite (Fs u Hu). unfold list_eqb. destruct (list_eq_dec Nat.eq_dec [B; H] [B; H]); congruence.
  Qed.
  Lemma cell_ok x xs hx fh : seqrep false B K x xs -> xs <> [] -> rep B H hx fh -> (0 < B)%nat ->
    exists y h, qgru_cell p x hx = Some (y, h) /\ seqrep false B H y (run gru_cell p fh xs) /\ rep B H h (last (run gru_cell p fh xs) fh).
  Proof.
    intros Hx Nx Hh HB. unfold qgru_cell. assert (index0 0 hx = Some (unpack 0 0 hx)) as -> by (unfold index0; destruct Hh as [S _]; rewrite S; cbn [nth]; apply Nat.ltb_lt in HB; now rewrite HB).
    cbn [obind]. assert (0 < length xs)%nat as HL by (destruct xs; [congruence|cbn; lia]).
    destruct (linear_seq B H K (w_ih p) (option_map fst (biases p)) x xs 0 0 Hx (proj1 Pok) ltac:(lia) HL) as (ig & _ & Ei & _ & _).
    rewrite Ei. cbn [obind]. destruct (loop_ok ig x xs Hx Ei (length xs) 0%nat hx fh eq_refl Hh) as (hs & h & E & F & Q). cbn [skipn] in F, Q.
    assert (nth 0 (tshape x) 0%nat = length xs) as -> by (destruct Hx as [S _]; rewrite S; reflexivity). rewrite E. cbn [obind fst snd].
    assert (hs <> []) as Nh by (intros ->; apply F2_length in F; rewrite run_length in F; cbn in F; lia).
    destruct (stack_ok hs _ Nh F) as [-> Y]. cbn [obind]. eauto.
  Qed.
End Cell.

(** states of a layer: one or two directions *)
Definition hidrep (bi : bool) (B H : nat) (h : tensor R) (fs : list mat) : Prop :=
  if bi then seqrep false B H h fs /\ length fs = 2%nat else exists f, fs = [f] /\ rep B H h f.
Lemma layer_ok bi B H K l x xs h fs : length l = ndirs bi -> Forall (params_ok 3 H K) l -> seqrep false B K x xs -> xs <> [] -> (0 < B)%nat ->
  hidrep bi B H h fs ->
  exists y hn, qgru_layer l x h = Some (y, hn) /\ seqrep false B (ndirs bi * H) y (layer_out gru_cell (fun s => s) H (combine l fs) xs) /\
    (if bi then tshape hn = [2; H]%nat else exists f, layer_final gru_cell (combine l fs) xs = [f] /\ rep B H hn f).
Proof.
  intros Ll Fp Hx Nx HB Hh. destruct bi; cbn [ndirs] in *.
  - destruct l as [|p [|q [|]]]; try discriminate. destruct Hh as [Hs Lf]. destruct fs as [|f [|g [|]]]; try discriminate.
    inversion Fp as [|? ? Pp Fq]; subst. inversion Fq as [|? ? Pq _]; subst. cbn [qgru_layer combine layer_out layer_final].
    assert (forall k, (k < 2)%nat -> index0 k h = Some (unpack 0 k h) /\ rep B H (unpack 0 k h) (nth k [f; g] no_mat)) as Ih.
    { intros k Hk. destruct Hs as [S G]. unfold index0. rewrite S. cbn [nth length]. apply Nat.ltb_lt in Hk as Hk'. rewrite Hk'. split; [reflexivity|].
      split; unfold unpack; cbn [tshape tget]; [rewrite S; reflexivity|]. intros b j Hb Hj. exact (G k b j Hk Hb Hj). }
    destruct (Ih 1%nat ltac:(lia)) as [-> R1]. cbn [obind]. destruct (Ih 0%nat ltac:(lia)) as [-> R0]. cbn [obind nth] in *.
    destruct (cell_ok B H K p Pp x xs _ f Hx Nx R0 HB) as (y0 & h0 & E0 & Y0 & Q0). rewrite E0. cbn [obind].
    assert (rev xs <> []) as Nr by (intro E; apply (f_equal (@length _)) in E; rewrite rev_length in E; destruct xs; [congruence|discriminate]).
    destruct (cell_ok B H K q Pq _ (rev xs) _ g (reverse_seq false B K x xs Hx) Nr R1 HB) as (y1 & h1 & E1 & Y1 & Q1). cbn [obind] in E1. rewrite E1. cbn [obind fst snd].
    assert (forall t f, rep B H t f -> index0 0 t = Some (unpack 0 0 t) /\ tshape (unpack 0 0 t) = [H]) as I0.
    { intros t f' [S _]. unfold index0, unpack. cbn [tshape]. rewrite S. cbn [nth]. apply Nat.ltb_lt in HB. rewrite HB. auto. }
    destruct (I0 _ _ Q0) as [-> S0]. destruct (I0 _ _ Q1) as [-> S1]. cbn [obind].
    unfold stack0. cbn [forallb]. rewrite S0, S1. unfold list_eqb. destruct (list_eq_dec Nat.eq_dec [H] [H]); [|congruence]. cbn [andb obind].
    eexists. eexists. split; [reflexivity|].
    apply (reverse_seq false) in Y1. cbn [Nat.add] in Y1.
    assert (length (tshape y0) = 3%nat) as L3 by (destruct Y0 as [S _]; rewrite S; reflexivity). rewrite L3. change (3 - 1)%nat with 2%nat.
    split.
    + unfold direction_out. rewrite !map_id.
      assert (length (run gru_cell p f xs) = length (rev (run gru_cell q g (rev xs)))) as LL by (rewrite rev_length, !run_length, rev_length; reflexivity).
      pose proof (concat_sides false B H _ _ _ _ LL Y0 Y1) as C. rewrite run_length in C. exact C.
    + unfold pack. cbn [tshape]. rewrite S0. reflexivity.
  - destruct l as [|p [|]]; try discriminate. destruct Hh as (f & -> & Hh). inversion Fp as [|? ? Pp _]; subst. cbn [qgru_layer combine layer_out layer_final].
    destruct (cell_ok B H K p Pp x xs h f Hx Nx Hh HB) as (y & hn & E & Y & Q). exists y, hn. split; [exact E|]. split.
    + unfold direction_out. rewrite map_id, Nat.mul_1_l. exact Y.
    + unfold direction_final. eauto.
Qed.
Lemma layer_out_length (bi : bool) (l : list rnn_params) (fs : list mat) H xs : length l = ndirs bi -> length fs = ndirs bi ->
  length (layer_out gru_cell (fun s => s) H (combine l fs) xs) = length xs.
Proof.
  destruct bi; cbn [ndirs]; intros L F.
  - destruct l as [|p [|q [|]]]; try discriminate. destruct fs as [|f [|g [|]]]; try discriminate. cbn [combine layer_out]. now rewrite map_length, seq_length.
  - destruct l as [|p [|]]; try discriminate. destruct fs as [|f [|]]; try discriminate. cbn [combine layer_out]. unfold direction_out. now rewrite map_length, run_length.
Qed.
Lemma layers_ok (bi : bool) B H : (0 < B)%nat -> forall ps I k st hx x xs, net_ok 3 H I (ndirs bi) ps -> length hx = length ps ->
  (forall i, (i < length ps)%nat -> hidrep bi B H (nth i hx nt) (map st (seq (k + i * ndirs bi) (ndirs bi)))) ->
  seqrep false B I x xs -> xs <> [] ->
  exists y hs, qgru_layers ps hx x = Some (y, hs) /\ length hs = length ps /\
    (ps <> [] -> seqrep false B (ndirs bi * H) y (fst (net gru_cell (fun s => s) H (attach st k ps) xs))) /\
    (if bi then Forall (fun h => tshape h = [2; H]%nat) hs else Forall2 (rep B H) hs (snd (net gru_cell (fun s => s) H (attach st k ps) xs))).
Proof.
  intros HB. induction ps as [|l ps IH]; intros I k st hx x xs Nok Lh Hh Hx Nx.
  - exists x, []. cbn. split; [reflexivity|]. split; [reflexivity|]. split; [congruence|]. destruct bi; constructor.
  - destruct hx as [|h hx]; [discriminate|]. destruct Nok as (Ll & Fp & Nok'). cbn [qgru_layers attach net fst snd]. rewrite Ll.
    pose proof (Hh 0%nat ltac:(cbn; lia)) as H0. cbn [nth] in H0. rewrite Nat.mul_0_l, Nat.add_0_r in H0.
    destruct (layer_ok bi B H I l x xs h _ Ll Fp Hx Nx HB H0) as (y1 & hn & E1 & Y1 & Q1). rewrite E1. cbn [obind fst snd].
    assert (length (layer_out gru_cell (fun s => s) H (combine l (map st (seq k (ndirs bi)))) xs) = length xs) as L1 by (apply (layer_out_length bi); [exact Ll | now rewrite map_length, seq_length]).
    set (xs1 := layer_out gru_cell (fun s => s) H (combine l (map st (seq k (ndirs bi)))) xs) in *.
    assert (xs1 <> []) as N1 by (intro E; rewrite E in L1; destruct xs; [congruence|discriminate]).
    destruct (IH (ndirs bi * H)%nat (k + ndirs bi)%nat st hx y1 xs1 Nok' ltac:(cbn in Lh; lia)) as (y & hs & E & Lhs & Y & Q); auto.
    { intros i Hi. specialize (Hh (S i) ltac:(cbn; lia)). cbn [nth] in Hh. replace (k + ndirs bi + i * ndirs bi)%nat with (k + S i * ndirs bi)%nat by (cbn [Nat.mul]; lia). exact Hh. }
    rewrite E. cbn [obind fst snd]. exists y, (hn :: hs). split; [reflexivity|]. split; [cbn; lia|]. split.
    + intros _. destruct ps as [|l' ps].
      * cbn [qgru_layers] in E. injection E as <- <-. cbn [attach net fst]. exact Y1.
      * apply Y. discriminate.
    + destruct bi; [constructor; auto|]. destruct Q1 as (f & -> & Qf). cbn [app]. constructor; auto.
Qed.

Lemma swap_seq bf B W x xs : seqrep bf B W x xs -> seqrep (negb bf) B W (transpose [1; 0; 2]%nat x) xs.
Proof.
  intros [S G]. unfold transpose. split; cbn [tshape tget].
  - rewrite S. destruct bf; reflexivity.
  - intros t b j Ht Hb Hj. rewrite <- (G t b j) by auto. destruct bf; reflexivity.
Qed.
(** the given state, or zero *)
Definition gru_start (n B H : nat) (hidden : option (tensor R)) (h0 : tensor R) : Prop :=
  match hidden with
  | Some t => t = h0 /\ tshape h0 = [n; B; H]
  | None => forall idx, valid [n; B; H] idx -> tget h0 idx = 0
  end.

Lemma hid_given (bi : bool) L B H h i : tshape h = [(L * ndirs bi)%nat; B; H] -> (i < L)%nat ->
  hidrep bi B H (squeeze0 (unpack 0 i (reshape [L; ndirs bi; B; H] h))) (map (state_of h) (seq (0 + i * ndirs bi) (ndirs bi))).
Proof.
  intros Sh Hi. assert (forall d b j, (d < ndirs bi)%nat -> (b < B)%nat -> (j < H)%nat -> tget (reshape [L; ndirs bi; B; H] h) [i; d; b; j] = tget h [(i * ndirs bi + d)%nat; b; j]) as G.
  { intros d b j Hd Hb Hj. cbn [reshape tget]. f_equal. rewrite Sh.
    replace (ravel [L; ndirs bi; B; H] [i; d; b; j]) with (ravel [(L * ndirs bi)%nat; B; H] [(i * ndirs bi + d)%nat; b; j]) by (cbn; ring).
    apply unravel_ravel. repeat constructor; auto. nia. }
  destruct bi; cbn [ndirs] in *.
  - split; [|reflexivity]. unfold squeeze0, unpack. cbn [reshape tshape remove_at firstn skipn app]. split; [reflexivity|].
    intros t b j Ht Hb Hj. cbn [map length seq] in Ht. cbn [tget]. change (insert_at 0 i [t; b; j]) with [i; t; b; j]. rewrite G by auto.
    destruct t as [|[|t]]; [| |lia]; cbn [map seq nth]; unfold state_of; do 2 f_equal; lia.
  - eexists. split; [reflexivity|]. unfold squeeze0, unpack. cbn [reshape tshape remove_at firstn skipn app]. split; [reflexivity|].
    intros b j Hb Hj. cbn [tget]. change (insert_at 0 i (insert_at 0 0%nat [b; j])) with [i; 0%nat; b; j]. rewrite G by auto.
    unfold state_of. do 2 f_equal. lia.
Qed.
Lemma hid_zero (bi : bool) L B H h0 i : (forall idx, valid [(L * ndirs bi)%nat; B; H] idx -> tget h0 idx = 0) -> (i < L)%nat ->
  hidrep bi B H (squeeze0 (mkT [ndirs bi; B; H] (fun _ => 0))) (map (state_of h0) (seq (0 + i * ndirs bi) (ndirs bi))).
Proof.
  intros Z Hi. assert (forall d b j, (d < ndirs bi)%nat -> (b < B)%nat -> (j < H)%nat -> state_of h0 (i * ndirs bi + d) b j = 0) as G.
  { intros d b j Hd Hb Hj. apply Z. repeat constructor; auto. nia. }
  destruct bi; cbn [ndirs] in *.
  - split; [|reflexivity]. unfold squeeze0. cbn [tshape]. split; [reflexivity|].
    intros t b j Ht Hb Hj. cbn [map length seq] in Ht. cbn [tget]. symmetry. destruct t as [|[|t]]; [| |lia]; cbn [map seq nth].
    + rewrite <- (G 0%nat b j) by auto. f_equal. lia.
    + rewrite <- (G 1%nat b j) by auto. f_equal. lia.
  - exists (state_of h0 (i * 1 + 0)). split; [cbn [map seq]; do 2 f_equal; lia|]. split; [reflexivity|]. intros b j Hb Hj. cbn [tget]. symmetry. apply G; auto.
Qed.

Theorem qgru_ok (bf bi : bool) (ps : list (list rnn_params)) (hidden : option (tensor R)) (h0 x : tensor R) (T B I H : nat) :
  ps <> [] -> net_ok 3 H I (ndirs bi) ps -> tshape x = (if bf then [B; T; I] else [T; B; I]) -> (0 < T)%nat -> (0 < B)%nat -> (0 < H)%nat ->
  gru_start (length ps * ndirs bi) B H hidden h0 ->
  exists y hn, qgru bf bi H ps hidden x = Some (y, hn) /\ teq y (fst (torch_gru bf H (ndirs bi) ps h0 x)) /\
    (bi = false -> teq hn (snd (torch_gru bf H (ndirs bi) ps h0 x))) /\
    (bi = true -> tshape hn = [length ps; 2; H]%nat).
Proof.
  intros Np Nok Sx HT HB HH Hs. unfold qgru. fold (ndirs bi).
  destruct (steps_rep bf B I T x Sx) as [Rx Lx].
  assert (batch bf x = B) as EB by (unfold batch; rewrite Sx; destruct bf; reflexivity).
  assert (steps bf x <> []) as Nx by (intro E; rewrite E in Lx; cbn in Lx; lia).
  set (x1 := if bf then transpose [1; 0; 2]%nat x else x).
  assert (seqrep false B I x1 (steps bf x)) as R1.
  { subst x1. destruct bf; [exact (swap_seq true B I x _ Rx) | exact Rx]. }
  assert (nth 1 (tshape x1) 0%nat = B) as -> by (destruct R1 as [S _]; rewrite S; reflexivity).
  set (L := length ps) in *.
  set (ohx := match hidden with None => _ | Some h => _ end).
  assert (exists hx, ohx = Some hx /\ length hx = L /\ forall i, (i < L)%nat -> hidrep bi B H (nth i hx nt) (map (state_of h0) (seq (0 + i * ndirs bi) (ndirs bi)))) as (hx & -> & Lhx & Hhx).
  { subst ohx. destruct hidden as [h|]; cbn [gru_start] in Hs.
    - destruct Hs as [-> Sh]. rewrite Sh. assert (prod [L; ndirs bi; B; H] = prod [(L * ndirs bi)%nat; B; H]) as -> by (cbn; ring). rewrite Nat.eqb_refl.
      eexists. split; [reflexivity|]. split; [now rewrite map_length, seq_length|]. intros i Hi. rewrite nth_map_seq by auto. now apply hid_given.
    - eexists. split; [reflexivity|]. split; [apply repeat_length|]. intros i Hi.
      rewrite (nth_indep _ nt (squeeze0 (mkT [ndirs bi; B; H] (fun _ => 0)))) by (now rewrite repeat_length). rewrite nth_repeat. apply (hid_zero bi L); auto. }
  cbn [obind].
  destruct (layers_ok bi B H HB ps I 0%nat (state_of h0) hx x1 (steps bf x) Nok Lhx Hhx R1 Nx) as (y & hs & E & Lhs & Y & Q). fold L in Lhs.
  rewrite E. cbn [obind fst snd]. specialize (Y Np).
  assert (0 < L)%nat as HL by (subst L; destruct ps; [congruence|cbn; lia]).
  assert (hs <> []) as Nh by (intros ->; cbn in Lhs; lia).
  assert (teq (if bf then transpose [1; 0; 2]%nat y else y) (fst (torch_gru bf H (ndirs bi) ps h0 x))) as TY.
  { unfold torch_gru. rewrite EB. cbn [fst]. apply seqrep_teq. destruct bf; [exact (swap_seq false B _ y _ Y) | exact Y]. }
  destruct bi.
  - assert (exists a b, stack0 hs = Some (mkT [L; 2; H]%nat a) /\ a = b) as (a & b & -> & _).
    { destruct hs as [|h1 hs]; [congruence|]. inversion Q as [|? ? S1 Q']; subst. unfold stack0. rewrite S1.
      replace (forallb (fun u => list_eqb (tshape u) [2%nat; H]) (h1 :: hs)) with true.
      - unfold pack. rewrite S1, Lhs. eexists. eexists. split; reflexivity.
      - symmetry. apply forallb_forall. intros u Hu. rewrite Forall_forall in Q. rewrite (Q u Hu). unfold list_eqb. destruct (list_eq_dec Nat.eq_dec [2%nat; H] [2%nat; H]); congruence. }
    cbn [obind tshape length nth]. change (3 - 2)%nat with 1%nat. change (3 - 1)%nat with 2%nat. cbn [nth].
    destruct (Nat.eqb_spec (2 * H) 0) as [Hz|_]; [lia|]. eexists. eexists. split; [reflexivity|]. split; [exact TY|]. split; [discriminate|]. intros _.
    cbn [reshape tshape]. repeat f_equal. replace (prod [L; 2%nat; H]) with (L * (2 * H))%nat by (cbn; ring). apply Nat.div_mul. lia.
  - destruct (stack_ok B H hs _ Nh Q) as [-> Hp]. cbn [obind].
    assert (tshape (pack 0 0 hs) = [L; B; H]) as Sp by (destruct Hp as [S _]; rewrite S; rewrite <- (F2_length _ _ _ Q), Lhs; reflexivity).
    rewrite Sp. cbn [length nth]. change (3 - 2)%nat with 1%nat. change (3 - 1)%nat with 2%nat. cbn [nth].
    destruct (Nat.eqb_spec (B * H) 0) as [Hz|_]; [nia|]. eexists. eexists. split; [reflexivity|]. split; [exact TY|]. split; [|discriminate]. intros _.
    replace (prod [L; B; H]) with (L * (B * H))%nat by (cbn; ring). rewrite Nat.div_mul by nia.
    unfold torch_gru. rewrite EB. cbn [snd]. pose proof (state_output_ok B H hs _ Nh Q) as St.
    rewrite <- Sp. eapply teq_trans; [|exact St]. split; [reflexivity|]. intros idx V. cbn [reshape tget tshape] in *. rewrite unravel_ravel; auto.
Qed.

Lemma qgru_output (bf bi : bool) (ps : list (list rnn_params)) (hidden : option (tensor R)) (h0 x : tensor R) (T B I H : nat) :
  ps <> [] -> net_ok 3 H I (ndirs bi) ps -> tshape x = (if bf then [B; T; I] else [T; B; I]) ->
  (0 < T)%nat -> (0 < B)%nat -> (0 < H)%nat -> gru_start (length ps * ndirs bi) B H hidden h0 ->
  exists y hn, qgru bf bi H ps hidden x = Some (y, hn) /\ teq y (fst (torch_gru bf H (ndirs bi) ps h0 x)).
Proof.
  intros H1 H2 H3 H4 H5 H6 H7. destruct (qgru_ok bf bi ps hidden h0 x T B I H H1 H2 H3 H4 H5 H6 H7) as (y & hn & A1 & A2 & _).
  exists y, hn. split; assumption.
Qed.
Lemma qgru_state (bf : bool) (ps : list (list rnn_params)) (hidden : option (tensor R)) (h0 x : tensor R) (T B I H : nat) :
  ps <> [] -> net_ok 3 H I 1 ps -> tshape x = (if bf then [B; T; I] else [T; B; I]) ->
  (0 < T)%nat -> (0 < B)%nat -> (0 < H)%nat -> gru_start (length ps) B H hidden h0 ->
  exists y hn, qgru bf false H ps hidden x = Some (y, hn) /\ teq hn (snd (torch_gru bf H 1 ps h0 x)).
Proof.
  intros H1 H2 H3 H4 H5 H6 H7. rewrite <- (Nat.mul_1_r (length ps)) in H7.
  destruct (qgru_ok bf false ps hidden h0 x T B I H H1 H2 H3 H4 H5 H6 H7) as (y & hn & A1 & _ & A2 & _).
  exists y, hn. split; [assumption | apply A2; reflexivity].
Qed.
Lemma qgru_state_refuted (bf : bool) (ps : list (list rnn_params)) (hidden : option (tensor R)) (h0 x : tensor R) (T B I H : nat) :
  ps <> [] -> net_ok 3 H I 2 ps -> tshape x = (if bf then [B; T; I] else [T; B; I]) ->
  (0 < T)%nat -> (0 < B)%nat -> (0 < H)%nat -> gru_start (length ps * 2) B H hidden h0 ->
  exists y hn, qgru bf true H ps hidden x = Some (y, hn) /\ tshape hn = [length ps; 2; H]%nat /\
    tshape (snd (torch_gru bf H 2 ps h0 x)) = [(length ps * 2)%nat; B; H] /\ ~ teq hn (snd (torch_gru bf H 2 ps h0 x)).
Proof.
  intros H1 H2 H3 H4 H5 H6 H7.
  destruct (qgru_ok bf true ps hidden h0 x T B I H H1 H2 H3 H4 H5 H6 H7) as (y & hn & A1 & _ & _ & A2).
  specialize (A2 eq_refl).
  assert (E : tshape (snd (torch_gru bf H 2 ps h0 x)) = [(length ps * 2)%nat; B; H]).
  { unfold torch_gru. cbn [snd]. unfold state_tensor. cbn [tshape].
    rewrite (net_length _ _ _ 2), attach_length; [| now right | apply attach_sizes, (net_ok_sizes _ _ _ _ _ H2)].
    f_equal. f_equal. unfold batch. rewrite H3. destruct bf; reflexivity. }
  exists y, hn. split; [assumption|]. split; [assumption|]. split; [assumption|].
  intros [Q _]. rewrite A2, E in Q. injection Q as Q _. destruct ps; [congruence | cbn [length] in Q; lia].
Qed.
