(** The original modules (torch documentation) and their equality with the replacements. *)
From Coq Require Import List Arith Bool Reals Lra Lia.
From Verif Require Import Tensor ConvSpec FuseModel FuseProofs FuseMiscProofs QModModel.
Import ListNotations.
Local Open Scope R_scope.

(* ------------------------------------------------------------------ *)
(** * Specification *)

(** nn.PReLU: one slope for all, or one per channel (axis 1). *)
Definition prelu_spec (alpha : nat -> R) (x : tensor R) : tensor R :=
  mkT (tshape x) (fun idx => let v := tget x idx in
                             if Rle_dec 0 v then v else alpha (nth 1 idx 0%nat) * v).
(** nn.SiLU: x / (1 + exp(-x)) *)
Definition silu_spec (x : tensor R) : tensor R := tmap (fun v => v / (1 + exp (- v))) x.
(** nn.GLU: first half times the sigmoid of the second half along an even axis. *)
Definition glu_spec (ax : nat) (x : tensor R) : tensor R :=
  let h := (nth ax (tshape x) 0 / 2)%nat in
  mkT (upd (tshape x) ax h)
      (fun idx => tget x idx / (1 + exp (- tget x (upd idx ax (nth ax idx 0 + h)%nat)))).
(** nn.Hardsigmoid *)
Definition hardsigmoid_spec (v : R) : R :=
  if Rle_dec v (-3) then 0 else if Rle_dec 3 v then 1 else v / 6 + 1 / 2.
(** expectation over all indices of [ns] *)
Definition expect (ns : list nat) (f : list nat -> R) : R := lsum (indices ns) f / INR (length (indices ns)).
(** nn.LayerNorm over the trailing axes [ns]: (x - E[x]) / sqrt(Var[x] + eps) * gamma + beta, with
    Var[x] = E[x^2] - E[x]^2 *)
Definition layernorm_spec (ns : list nat) (gamma beta : tensor R) (eps : R) (x : tensor R) : tensor R :=
  mkT (tshape x) (fun idx =>
    let l := (length (tshape x) - length ns)%nat in
    let row := fun j => tget x (firstn l idx ++ j) in
    let var := expect ns (fun j => row j ^ 2) - expect ns row ^ 2 in
    (tget x idx - expect ns row) / sqrt (var + eps) * tget gamma (skipn l idx) + tget beta (skipn l idx)).
(** nn.RMSNorm: x / sqrt(E[x^2] + eps) * gamma *)
Definition rmsnorm_spec (ns : list nat) (gamma : tensor R) (eps : R) (x : tensor R) : tensor R :=
  mkT (tshape x) (fun idx =>
    let l := (length (tshape x) - length ns)%nat in
    let row := fun j => tget x (firstn l idx ++ j) in
    tget x idx / sqrt (expect ns (fun j => row j ^ 2) + eps) * tget gamma (skipn l idx)).

(* ------------------------------------------------------------------ *)
(** * Broadcasting facts *)

Lemma indices_length : forall s, length (indices s) = prod s.
Proof.
  induction s as [|d s IH]; [reflexivity|]. cbn [indices prod].
  assert (G : forall l, length (flat_map (fun i => map (cons i) (indices s)) l) = (length l * prod s)%nat).
  { induction l as [|i l IHl]; [reflexivity|]. cbn [flat_map length]. rewrite app_length, map_length, IH, IHl. lia. }
  rewrite G, seq_length. reflexivity.
Qed.

Lemma bshape_lead : forall lead ns, bshape (lead ++ ns) (lead ++ repeat 1%nat (length ns)) = Some (lead ++ ns).
Proof.
  induction lead as [|d lead IH]; intros ns; cbn [app].
  - apply bshape_ones.
  - rewrite bshape_cons by (rewrite !app_length, repeat_length; reflexivity).
    rewrite IH, bdim_same. reflexivity.
Qed.
Lemma bidx_ones : forall ns j, valid ns j -> bidx (repeat 1%nat (length ns)) j = repeat 0%nat (length ns).
Proof.
  intros ns j V. induction V as [|i d r s Hi V IH]; [reflexivity|]. cbn [length repeat].
  rewrite bidx_cons by (rewrite repeat_length; symmetry; eapply valid_length; eauto). rewrite IH. reflexivity.
Qed.
Lemma bidx_lead : forall lead ns pre j, valid lead pre -> valid ns j ->
  bidx (lead ++ repeat 1%nat (length ns)) (pre ++ j) = pre ++ repeat 0%nat (length ns).
Proof.
  intros lead ns pre j V Vj. induction V as [|i d r s Hi V IH]; cbn [app].
  - apply bidx_ones; trivial.
  - rewrite bidx_cons. 2:{ rewrite !app_length, repeat_length. rewrite (valid_length _ _ V), (valid_length _ _ Vj). reflexivity. }
    rewrite IH. destruct (Nat.eqb_spec d 1); f_equal; lia.
Qed.
Lemma bshape_rev_nil : forall a, bshape_rev a [] = Some a.
Proof. destruct a; reflexivity. Qed.
Lemma bshape_rev_prefix : forall ns lead, bshape_rev (ns ++ lead) ns = Some (ns ++ lead).
Proof.
  induction ns as [|d ns IH]; intros lead; cbn [app bshape_rev]; [apply bshape_rev_nil|].
  rewrite bdim_same, IH. reflexivity.
Qed.
Lemma bshape_trail : forall lead ns, bshape ns (lead ++ ns) = Some (lead ++ ns).
Proof.
  intros lead ns. rewrite bshape_comm. unfold bshape. rewrite rev_app_distr, bshape_rev_prefix.
  cbn [option_map]. rewrite rev_app_distr, !rev_involutive. reflexivity.
Qed.
Lemma bidx_rev_prefix : forall ns j pre, length ns = length j -> bidx_rev ns (j ++ pre) = bidx_rev ns j.
Proof. induction ns as [|d ns IH]; intros [|i j] pre H; cbn in *; try lia; trivial. f_equal. apply IH. lia. Qed.
Lemma bidx_trail : forall ns pre j, valid ns j -> bidx ns (pre ++ j) = j.
Proof.
  intros ns pre j V. unfold bidx. rewrite rev_app_distr, bidx_rev_prefix.
  - apply (bidx_self ns j V).
  - rewrite !rev_length. symmetry. eapply valid_length; eauto.
Qed.
Lemma valid_app_inv : forall lead ns idx, valid (lead ++ ns) idx ->
  exists pre j, idx = pre ++ j /\ valid lead pre /\ valid ns j.
Proof.
  intros lead ns idx V. apply Forall2_app_inv_r in V. destruct V as (pre & j & H1 & H2 & ->). exists pre, j. auto.
Qed.
Lemma firstn_pre : forall (lead pre j : list nat), length pre = length lead -> firstn (length lead) (pre ++ j) = pre.
Proof. intros lead pre j H. rewrite <- H, firstn_app, Nat.sub_diag, firstn_all, app_nil_r. reflexivity. Qed.
Lemma skipn_pre : forall (lead pre j : list nat), length pre = length lead -> skipn (length lead) (pre ++ j) = j.
Proof. intros lead pre j H. rewrite <- H, skipn_app, Nat.sub_diag, skipn_all. reflexivity. Qed.

(** elementwise operation on tensors of the same shape, and with a broadcast operand *)
Lemma binop_same : forall (f : R -> R -> R) x y, tshape x = tshape y ->
  exists r, binop f x y = Some r /\ tshape r = tshape x /\
    forall idx, valid (tshape x) idx -> tget r idx = f (tget x idx) (tget y idx).
Proof.
  intros f x y H. unfold binop. rewrite <- H, bshape_self. eexists. split; [reflexivity|].
  split; [reflexivity|]. intros idx V. cbn [tget]. rewrite !bidx_self by trivial. reflexivity.
Qed.
Lemma binop_lead : forall (f : R -> R -> R) x y lead ns, tshape x = lead ++ ns ->
  tshape y = lead ++ repeat 1%nat (length ns) ->
  exists r, binop f x y = Some r /\ tshape r = lead ++ ns /\
    forall pre j, valid lead pre -> valid ns j ->
      tget r (pre ++ j) = f (tget x (pre ++ j)) (tget y (pre ++ repeat 0%nat (length ns))).
Proof.
  intros f x y lead ns Hx Hy. unfold binop. rewrite Hx, Hy, bshape_lead. eexists. split; [reflexivity|].
  split; [reflexivity|]. intros pre j V Vj. cbn [tget].
  rewrite bidx_self by (apply Forall2_app; trivial). rewrite bidx_lead by trivial. reflexivity.
Qed.
Lemma expand_lead : forall t lead ns, tshape t = lead ++ repeat 1%nat (length ns) ->
  exists r, expand_as t (lead ++ ns) = Some r /\ tshape r = lead ++ ns /\
    forall pre j, valid lead pre -> valid ns j -> tget r (pre ++ j) = tget t (pre ++ repeat 0%nat (length ns)).
Proof.
  intros t lead ns H. unfold expand_as. rewrite H, bshape_comm, bshape_lead.
  destruct list_eq_dec as [_|C]; [|elim C; reflexivity]. eexists. split; [reflexivity|]. split; [reflexivity|].
  intros pre j V Vj. cbn [tget]. rewrite bidx_lead by trivial. reflexivity.
Qed.
Lemma expand_trail : forall t lead ns, tshape t = ns ->
  exists r, expand_as t (lead ++ ns) = Some r /\ tshape r = lead ++ ns /\
    forall pre j, valid ns j -> tget r (pre ++ j) = tget t j.
Proof.
  intros t lead ns H. unfold expand_as. rewrite H, bshape_trail.
  destruct list_eq_dec as [_|C]; [|elim C; reflexivity]. eexists. split; [reflexivity|]. split; [reflexivity|].
  intros pre j Vj. cbn [tget]. rewrite bidx_trail by trivial. reflexivity.
Qed.
Lemma mean_lead : forall t lead ns, tshape t = lead ++ ns ->
  exists r, mean_last (length ns) t = Some r /\ tshape r = lead ++ repeat 1%nat (length ns) /\
    forall pre z, valid lead pre -> tget r (pre ++ z) = expect ns (fun j => tget t (pre ++ j)).
Proof.
  intros t lead ns H. unfold mean_last. rewrite H, app_length.
  replace (length lead + length ns - length ns)%nat with (length lead) by lia.
  rewrite skipn_pre, firstn_pre by reflexivity.
  destruct (Nat.ltb_spec (length lead + length ns) (length ns)); [lia|].
  eexists. split; [reflexivity|]. split; [reflexivity|]. intros pre z V. cbn [tget].
  unfold expect. rewrite indices_length. f_equal. apply lsum_ext. intros j _.
  rewrite firstn_pre by (eapply valid_length; eauto). reflexivity.
Qed.

(* ------------------------------------------------------------------ *)
(** * Expectations *)

Lemma expect_ext : forall ns f g, (forall j, valid ns j -> f j = g j) -> expect ns f = expect ns g.
Proof.
  intros ns f g H. unfold expect. f_equal. apply lsum_ext. intros j Hj. apply H. apply indices_valid. exact Hj.
Qed.
Lemma prod_pos : forall ns j, valid ns j -> (0 < prod ns)%nat.
Proof. intros ns j V. induction V as [|i d r s Hi V IH]; cbn [prod]; [lia|]. nia. Qed.
(** mean of the squared differences *)
Lemma expect_var : forall ns f j, valid ns j ->
  expect ns (fun j => (f j + - expect ns f) * (f j + - expect ns f)) = expect ns (fun j => f j ^ 2) - expect ns f ^ 2.
Proof.
  intros ns f j V. set (m := expect ns f). assert (P : 0 < INR (length (indices ns))).
  { rewrite indices_length. apply lt_0_INR. eapply prod_pos; eauto. }
  assert (E : lsum (indices ns) f = m * INR (length (indices ns))) by (unfold m, expect; field; lra).
  unfold expect.
  assert (Q : lsum (indices ns) (fun j => (f j + - m) * (f j + - m)) =
              lsum (indices ns) (fun j => f j ^ 2) + (-2 * m) * lsum (indices ns) f + m ^ 2 * INR (length (indices ns))).
  { rewrite <- lsum_scal, <- lsum_plus. clear E P. clearbody m. induction (indices ns) as [|a l IH].
    - rewrite !lsum_nil. cbn. ring.
    - rewrite !lsum_cons, IH. cbn [length]. rewrite S_INR. ring. }
  rewrite Q, E. field. lra.
Qed.

(* ------------------------------------------------------------------ *)
(** * Activations *)

Lemma prelu_point : forall a v, relu v + a * (relu (v * -1) * -1) = if Rle_dec 0 v then v else a * v.
Proof. intros a v. unfold relu. unfold Rmax. repeat destruct Rle_dec; first [ring | exfalso; lra | assert (E : v = 0) by lra; rewrite E; ring]. Qed.

Lemma qprelu_shared : forall w x, prod (tshape w) = 1%nat ->
  exists r, qprelu w x = Some r /\ teq r (prelu_spec (fun _ => tget w (unravel (tshape w) 0)) x).
Proof.
  intros w x H. unfold qprelu. rewrite H. cbn [Nat.eqb]. unfold binop at 1.
  cbn [tshape reshape tmap]. rewrite bshape_comm. unfold bshape at 1. cbn [rev].
  rewrite bshape_rev_nil. cbn [option_map]. rewrite rev_involutive. cbn [obind].
  match goal with |- exists r, binop Rplus ?a ?b = Some r /\ _ => destruct (binop_same Rplus a b eq_refl) as (r & E & S & G) end.
  rewrite E. exists r. split; [reflexivity|]. split; [exact S|]. intros idx V. rewrite S in V. cbn [tshape tmap] in V.
  rewrite G by exact V. cbn [tget tmap prelu_spec reshape]. rewrite (bidx_self _ _ V).
  unfold bidx. cbn [rev bidx_rev ravel]. apply prelu_point.
Qed.

Lemma bidx_channel2 : forall C (r : list nat) n c pos, (c < C)%nat -> length pos = length r ->
  bidx (C :: repeat 1%nat (length r)) (n :: c :: pos) = c :: repeat 0%nat (length r).
Proof.
  intros C r n c pos Hc Hl. unfold bidx. cbn [rev]. rewrite <- app_assoc. cbn [app].
  assert (G : forall a b i t, length a = length b -> bidx_rev (a ++ [C]) (b ++ i :: t) = bidx_rev a b ++ [if (C =? 1)%nat then 0%nat else i]).
  { induction a as [|d a IH]; intros [|e b] i t H; cbn in *; try lia; [reflexivity|]. f_equal. apply IH. lia. }
  rewrite G by (rewrite !rev_length, repeat_length; symmetry; exact Hl).
  rewrite rev_app_distr. cbn [rev app]. f_equal; [destruct (Nat.eqb_spec C 1); lia|].
  change (rev (bidx_rev (rev (repeat 1%nat (length r))) (rev pos))) with (bidx (repeat 1%nat (length r)) pos).
  clear G. revert pos Hl. induction r as [|d r IH]; intros [|p pos] Hl; cbn in Hl; try lia; [reflexivity|].
  cbn [length repeat]. rewrite bidx_cons by (rewrite repeat_length; lia). rewrite IH by lia. reflexivity.
Qed.
Lemma bshape_channel2 : forall N C r, bshape (C :: repeat 1%nat (length r)) (N :: C :: r) = Some (N :: C :: r).
Proof.
  intros N C r. rewrite bshape_comm. unfold bshape. cbn [rev]. rewrite <- app_assoc. cbn [app].
  assert (G : forall a b N C, bshape_rev a b = Some a -> length a = length b ->
     bshape_rev (a ++ [C; N]) (b ++ [C]) = Some (a ++ [C; N])).
  { clear. induction a as [|d a IH]; intros [|e b] N C H Hl; cbn in Hl; try lia.
    - cbn. rewrite bdim_same. reflexivity.
    - cbn [app bshape_rev] in *. destruct (bdim d e) as [q|]; [|discriminate].
      destruct (bshape_rev a b) as [t|] eqn:E; [|discriminate]. injection H as -> ->.
      rewrite (IH b N C E) by lia. reflexivity. }
  rewrite G.
  - cbn [option_map]. rewrite rev_app_distr, rev_involutive. reflexivity.
  - pose proof (bshape_ones r) as Q. unfold bshape in Q. destruct bshape_rev as [t|]; [|discriminate].
    injection Q as Q. rewrite <- Q, rev_involutive. reflexivity.
  - rewrite !rev_length, repeat_length. reflexivity.
Qed.

Lemma ravel_zeros : forall r z c, ravel (c :: repeat 1%nat r) (z :: repeat 0%nat r) = z.
Proof.
  assert (P : forall r, prod (repeat 1%nat r) = 1%nat) by (induction r as [|r IH]; cbn [repeat prod]; lia).
  assert (Q : forall r, ravel (repeat 1%nat r) (repeat 0%nat r) = 0%nat)
    by (induction r as [|r IH]; cbn [repeat ravel]; lia).
  intros r z c. cbn [ravel]. rewrite P, Q. lia.
Qed.

Lemma qprelu_channel : forall w x N C r, tshape w = [C] -> tshape x = N :: C :: r ->
  exists t, qprelu w x = Some t /\ teq t (prelu_spec (fun c => tget w [c]) x).
Proof.
  intros w x N C r Hw Hx. destruct (Nat.eq_dec C 1) as [->|NC].
  { destruct (qprelu_shared w x) as (t & E & (S & G)); [rewrite Hw; reflexivity|].
    exists t. split; [exact E|]. split; [exact S|]. intros idx V. rewrite (G idx V). cbn [tget prelu_spec].
    rewrite Hw. cbn [unravel prod]. rewrite S in V. cbn [prelu_spec tshape] in V. rewrite Hx in V.
    pose proof (valid_nth _ _ 1 V ltac:(cbn; lia)) as Q. cbn [nth] in Q.
    replace (nth 1 idx 0%nat) with 0%nat by lia. reflexivity. }
  unfold qprelu. rewrite Hw. cbn [prod]. rewrite Nat.mul_1_r. destruct (Nat.eqb_spec C 1); [lia|].
  rewrite Hx. cbn [length app]. replace (S (S (length r)) - 2)%nat with (length r) by lia.
  unfold binop at 1. cbn [tshape reshape tmap]. rewrite Hx, bshape_channel2. cbn [obind].
  match goal with |- exists t, binop Rplus ?a ?b = Some t /\ _ => destruct (binop_same Rplus a b Hx) as (t & E & S & G) end.
  rewrite E. exists t. split; [reflexivity|]. split; [exact S|]. intros idx V. rewrite S in V. cbn [tshape tmap] in V.
  rewrite G by exact V. cbn [tget tmap prelu_spec reshape]. rewrite Hx in V. rewrite (bidx_self _ _ V).
  inversion V as [|n0 d0 r0 s0 Hn V1]; subst idx d0 s0. inversion V1 as [|c0 d0 pos s0 Hc V2]; subst r0 d0 s0.
  rewrite bidx_channel2 by (trivial; eapply valid_length; eauto).
  rewrite ravel_zeros, Hw. cbn [unravel prod nth]. rewrite Nat.div_1_r. apply prelu_point.
Qed.

Lemma qsilu_ok : forall x, exists r, qsilu x = Some r /\ teq r (silu_spec x).
Proof.
  intros x. unfold qsilu. destruct (binop_same Rmult x (tmap sigmoid x) eq_refl) as (r & E & S & G).
  exists r. split; [exact E|]. split; [exact S|]. intros idx V. rewrite S in V. rewrite G by exact V. reflexivity.
Qed.

Lemma qglu_even : forall ax x, (ax < length (tshape x))%nat -> Nat.even (nth ax (tshape x) 0%nat) = true ->
  exists r, qglu ax x = Some r /\ teq r (glu_spec ax x).
Proof.
  intros ax x Hax Hev. unfold qglu, chunk2. destruct (Nat.leb_spec (length (tshape x)) ax); [lia|].
  destruct (nth ax (tshape x) 0 =? 1)%nat eqn:E1; [apply Nat.eqb_eq in E1; rewrite E1 in Hev; discriminate|].
  apply Nat.even_spec in Hev. destruct Hev as (h & Hh).
  assert (Q : ((nth ax (tshape x) 0 + 1) / 2 = h)%nat).
  { rewrite Hh. symmetry. apply (Nat.div_unique _ 2 h 1); lia. }
  assert (Q2 : (nth ax (tshape x) 0 / 2 = h)%nat).
  { rewrite Hh. symmetry. apply (Nat.div_unique _ 2 h 0); lia. }
  rewrite Q. replace (nth ax (tshape x) 0 - h)%nat with h by lia. cbn [obind].
  match goal with |- exists r, binop Rmult ?a ?b = Some r /\ _ => destruct (binop_same Rmult a b eq_refl) as (r & E & S & G) end.
  exists r. split; [exact E|]. unfold glu_spec. rewrite Q2. split; [exact S|].
  intros idx V. rewrite S in V. rewrite G by exact V. cbn [tget tmap]. unfold sigmoid, Rdiv.
  rewrite (Nat.add_comm h). reflexivity.
Qed.

Lemma qhardsigmoid_ok : forall x, teq (qhardsigmoid x) (tmap hardsigmoid_spec x).
Proof.
  intros x. split; [reflexivity|]. intros idx _. cbn [qhardsigmoid tget tmap]. unfold relu6, hardsigmoid_spec.
  unfold Rmin, Rmax. repeat destruct Rle_dec; lra.
Qed.

(* ------------------------------------------------------------------ *)
(** * Norms *)

Lemma qlayernorm_ok : forall lead ns w b eps x, tshape x = lead ++ ns -> tshape w = ns -> tshape b = ns ->
  exists r, qlayernorm (length ns) (Some w) (Some b) eps x = Some r /\ teq r (layernorm_spec ns w b eps x).
Proof.
  intros lead ns w b eps x Hx Hw Hb. unfold qlayernorm. cbn [obind].
  destruct (mean_lead x lead ns Hx) as (mean & -> & Sm & Gm). cbn [obind]. rewrite Hx.
  destruct (expand_lead (tmap (fun v => v * -1) mean) lead ns) as (neg & -> & Sn & Gn); [exact Sm|]. cbn [obind].
  destruct (binop_same Rplus x neg) as (diff & -> & Sd & Gd); [rewrite Hx, Sn; reflexivity|]. cbn [obind].
  rewrite Hx in Sd, Gd.
  destruct (binop_same Rmult diff diff eq_refl) as (sq & -> & Ss & Gs). cbn [obind]. rewrite Sd in Ss, Gs.
  destruct (mean_lead sq lead ns Ss) as (var & -> & Sv & Gv). cbn [obind].
  destruct (binop_lead Rmult diff (tmap rsqrt (tmap (fun v => v + eps) var)) lead ns Sd Sv) as (norm & -> & So & Go).
  cbn [obind]. rewrite So. destruct (expand_trail w lead ns Hw) as (we & -> & Sw & Gw). cbn [obind].
  destruct (binop_same Rmult norm we) as (al & -> & Sa & Ga); [congruence|]. cbn [obind].
  rewrite Sa, So. rewrite So in Ga. destruct (expand_trail b lead ns Hb) as (be & -> & Sb & Gb). cbn [obind].
  destruct (binop_same Rplus al be) as (r & -> & Sr & Gr); [congruence|]. rewrite Sa, So in Gr.
  exists r. split; [reflexivity|]. split; [rewrite Sr, Sa, So; symmetry; exact Hx|].
  intros idx V. rewrite Sr, Sa, So in V. pose proof V as V0. destruct (valid_app_inv _ _ _ V) as (pre & j & -> & Vp & Vj).
  rewrite Gr, Ga, Go, Gw, Gb by trivial. cbn [tget tmap layernorm_spec]. rewrite Hx, app_length.
  replace (length lead + length ns - length ns)%nat with (length lead) by lia.
  rewrite firstn_pre, skipn_pre by (eapply valid_length; eauto).
  assert (D : forall j', valid ns j' -> tget diff (pre ++ j') =
     tget x (pre ++ j') + - expect ns (fun j => tget x (pre ++ j))).
  { intros j' Vj'. rewrite Gd by (apply Forall2_app; trivial). rewrite Gn by trivial. cbn [tget tmap].
    rewrite Gm by trivial. ring. }
  rewrite Gv, D by trivial.
  rewrite (expect_ext ns (fun j => tget sq (pre ++ j))
    (fun j => (tget x (pre ++ j) + - expect ns (fun j => tget x (pre ++ j))) *
              (tget x (pre ++ j) + - expect ns (fun j => tget x (pre ++ j))))).
  2:{ intros j' Vj'. rewrite Gs by (apply Forall2_app; trivial). rewrite D by trivial. reflexivity. }
  rewrite (expect_var ns (fun j => tget x (pre ++ j)) j Vj). unfold rsqrt, Rdiv. ring.
Qed.

Lemma qrmsnorm_ok : forall lead ns w eps x, tshape x = lead ++ ns -> tshape w = ns ->
  exists r, qrmsnorm (length ns) (Some w) (Some eps) x = Some r /\ teq r (rmsnorm_spec ns w eps x).
Proof.
  intros lead ns w eps x Hx Hw. unfold qrmsnorm. cbn [obind].
  destruct (binop_same Rmult x x eq_refl) as (sq & -> & Ss & Gs). cbn [obind]. rewrite Hx in Ss, Gs.
  destruct (mean_lead sq lead ns Ss) as (ms & -> & Sv & Gv). cbn [obind].
  destruct (binop_lead Rmult x (tmap rsqrt (tmap (fun v => v + eps) ms)) lead ns Hx Sv) as (norm & -> & So & Go).
  cbn [obind]. rewrite So. destruct (expand_trail w lead ns Hw) as (we & -> & Sw & Gw). cbn [obind].
  destruct (binop_same Rmult norm we) as (r & -> & Sr & Gr); [congruence|]. rewrite So in Gr.
  exists r. split; [reflexivity|]. split; [rewrite Sr, So; symmetry; exact Hx|].
  intros idx V. rewrite Sr, So in V. destruct (valid_app_inv _ _ _ V) as (pre & j & -> & Vp & Vj).
  rewrite Gr, Go, Gw by trivial. cbn [tget tmap rmsnorm_spec]. rewrite Hx, app_length.
  replace (length lead + length ns - length ns)%nat with (length lead) by lia.
  rewrite firstn_pre, skipn_pre by (eapply valid_length; eauto). rewrite Gv by trivial.
  rewrite (expect_ext ns (fun j => tget sq (pre ++ j)) (fun j => tget x (pre ++ j) ^ 2)).
  2:{ intros j' Vj'. rewrite Gs by (apply Forall2_app; trivial). ring. }
  unfold rsqrt, Rdiv. ring.
Qed.

(** without eps the replacement divides by the bare root of the mean square *)
Lemma qrmsnorm_none : forall lead ns w x, tshape x = lead ++ ns -> tshape w = ns ->
  exists r, qrmsnorm (length ns) (Some w) None x = Some r /\ teq r (rmsnorm_spec ns w 0 x).
Proof.
  intros lead ns w x Hx Hw. unfold qrmsnorm. cbn [obind].
  destruct (binop_same Rmult x x eq_refl) as (sq & -> & Ss & Gs). cbn [obind]. rewrite Hx in Ss, Gs.
  destruct (mean_lead sq lead ns Ss) as (ms & -> & Sv & Gv). cbn [obind].
  destruct (binop_lead Rmult x (tmap rsqrt ms) lead ns Hx Sv) as (norm & -> & So & Go).
  cbn [obind]. rewrite So. destruct (expand_trail w lead ns Hw) as (we & -> & Sw & Gw). cbn [obind].
  destruct (binop_same Rmult norm we) as (r & -> & Sr & Gr); [congruence|]. rewrite So in Gr.
  exists r. split; [reflexivity|]. split; [rewrite Sr, So; symmetry; exact Hx|].
  intros idx V. rewrite Sr, So in V. destruct (valid_app_inv _ _ _ V) as (pre & j & -> & Vp & Vj).
  rewrite Gr, Go, Gw by trivial. cbn [tget tmap rmsnorm_spec]. rewrite Hx, app_length.
  replace (length lead + length ns - length ns)%nat with (length lead) by lia.
  rewrite firstn_pre, skipn_pre by (eapply valid_length; eauto). rewrite Gv by trivial.
  rewrite (expect_ext ns (fun j => tget sq (pre ++ j)) (fun j => tget x (pre ++ j) ^ 2)).
  2:{ intros j' Vj'. rewrite Gs by (apply Forall2_app; trivial). ring. }
  rewrite Rplus_0_r. unfold rsqrt, Rdiv. ring.
Qed.
