(** Proofs about cross-layer equalization (C43, C44). *)
From Coq Require Import List Arith ZArith Bool Reals Lia Lra Permutation.
From Verif Require Import Tensor ConvSpec QuantSpec FuseModel FuseProofs QuantModel QuantProofs LlmProofs EqModel.
Import ListNotations.
Local Open Scope R_scope.

(* ------------------------------------------------------------------ *)
(** * Vocabulary *)

(** channel of an output position *)
Definition chan (k : lkind) (idx : list nat) : nat :=
  match k with KConv _ => nth 1 idx 0%nat | KLinear => last idx 0%nat end.
Definition lbias (b : option (list R)) (o : nat) : R := match b with Some b => nth o b 0 | None => 0 end.
Definition run1 (l : clayer) (x : tensor R) : tensor R :=
  let y := match cl_kind l with
           | KConv a => conv a x (cl_w l) (lbias (cl_b l))
           | KLinear => fc x (cl_w l) (lbias (cl_b l))
           end in
  mkT (tshape y) (fun idx => cl_act l (chan (cl_kind l) idx) (tget y idx)).
Definition run_net (net : list clayer) (x : tensor R) : tensor R := fold_left (fun x l => run1 l x) net x.

Definition pos_homog (phi : nat -> R -> R) : Prop := forall c t y, 0 < t -> phi c (t * y) = t * phi c y.
Definition layer_wf (l : clayer) : Prop :=
  match cl_kind l with
  | KConv a => (2 <= length (tshape (cl_w l)))%nat /\ (0 < ca_groups a)%nat /\ (nth 0 (tshape (cl_w l)) 0 mod ca_groups a = 0)%nat
  | KLinear => length (tshape (cl_w l)) = 2%nat
  end.
Definition same_kind (a b : lkind) : Prop :=
  match a, b with KConv _, KConv _ | KLinear, KLinear => True | _, _ => False end.

Lemma obind_inv {A B} (o : option A) (f : A -> option B) b : obind o f = Some b -> exists a, o = Some a /\ f a = Some b.
Proof. destruct o; [eauto|discriminate]. Qed.

(* ------------------------------------------------------------------ *)
(** * The scales *)

Lemma eq_scale_pos thr r1 r2 s : eq_scale thr r1 r2 = Some s -> 0 < s.
Proof.
  unfold eq_scale. destruct (Rlt_dec _ _); [intro H; injection H as <-; lra|].
  destruct (Req_EM_T _ _).
  - destruct (Req_EM_T r1 0); [discriminate|]. intro H; injection H as <-. unfold s_max. lra.
  - intro H; injection H as <-. apply Rmin_glb_lt; [unfold s_max; lra|].
    apply Rlt_le_trans with s_min; [unfold s_min; lra|apply Rmax_l].
Qed.

Lemma rows_absmax_length t r : rows_absmax t = Some r -> length r = nth 0 (tshape t) 0%nat.
Proof. intro H. apply oall_length in H. rewrite H, map_length, seq_length. reflexivity. Qed.

Lemma equalize_inv w1 w2 g thr s : equalize w1 w2 g thr = Some s ->
  (2 <= length (tshape w2))%nat /\ length s = nth 0 (tshape w1) 0%nat /\
  length s = (nth 1 (tshape w2) 0 * g)%nat /\ forall c, (c < length s)%nat -> 0 < nth c s 0.
Proof.
  unfold equalize. destruct (_ <? 3)%nat eqn:E3; [discriminate|]. apply Nat.ltb_ge in E3. cbn [tshape reshape length] in E3.
  intro H. apply obind_inv in H. destruct H as (r1 & E1 & H). apply obind_inv in H. destruct H as (r2 & E2 & H).
  destruct (length r1 =? length r2)%nat eqn:EL; [|discriminate]. apply Nat.eqb_eq in EL.
  pose proof (oall_length _ _ H) as HL. rewrite map_length, seq_length in HL.
  apply rows_absmax_length in E1, E2. cbn [tshape reshape nth] in E1, E2.
  assert (Hs : (2 <= length (tshape w2))%nat) by (destruct (tshape w2); cbn in E3 |- *; lia).
  split; [exact Hs|]. split; [congruence|]. split.
  - rewrite HL, EL, E2. cbn [transpose tshape reshape sel app map nth].
    destruct (tshape w2) as [|a [|b r]]; cbn in Hs |- *; try lia.
  - intros c Hc. rewrite HL in Hc.
    assert (Hc2 : (c < length (map (fun c => eq_scale thr (nth c r1 0%R) (nth c r2 0%R)) (seq 0 (length r1))))%nat)
      by (rewrite map_length, seq_length; exact Hc).
    pose proof (oall_nth _ _ 0 c H Hc2) as Hn.
    rewrite nth_map_seq in Hn by exact Hc. apply eq_scale_pos in Hn. exact Hn.
Qed.

(* ------------------------------------------------------------------ *)
(** * The second weight *)

Lemma group_index G opg rest o r : (0 < opg)%nat -> (o < opg * G)%nat -> valid rest r ->
  valid (G :: opg :: rest) ((o / opg)%nat :: (o mod opg)%nat :: r) /\
  ravel (G :: opg :: rest) ((o / opg)%nat :: (o mod opg)%nat :: r) = ravel ((opg * G)%nat :: rest) (o :: r).
Proof.
  intros Hp Ho V. split.
  - constructor; [apply Nat.div_lt_upper_bound; lia|]. constructor; [apply Nat.mod_upper_bound; lia|exact V].
  - cbn [ravel prod]. pose proof (Nat.div_mod o opg ltac:(lia)) as HD. set (q := (o / opg)%nat) in *. set (m := (o mod opg)%nat) in *.
    rewrite HD. clearbody q m. ring.
Qed.

Definition scaled_w2 (s : list R) (groups : nat) (w2 : tensor R) : tensor R :=
  let o2 := nth 0 (tshape w2) 0%nat in
  let rest := tl (tshape w2) in
  let w2r := reshape (groups :: (o2 / groups)%nat :: rest) w2 in
  let per := nth 0 rest 0%nat in
  let w2s := mkT (tshape w2r) (fun idx => tget w2r idx * nth (nth 0 idx 0 * per + nth 2 idx 0)%nat s 0) in
  reshape ((nth 1 (tshape w2s) 0 * groups)%nat :: rest) w2s.

Lemma scaled_w2_ok s G w2 : (0 < G)%nat -> (nth 0 (tshape w2) 0 mod G = 0)%nat -> (2 <= length (tshape w2))%nat ->
  tshape (scaled_w2 s G w2) = tshape w2 /\
  forall o i k, valid (tshape w2) (o :: i :: k) ->
    tget (scaled_w2 s G w2) (o :: i :: k) =
    tget w2 (o :: i :: k) * nth (o / (nth 0 (tshape w2) 0 / G) * nth 1 (tshape w2) 0 + i)%nat s 0.
Proof.
  intros HG Hd HL. destruct (tshape w2) as [|o2 [|per ks]] eqn:E; cbn [length] in HL; try lia. cbn [nth] in *.
  set (opg := (o2 / G)%nat).
  assert (Ho2 : (opg * G = o2)%nat) by (unfold opg; pose proof (Nat.div_mod o2 G ltac:(lia)); lia).
  unfold scaled_w2. rewrite E. cbn [nth tl tshape reshape tget]. fold opg. split; [rewrite Ho2; reflexivity|].
  intros o i k V. inversion V as [|o' d1 r d2 Ho Vr]; subst o' d1 r d2.
  destruct (group_index G opg (per :: ks) o (i :: k)) as [HV HR]; [destruct opg; cbn in Ho2; lia|lia|exact Vr|].
  rewrite E, <- HR, unravel_ravel by exact HV. cbn [nth].
  rewrite HR. change ((opg * G)%nat :: per :: ks) with ((opg * G)%nat :: per :: ks). rewrite Ho2, unravel_ravel by exact V.
  reflexivity.
Qed.

(* ------------------------------------------------------------------ *)
(** * C43 *)

(** equality on all positions whose channel exists *)
Definition ceq (k : lkind) (C : nat) (t u : tensor R) : Prop :=
  tshape t = tshape u /\ forall idx, (chan k idx < C)%nat -> tget t idx = tget u idx.

Lemma indices_snd_valid o i d1 d2 ks k : (o < d1)%nat -> (i < d2)%nat -> In k (indices ks) -> valid (d1 :: d2 :: ks) (o :: i :: k).
Proof. intros H1 H2 H. repeat constructor; try assumption. now apply indices_valid. Qed.

(** the first layer: divided by the scale of the channel *)
Lemma layer1_scaled l1 s w1 b1 x : layer_wf l1 -> pos_homog (cl_act l1) ->
  (forall c, (c < nth 0 (tshape (cl_w l1)) 0)%nat -> 0 < nth c s 0) ->
  tshape w1 = tshape (cl_w l1) ->
  (forall idx, tget w1 idx = tget (cl_w l1) idx / nth (nth 0 idx 0%nat) s 0) ->
  b1 = option_map (fun b => map (fun c => nth c b 0 / nth c s 0) (seq 0 (length b))) (cl_b l1) ->
  let y := run1 l1 x in
  let y' := run1 (mkCL (cl_kind l1) w1 b1 (cl_act l1)) x in
  tshape y' = tshape y /\
  forall idx, (chan (cl_kind l1) idx < nth 0 (tshape (cl_w l1)) 0)%nat ->
    tget y' idx = / nth (chan (cl_kind l1) idx) s 0 * tget y idx.
Proof.
  intros Wf Hom Hpos Hs Hw Hb y y'.
  assert (HB : forall o, (o < nth 0 (tshape (cl_w l1)) 0)%nat -> lbias b1 o = / nth o s 0 * lbias (cl_b l1) o).
  { intros o Ho. subst b1. destruct (cl_b l1) as [b|]; cbn [option_map lbias]; [|ring].
    destruct (Nat.lt_ge_cases o (length b)) as [H|H].
    - rewrite nth_map_seq by exact H. unfold Rdiv. ring.
    - rewrite (nth_overflow b) by exact H. rewrite nth_overflow; [ring|rewrite map_length, seq_length; exact H]. }
  unfold y', y, run1. cbn [cl_kind cl_w cl_b cl_act tshape tget]. split.
  - destruct (cl_kind l1); cbn [conv fc tshape]; rewrite Hs; reflexivity.
  - intros idx Hc. rewrite <- Hom by (apply Rinv_0_lt_compat; apply Hpos; exact Hc). f_equal.
    destruct (cl_kind l1) as [a|] eqn:Ek; cbn [chan] in *.
    + unfold conv. cbn [tget]. destruct idx as [|n [|o pos]]; [ring|ring|]. cbn [nth] in Hc |- *.
      rewrite Hs, Rmult_plus_distr_l, HB by exact Hc. f_equal.
      rewrite <- lsum_scal. apply lsum_ext. intros i _. rewrite <- lsum_scal. apply lsum_ext. intros k _.
      rewrite Hw. cbn [nth]. unfold Rdiv. ring.
    + unfold fc. cbn [tget]. rewrite Hs, Rmult_plus_distr_l, HB by exact Hc. f_equal.
      rewrite <- lsum_scal. apply lsum_ext. intros i _. rewrite Hw. cbn [nth]. unfold Rdiv. ring.
Qed.

(** the second layer: the scale cancels *)
Lemma layer2_cancels l2 s x x' C : layer_wf l2 -> (0 < length (tshape (cl_w l2)))%nat ->
  length s = C -> C = (nth 1 (tshape (cl_w l2)) 0 * cl_groups l2)%nat ->
  (forall c, (c < C)%nat -> 0 < nth c s 0) ->
  tshape x' = tshape x ->
  (forall idx, (chan (cl_kind l2) idx < C)%nat -> tget x' idx = / nth (chan (cl_kind l2) idx) s 0 * tget x idx) ->
  ceq (cl_kind l2) (nth 0 (tshape (cl_w l2)) 0%nat)
      (run1 (mkCL (cl_kind l2) (scaled_w2 s (cl_groups l2) (cl_w l2)) (cl_b l2) (cl_act l2)) x') (run1 l2 x).
Proof.
  intros Wf HL Hls HC Hpos Hsx Hx.
  assert (HG : (0 < cl_groups l2)%nat /\ (nth 0 (tshape (cl_w l2)) 0 mod cl_groups l2 = 0)%nat /\ (2 <= length (tshape (cl_w l2)))%nat).
  { unfold layer_wf, cl_groups in *. destruct (cl_kind l2); [tauto|]. rewrite Nat.mod_1_r. lia. }
  destruct HG as (HG & Hmod & H2).
  destruct (scaled_w2_ok s (cl_groups l2) (cl_w l2) HG Hmod H2) as [Hsw Hw].
  set (w2' := scaled_w2 s (cl_groups l2) (cl_w l2)) in *. clearbody w2'.
  split.
  - unfold run1. cbn [cl_kind cl_w cl_b tshape]. destruct (cl_kind l2); cbn [conv fc tshape]; rewrite Hsw, Hsx; reflexivity.
  - intros idx Ho. unfold run1. cbn [cl_kind cl_w cl_b cl_act tget]. f_equal.
    destruct (cl_kind l2) as [a|] eqn:Ek; cbn [chan] in *; unfold cl_groups in *; rewrite Ek in *.
    + unfold conv. cbn [tget]. destruct idx as [|n [|o pos]]; [reflexivity|reflexivity|]. cbn [nth] in Ho.
      rewrite Hsw, Hsx. f_equal. apply lsum_ext. intros i Hi. apply in_seq in Hi. apply lsum_ext. intros k Hk.
      destruct (tshape (cl_w l2)) as [|o2 [|per ks]] eqn:Ew; cbn [length] in H2; try lia. cbn [nth skipn] in *.
      rewrite Hw by (apply indices_snd_valid; [exact Ho|lia|exact Hk]).
      set (opg := (o2 / ca_groups a)%nat).
      assert (Hc : (o / opg * per + i < C)%nat).
      { assert (o2 = opg * ca_groups a)%nat by (unfold opg; pose proof (Nat.div_mod o2 (ca_groups a) ltac:(lia)); lia).
        assert (o / opg < ca_groups a)%nat by (apply Nat.div_lt_upper_bound; [intro Z; rewrite Z in *; lia|lia]).
        rewrite HC. nia. }
      unfold read0. destruct (tap _ _ _ _ _ _) as [q|]; [|ring].
      rewrite Hx by (cbn [nth]; exact Hc). cbn [nth]. fold opg.
      pose proof (Hpos _ Hc). field. lra.
    + unfold fc. cbn [tget]. rewrite Hsw. f_equal. apply lsum_ext. intros i Hi. apply in_seq in Hi.
      unfold layer_wf in Wf. rewrite Ek in Wf.
      destruct (tshape (cl_w l2)) as [|o2 [|per [|? ?]]] eqn:Ew; cbn [length] in Wf; try lia. cbn [nth] in *.
      rewrite Hw by (repeat constructor; [exact Ho|lia]).
      rewrite Hx by (rewrite last_last; lia). rewrite last_last. rewrite Nat.div_1_r.
      rewrite (Nat.div_small _ _ Ho). cbn [Nat.mul Nat.add].
      assert (0 < nth i s 0) by (apply Hpos; lia). field. lra.
Qed.

(** a layer on inputs that agree on all its channels *)
Definition in_channels (l : clayer) : nat := (nth 1 (tshape (cl_w l)) 0 * cl_groups l)%nat.
Lemma run1_congr l x x' : layer_wf l -> ceq (cl_kind l) (in_channels l) x' x ->
  ceq (cl_kind l) (nth 0 (tshape (cl_w l)) 0%nat) (run1 l x') (run1 l x).
Proof.
  intros Wf [Hsx Hx]. split.
  - unfold run1. cbn [tshape]. destruct (cl_kind l); cbn [conv fc tshape]; rewrite Hsx; reflexivity.
  - intros idx Ho. unfold run1. cbn [tget]. f_equal.
    unfold in_channels, cl_groups, layer_wf in *. destruct (cl_kind l) as [a|] eqn:Ek; cbn [chan] in *.
    + unfold conv. cbn [tget]. destruct idx as [|n [|o pos]]; [reflexivity|reflexivity|]. cbn [nth] in Ho.
      rewrite Hsx. f_equal. apply lsum_ext. intros i Hi. apply in_seq in Hi. apply lsum_ext. intros k Hk. f_equal.
      unfold read0. destruct (tap _ _ _ _ _ _) as [q|]; [|reflexivity]. apply Hx. cbn [nth].
      destruct Wf as (H2 & HG & Hmod).
      set (o2 := nth 0 (tshape (cl_w l)) 0%nat) in *. set (per := nth 1 (tshape (cl_w l)) 0%nat) in *.
      set (opg := (o2 / ca_groups a)%nat).
      assert (o2 = opg * ca_groups a)%nat by (unfold opg; pose proof (Nat.div_mod o2 (ca_groups a) ltac:(lia)); lia).
      assert (o / opg < ca_groups a)%nat by (apply Nat.div_lt_upper_bound; [intro Z; rewrite Z in *; lia|lia]). nia.
    + unfold fc. cbn [tget]. f_equal. apply lsum_ext. intros i Hi. apply in_seq in Hi. f_equal. apply Hx.
      rewrite last_last. lia.
Qed.

(** chains: all layers of one kind, matching channels, activations between layers homogeneous *)
Fixpoint chain_ok (net : list clayer) : Prop :=
  match net with
  | [] => True
  | l :: net' => layer_wf l /\
      match net' with
      | [] => True
      | l2 :: _ => same_kind (cl_kind l) (cl_kind l2) /\ nth 0 (tshape (cl_w l)) 0%nat = in_channels l2 /\ pos_homog (cl_act l)
      end /\ chain_ok net'
  end.

Lemma ceq_kind k k' C t u : same_kind k k' -> ceq k C t u -> ceq k' C t u.
Proof. destruct k, k'; cbn; auto; contradiction. Qed.

Definition last_channels (net : list clayer) (d : nat) : nat :=
  match net with [] => d | _ => nth 0 (tshape (cl_w (last net (mkCL KLinear (mkT [] (fun _ => 0)) None (fun _ y => y))))) 0%nat end.

(** the pair alone, any layers of the same kind *)
Lemma weight_equal_pair l1 l2 thr w1 b1 w2 x : layer_wf l1 -> layer_wf l2 -> same_kind (cl_kind l1) (cl_kind l2) ->
  pos_homog (cl_act l1) ->
  weight_equal (cl_w l1) (cl_b l1) (cl_w l2) (cl_groups l2) thr = Some (w1, b1, w2) ->
  tshape w1 = tshape (cl_w l1) /\ tshape w2 = tshape (cl_w l2) /\
  ceq (cl_kind l2) (nth 0 (tshape (cl_w l2)) 0%nat)
      (run1 (mkCL (cl_kind l2) w2 (cl_b l2) (cl_act l2)) (run1 (mkCL (cl_kind l1) w1 b1 (cl_act l1)) x))
      (run1 l2 (run1 l1 x)).
Proof.
  intros Wf1 Wf2 SK Hom H. unfold weight_equal in H. apply obind_inv in H. destruct H as (s & Es & H). injection H as Ew1 Eb1 Ew2.
  destruct (equalize_inv _ _ _ _ _ Es) as (H2 & HL1 & HL2 & Hpos).
  fold (scaled_w2 s (cl_groups l2) (cl_w l2)) in Ew2. subst w2.
  assert (HG : (0 < cl_groups l2)%nat /\ (nth 0 (tshape (cl_w l2)) 0 mod cl_groups l2 = 0)%nat).
  { unfold layer_wf, cl_groups in *. destruct (cl_kind l2); [tauto|]. rewrite Nat.mod_1_r. lia. }
  split; [rewrite <- Ew1; reflexivity|]. split; [apply scaled_w2_ok; tauto|].
  destruct (layer1_scaled l1 s w1 b1 x Wf1 Hom) as [Hs1 Hy1].
  { intros c Hc. apply Hpos. lia. } { rewrite <- Ew1. reflexivity. } { intro idx. rewrite <- Ew1. reflexivity. } { rewrite <- Eb1. reflexivity. }
  refine (layer2_cancels l2 s _ _ (length s) Wf2 _ eq_refl HL2 Hpos Hs1 _); [lia|].
  intros idx Hc. assert (Hch : chan (cl_kind l1) idx = chan (cl_kind l2) idx) by (destruct (cl_kind l1), (cl_kind l2); cbn in SK |- *; auto; contradiction).
  rewrite <- Hch in *. apply Hy1. lia.
Qed.

(** one step keeps the function and the form of the chain *)
Definition dummy_layer : clayer := mkCL KLinear (mkT [] (fun _ => 0)) None (fun _ y => y).
Definition head_in (net : list clayer) (k : lkind) (C : nat) : Prop :=
  match net with [] => True | l :: _ => same_kind (cl_kind l) k /\ in_channels l = C end.
Definition out_eq (net : list clayer) (t u : tensor R) : Prop :=
  let l := last net dummy_layer in ceq (cl_kind l) (nth 0 (tshape (cl_w l)) 0%nat) t u.

Lemma same_kind_sym a b : same_kind a b -> same_kind b a.
Proof. destruct a, b; cbn; auto. Qed.

Lemma run_net_congr net : forall x x', chain_ok net -> net <> [] ->
  ceq (cl_kind (hd dummy_layer net)) (in_channels (hd dummy_layer net)) x' x -> out_eq net (run_net net x') (run_net net x).
Proof.
  induction net as [|l net IH]; intros x x' Wf Hne H; [congruence|]. cbn [hd] in H. cbn [chain_ok] in Wf. destruct Wf as (Wl & Hn & Wf).
  pose proof (run1_congr l x x' Wl H) as H1. unfold run_net. cbn [fold_left]. fold (run_net net (run1 l x')) (run_net net (run1 l x)).
  destruct net as [|l2 net]; [exact H1|].
  change (out_eq (l :: l2 :: net)) with (out_eq (l2 :: net)). apply IH; [exact Wf|discriminate|]. cbn [hd].
  destruct Hn as (SK & HC & _). rewrite <- HC. apply (ceq_kind (cl_kind l)); assumption.
Qed.

(** what a step keeps of each layer *)
Definition same_layer (l l' : clayer) : Prop :=
  cl_kind l' = cl_kind l /\ tshape (cl_w l') = tshape (cl_w l) /\ cl_act l' = cl_act l.
Lemma same_layer_refl l : same_layer l l.
Proof. repeat split. Qed.

Lemma same_layers_chain net net' : Forall2 same_layer net net' -> chain_ok net -> chain_ok net'.
Proof.
  intro F. induction F as [|l l' net net' (Ek & Es & Ea) F IH]; [auto|]. cbn [chain_ok]. intros (Wl & Hn & Wf).
  split; [unfold layer_wf in *; rewrite Ek, Es; exact Wl|]. split; [|auto].
  destruct F as [|m m' n n' (Ek2 & Es2 & Ea2) F]; [exact I|]. unfold in_channels, cl_groups in *. rewrite Ek, Ek2, Es, Es2, Ea. exact Hn.
Qed.
Lemma same_layers_last net net' : Forall2 same_layer net net' ->
  cl_kind (last net' dummy_layer) = cl_kind (last net dummy_layer) /\
  tshape (cl_w (last net' dummy_layer)) = tshape (cl_w (last net dummy_layer)).
Proof.
  intro F. induction F as [|l l' net net' (Ek & Es & Ea) F IH]; [split; reflexivity|]. destruct F; [split; assumption|]. exact IH.
Qed.
Lemma same_layers_refl net : Forall2 same_layer net net.
Proof. induction net; constructor; [apply same_layer_refl|assumption]. Qed.
Lemma same_layers_trans a : forall b c, Forall2 same_layer a b -> Forall2 same_layer b c -> Forall2 same_layer a c.
Proof.
  induction a as [|x a IH]; intros b c F G; inversion F; subst; inversion G; subst; constructor; [|eauto].
  match goal with A : same_layer _ ?y, B : same_layer ?y _ |- _ => destruct A as (?&?&?), B as (?&?&?) end. repeat split; congruence.
Qed.

Lemma eq_at_ok thr j : forall net net', chain_ok net -> eq_at thr j net = Some net' ->
  Forall2 same_layer net net' /\ forall x, out_eq net (run_net net' x) (run_net net x).
Proof.
  induction j as [|j IH]; intros net net' Wf H.
  - destruct net as [|l1 [|l2 net]]; try discriminate. cbn [eq_at] in H. apply obind_inv in H. destruct H as (((w1 & b1) & w2) & Ew & H).
    injection H as <-. cbn [chain_ok] in Wf. destruct Wf as (W1 & (SK & HC & Hom) & W2 & Hn & Wf).
    pose proof (fun x => weight_equal_pair l1 l2 thr w1 b1 w2 x W1 W2 SK Hom Ew) as HP.
    destruct (HP (mkT [] (fun _ => 0))) as (Hs1 & Hs2 & _). split.
    + constructor; [repeat split; assumption|]. constructor; [repeat split; assumption|apply same_layers_refl].
    + intro x. destruct (HP x) as (_ & _ & HE). unfold run_net. cbn [fold_left].
      destruct net as [|l3 net]; [exact HE|].
      change (out_eq (l1 :: l2 :: l3 :: net)) with (out_eq (l3 :: net)).
      apply run_net_congr; [exact Wf|discriminate|]. cbn [hd]. destruct Hn as (SK2 & HC2 & _). rewrite <- HC2.
      apply (ceq_kind (cl_kind l2)); assumption.
  - destruct net as [|l net]; [discriminate|]. cbn [eq_at] in H. destruct (eq_at thr j net) as [n'|] eqn:E; [|discriminate]. injection H as <-.
    cbn [chain_ok] in Wf. destruct Wf as (Wl & Hn & Wf). destruct (IH _ _ Wf E) as [F HE].
    split; [constructor; [apply same_layer_refl|exact F]|]. intro x. unfold run_net. cbn [fold_left].
    destruct net as [|l2 net]; [destruct j; discriminate|]. change (out_eq (l :: l2 :: net)) with (out_eq (l2 :: net)). apply HE.
Qed.

Lemma ceq_trans k C a b c : ceq k C a b -> ceq k C b c -> ceq k C a c.
Proof. intros [S1 H1] [S2 H2]. split; [congruence|]. intros idx H. rewrite H1, H2 by exact H. reflexivity. Qed.

Lemma eq_steps_ok thr js : forall net net', chain_ok net -> eq_steps thr js net = Some net' ->
  Forall2 same_layer net net' /\ forall x, out_eq net (run_net net' x) (run_net net x).
Proof.
  induction js as [|j js IH]; intros net net' Wf H.
  - injection H as <-. split; [apply same_layers_refl|]. intro x. split; reflexivity.
  - cbn [eq_steps] in H. apply obind_inv in H. destruct H as (n1 & E1 & H).
    destruct (eq_at_ok thr j net n1 Wf E1) as [F1 H1]. destruct (IH n1 net' (same_layers_chain _ _ F1 Wf) H) as [F2 H2].
    split; [eapply same_layers_trans; eassumption|]. intro x. destruct (same_layers_last _ _ F1) as [Ek Es].
    unfold out_eq in *. eapply ceq_trans; [|apply H1]. rewrite <- Ek, <- Es. apply H2.
Qed.

(** on an input of the right rank the output positions of the last layer have existing channels *)
Lemma run1_shape l x : tshape (run1 l x) =
  match cl_kind l with
  | KConv a => tshape (conv a x (cl_w l) (lbias (cl_b l)))
  | KLinear => tshape (fc x (cl_w l) (lbias (cl_b l)))
  end.
Proof. unfold run1. cbn [tshape]. destruct (cl_kind l); reflexivity. Qed.
Lemma run_net_last net x : net <> [] -> exists y, run_net net x = run1 (last net dummy_layer) y.
Proof.
  revert x. induction net as [|l net IH]; intros x H; [congruence|]. destruct net as [|l2 net]; [exists x; reflexivity|].
  destruct (IH (run1 l x)) as [y Hy]; [discriminate|]. exists y. exact Hy.
Qed.
Lemma out_eq_teq net x t : net <> [] -> out_eq net t (run_net net x) -> teq t (run_net net x).
Proof.
  intros Hne [Hs H]. split; [exact Hs|]. intros idx V. apply H.
  destruct (run_net_last net x Hne) as [y Hy]. rewrite Hs, Hy, run1_shape in V. destruct (cl_kind (last net dummy_layer)) as [a|]; cbn [chan].
  - unfold conv in V. cbn [tshape] in V. inversion V as [|? ? r ? ? Vr]; subst. inversion Vr; subst. cbn [nth]. assumption.
  - unfold fc in V. cbn [tshape] in V. 
    destruct (valid_last _ _ V) as (pre & i & -> & Hi & _); [destruct (removelast (tshape y)); discriminate|]. rewrite last_last in *. exact Hi.
Qed.

Theorem equalize_keeps_function thr js net net' x : chain_ok net -> net <> [] -> eq_steps thr js net = Some net' ->
  teq (run_net net' x) (run_net net x).
Proof. intros Wf Hne H. apply out_eq_teq; [exact Hne|]. apply (eq_steps_ok thr js net net' Wf H). Qed.

(* ------------------------------------------------------------------ *)
(** * C44: ranges *)

(** [v] is the largest absolute value of [f] on the positions in [P] *)
Definition max_abs (P : list nat -> Prop) (f : list nat -> R) (v : R) : Prop :=
  (exists k, P k /\ Rabs (f k) = v) /\ forall k, P k -> Rabs (f k) <= v.
(** range of output channel [c] of a weight, of input channel [c] of a grouped weight *)
Definition out_range (w : tensor R) (c : nat) (v : R) : Prop :=
  max_abs (fun k => valid (tshape w) k /\ nth 0 k 0%nat = c) (tget w) v.
Definition in_range (groups : nat) (w : tensor R) (c : nat) (v : R) : Prop :=
  max_abs (fun k => valid (tshape w) k /\
             (nth 0 k 0 / (nth 0 (tshape w) 0 / groups) * nth 1 (tshape w) 0 + nth 1 k 0 = c)%nat) (tget w) v.

Lemma max_abs_unique P f v v' : max_abs P f v -> max_abs P f v' -> v = v'.
Proof.
  intros [(k & Hk & <-) H] [(k' & Hk' & <-) H']. apply Rle_antisym; auto.
Qed.

Lemma rows_absmax_some t r c : rows_absmax t = Some r -> (c < nth 0 (tshape t) 0)%nat ->
  (exists j, (j < nth 1 (tshape t) 0)%nat /\ Rabs (tget t [c; j]) = nth c r 0) /\
  forall j, (j < nth 1 (tshape t) 0)%nat -> Rabs (tget t [c; j]) <= nth c r 0.
Proof.
  intros H Hc. unfold rows_absmax in H.
  assert (Hl : (c < length (map (fun r => lmax (map (fun j => Rabs (tget t [r; j])) (seq 0 (nth 1 (tshape t) 0%nat))))
            (seq 0 (nth 0 (tshape t) 0%nat))))%nat) by (rewrite map_length, seq_length; exact Hc).
  pose proof (oall_nth _ _ 0 c H Hl) as Hn. rewrite nth_map_seq in Hn by exact Hc.
  apply lmax_ok in Hn. destruct Hn as [Hin Hmax]. split.
  - apply in_map_iff in Hin. destruct Hin as (j & Hj & Hj'). apply in_seq in Hj'. exists j. split; [lia|exact Hj].
  - intros j Hj. apply Hmax. apply in_map_iff. exists j. split; [reflexivity|]. apply in_seq. lia.
Qed.

(** a matrix whose rows are the leading axis *)
Lemma row_index o rest c j : (j < prod rest)%nat ->
  unravel (o :: rest) (ravel [o; prod rest] [c; j]) = c :: unravel rest j \/ (o <= c)%nat.
Proof.
  intro Hj. destruct (Nat.lt_ge_cases c o) as [Hc|Hc]; [left|right; exact Hc].
  assert (HP : (0 < prod rest)%nat) by lia.
  assert (V : valid (o :: rest) (c :: unravel rest j)) by (constructor; [exact Hc|]; apply unravel_valid; exact Hj).
  assert (E : ravel [o; prod rest] [c; j] = ravel (o :: rest) (c :: unravel rest j)).
  { cbn [ravel prod]. rewrite ravel_unravel by exact Hj. lia. }
  rewrite E. apply unravel_ravel. exact V.
Qed.

Lemma range1_ok w r c : tshape w <> [] -> (c < nth 0 (tshape w) 0)%nat ->
  rows_absmax (reshape [nth 0 (tshape w) 0%nat; prod (tl (tshape w))] w) = Some r -> out_range w c (nth c r 0).
Proof.
  intros Hne Hc H. destruct (rows_absmax_some _ _ c H) as [(j & Hj & Ej) Hmax]; [exact Hc|].
  cbn [tshape reshape nth] in Hj, Hmax. cbn [reshape tget] in Ej, Hmax.
  destruct (tshape w) as [|o rest] eqn:Es; [congruence|]. cbn [nth tl] in *.
  assert (HR : forall j, (j < prod rest)%nat -> unravel (o :: rest) (ravel [o; prod rest] [c; j]) = c :: unravel rest j).
  { intros j' Hj'. destruct (row_index o rest c j' Hj'); [assumption|lia]. }
  split.
  - exists (c :: unravel rest j). rewrite HR in Ej by exact Hj. split; [|exact Ej]. split; [|reflexivity].
    rewrite Es. constructor; [exact Hc|]. apply unravel_valid. exact Hj.
  - intros k [V Hk]. rewrite Es in V. inversion V as [|i d r' s' Hi Vr]; subst. cbn [nth] in *.
    assert (Hlt : (ravel rest r' < prod rest)%nat) by (apply ravel_lt; exact Vr).
    specialize (Hmax _ Hlt). rewrite HR, unravel_ravel in Hmax by assumption. exact Hmax.
Qed.

Lemma perm201 n : is_perm (3 + n) ([2; 0; 1]%nat ++ seq 3 n).
Proof.
  unfold is_perm. change (seq 0 (3 + n)) with ([0; 1; 2]%nat ++ seq 3 n). apply Permutation_app_tail.
  change [2; 0; 1]%nat with ([2]%nat ++ [0; 1]%nat). change [0; 1; 2]%nat with ([0; 1]%nat ++ [2]%nat). apply Permutation_app_comm.
Qed.
Lemma sel201 a b c r : sel (a :: b :: c :: r) ([2; 0; 1]%nat ++ seq 3 (length r)) = c :: a :: b :: r.
Proof.
  unfold sel. rewrite map_app. cbn [map nth app]. do 3 f_equal.
  transitivity (sel r (seq 0 (length r))); [|apply sel_seq]. unfold sel.
  rewrite <- !seq_shift, !map_map. reflexivity.
Qed.

Lemma range2_ok w2 G r g i : (0 < G)%nat -> (nth 0 (tshape w2) 0 mod G = 0)%nat -> (2 <= length (tshape w2))%nat ->
  (g < G)%nat -> (i < nth 1 (tshape w2) 0)%nat ->
  rows_absmax
    (let w2r := reshape (G :: (nth 0 (tshape w2) 0 / G)%nat :: tl (tshape w2)) w2 in
     let w2p := transpose ([2; 0; 1]%nat ++ seq 3 (length (tshape w2r) - 3)) w2r in
     reshape [(nth 0 (tshape w2p) 0 * nth 1 (tshape w2p) 0)%nat; prod (skipn 2 (tshape w2p))] w2p) = Some r ->
  in_range G w2 (g * nth 1 (tshape w2) 0 + i)%nat (nth (i * G + g) r 0).
Proof.
  intros HG Hmod HL Hg Hi H. destruct (tshape w2) as [|o2 [|per ks]] eqn:Es; cbn [length] in HL; try lia. cbn [nth tl] in *.
  set (opg := (o2 / G)%nat) in *.
  assert (Ho : (o2 = opg * G)%nat) by (unfold opg; pose proof (Nat.div_mod o2 G ltac:(lia)); lia).
  cbv zeta in H. set (w2r := reshape (G :: opg :: per :: ks) w2) in *.
  cbn [length] in H. replace (length (tshape w2r) - 3)%nat with (length ks) in H by (unfold w2r; cbn [tshape reshape length]; lia).
  set (p := [2; 0; 1]%nat ++ seq 3 (length ks)) in *.
  assert (Hsp : tshape (transpose p w2r) = per :: G :: opg :: ks) by (cbn [transpose tshape]; unfold w2r, p; cbn [reshape tshape]; apply sel201).
  rewrite Hsp in H. cbn [nth skipn] in H.
  assert (Hrow : (i * G + g < per * G)%nat) by nia.
  destruct (rows_absmax_some _ _ (i * G + g) H) as [(j & Hj & Ej) Hmax]; [cbn [tshape reshape nth]; exact Hrow|].
  cbn [tshape reshape nth] in Hj, Hmax. cbn [reshape tget] in Ej, Hmax. rewrite Hsp in Ej, Hmax.
  (* the element [i * G + g; j] of the matrix *)
  assert (HE : forall m k, valid (opg :: ks) (m :: k) ->
    tget (transpose p w2r) (unravel (per :: G :: opg :: ks) (ravel [(per * G)%nat; prod (opg :: ks)] [(i * G + g)%nat; ravel (opg :: ks) (m :: k)]))
    = tget w2 ((g * opg + m)%nat :: i :: k)).
  { intros m k V. inversion V as [|m' d1 k' d2 Hm Vk]; subst m' d1 k' d2.
    destruct (group_index per G (opg :: ks) (i * G + g) (m :: k)) as [HV HR]; [lia|lia|exact V|].
    assert (Hd : ((i * G + g) / G = i)%nat) by (rewrite Nat.div_add_l by lia; rewrite Nat.div_small by exact Hg; lia).
    assert (Hm2 : ((i * G + g) mod G = g)%nat) by (rewrite Nat.add_comm, Nat.mod_add by lia; apply Nat.mod_small; exact Hg).
    rewrite Hd, Hm2 in HV, HR.
    assert (HQ : ravel [(per * G)%nat; prod (opg :: ks)] [(i * G + g)%nat; ravel (opg :: ks) (m :: k)] = ravel (per :: G :: opg :: ks) (i :: g :: m :: k)).
    { rewrite HR. cbn [ravel prod]. lia. }
    rewrite HQ, unravel_ravel by exact HV.
    assert (Vr : valid (tshape w2r) (g :: m :: i :: k)) by (unfold w2r; cbn [tshape reshape]; repeat constructor; assumption).
    assert (Hk : length k = length ks) by (apply valid_length in Vk; exact Vk).
    replace (i :: g :: m :: k) with (sel (g :: m :: i :: k) p) by (unfold p; rewrite <- Hk; apply sel201).
    rewrite transpose_spec; [|unfold w2r; cbn [reshape tshape]; change (length (G :: opg :: per :: ks)) with (3 + length ks)%nat; apply perm201|exact Vr].
    unfold w2r. cbn [reshape tget]. rewrite Es.
    destruct (group_index G opg (per :: ks) (g * opg + m) (i :: k)) as [HV2 HR2]; [lia|nia|constructor; [exact Hi|exact Vk]|].
    assert (Hd2 : ((g * opg + m) / opg = g)%nat) by (rewrite Nat.div_add_l by lia; rewrite Nat.div_small by exact Hm; lia).
    assert (Hm3 : ((g * opg + m) mod opg = m)%nat) by (rewrite Nat.add_comm, Nat.mod_add by lia; apply Nat.mod_small; exact Hm).
    rewrite Hd2, Hm3 in HR2. rewrite HR2, <- Ho. rewrite unravel_ravel; [reflexivity|].
    constructor; [nia|]. constructor; [exact Hi|exact Vk]. }
  assert (HJ : forall j, (j < prod (opg :: ks))%nat -> exists m k, valid (opg :: ks) (m :: k) /\ j = ravel (opg :: ks) (m :: k)).
  { intros j' Hj'. pose proof (unravel_valid _ _ Hj') as V. pose proof (ravel_unravel _ _ Hj') as E.
    destruct (unravel (opg :: ks) j') as [|m k]; [inversion V|]. exists m, k. split; [exact V|congruence]. }
  split.
  - destruct (HJ j Hj) as (m & k & V & ->). rewrite HE in Ej by exact V. inversion V as [|m' d1 k' d2 Hm Vk]; subst m' d1 k' d2.
    exists ((g * opg + m)%nat :: i :: k). split; [|exact Ej]. rewrite Es. cbn [nth]. split; [constructor; [nia|]; constructor; assumption|].
    fold opg. rewrite Nat.div_add_l by lia. rewrite (Nat.div_small m) by exact Hm. lia.
  - intros q [V Hq]. rewrite Es in V, Hq. inversion V as [|o d r' s' Hlt Vr]; subst q d s'. inversion Vr as [|i' d' k s' Hi' Vk]; subst r' d' s'. cbn [nth] in Hq. fold opg in Hq.
    assert (Hopg : (0 < opg)%nat) by (destruct opg; cbn in Ho; lia).
    assert (Hg' : (o / opg = g /\ i' = i)%nat).
    { assert (o / opg * per + i' = g * per + i)%nat by exact Hq. assert (o / opg = g)%nat by nia. subst g. lia. }
    destruct Hg' as [Hg' ->]. pose proof (Nat.div_mod o opg ltac:(lia)) as HD. rewrite Hg' in HD.
    assert (Hm : (o mod opg < opg)%nat) by (apply Nat.mod_upper_bound; lia).
    assert (V2 : valid (opg :: ks) ((o mod opg)%nat :: k)) by (constructor; assumption).
    specialize (Hmax (ravel (opg :: ks) ((o mod opg)%nat :: k)) (ravel_lt _ _ V2)). rewrite HE in Hmax by exact V2.
    replace (g * opg + o mod opg)%nat with o in Hmax by lia. exact Hmax.
Qed.

Lemma max_abs_scale (P : list nat -> Prop) f f' v s : 0 < s -> (forall k, P k -> f' k = f k * s) -> max_abs P f v -> max_abs P f' (v * s).
Proof.
  intros Hs HE [(k & Hk & Ek) Hmax]. split.
  - exists k. split; [exact Hk|]. rewrite HE, Rabs_mult, Ek, (Rabs_pos_eq s) by (try assumption; lra). reflexivity.
  - intros q Hq. rewrite HE, Rabs_mult, (Rabs_pos_eq s) by (try assumption; lra). apply Rmult_le_compat_r; [lra|auto].
Qed.

(** every channel: the first range is divided and the second multiplied by the scale; where the
    two range vectors of the code speak of the same channel the scale is the one computed from
    the ranges *)
Lemma weight_equal_ranges w1 b1 w2 G thr w1' b1' w2' c r1 r2 :
  (0 < G)%nat -> (nth 0 (tshape w2) 0 mod G = 0)%nat -> tshape w1 <> [] ->
  weight_equal w1 b1 w2 G thr = Some (w1', b1', w2') -> (c < nth 0 (tshape w1) 0)%nat ->
  out_range w1 c r1 -> in_range G w2 c r2 ->
  exists s, 0 < s /\ out_range w1' c (r1 / s) /\ in_range G w2' c (r2 * s) /\
    (G = 1%nat \/ nth 1 (tshape w2) 0%nat = 1%nat -> eq_scale thr r1 r2 = Some s).
Proof.
  intros HG Hmod Hne H Hc R1 R2. unfold weight_equal in H. apply obind_inv in H. destruct H as (s & Es & H). injection H as Ew1 Eb1 Ew2.
  assert (Ew2' : scaled_w2 s G w2 = w2') by exact Ew2. clear Ew2.
  destruct (equalize_inv _ _ _ _ _ Es) as (H2 & HL1 & HL2 & Hpos).
  destruct (scaled_w2_ok s G w2 HG Hmod H2) as [Hsw Hw]. rewrite Ew2' in Hsw, Hw.
  exists (nth c s 0). assert (Hs : 0 < nth c s 0) by (apply Hpos; lia). split; [exact Hs|]. split; [|split].
  - unfold out_range, Rdiv. subst w1'. cbn [tshape tget]. apply (max_abs_scale _ (tget w1)); [apply Rinv_0_lt_compat; exact Hs| |exact R1].
    intros k [_ Hk]. rewrite Hk. reflexivity.
  - unfold in_range. rewrite Hsw. apply (max_abs_scale _ (tget w2)); [exact Hs| |exact R2].
    intros k [V Hk]. destruct (tshape w2) as [|o2 [|per ks]] eqn:E; cbn [length] in H2; try lia.
    inversion V as [|o d r' s' Hlt Vr]; subst k d s'. inversion Vr as [|i' d' k' s' Hi' Vk]; subst r' d' s'.
    rewrite Hw by exact V. cbn [nth] in Hk |- *. rewrite Hk. reflexivity.
  - intro Hal. unfold equalize in Es. destruct (_ <? 3)%nat; [discriminate|].
    apply obind_inv in Es. destruct Es as (v1 & E1 & Es). apply obind_inv in Es. destruct Es as (v2 & E2 & Es).
    destruct (length v1 =? length v2)%nat eqn:EL; [|discriminate]. apply Nat.eqb_eq in EL.
    assert (HLv : length v1 = nth 0 (tshape w1) 0%nat) by (apply rows_absmax_length in E1; exact E1).
    assert (Hcv : (c < length v1)%nat) by lia.
    assert (Hc2 : (c < length (map (fun c => eq_scale thr (nth c v1 0%R) (nth c v2 0%R)) (seq 0 (length v1))))%nat)
      by (rewrite map_length, seq_length; exact Hcv).
    pose proof (oall_nth _ _ 0 c Es Hc2) as Hn. rewrite nth_map_seq in Hn by exact Hcv. rewrite <- Hn.
    f_equal.
    + eapply max_abs_unique; [exact R1|]. apply (range1_ok w1 v1 c Hne Hc E1).
    + set (per := nth 1 (tshape w2) 0%nat) in *.
      assert (Hper : (0 < per)%nat) by (destruct per; cbn in HL2; lia).
      eapply max_abs_unique; [exact R2|].
      assert (HQ : exists g i, (g < G)%nat /\ (i < per)%nat /\ c = (g * per + i)%nat /\ c = (i * G + g)%nat).
      { destruct Hal as [-> |Hp]; [exists 0%nat, c|exists c, 0%nat]; rewrite ?Hp in *; lia. }
      destruct HQ as (g & i & Hg & Hi & Hc1 & Hc3). 
      pose proof (range2_ok w2 G v2 g i HG Hmod H2 Hg Hi E2) as HR. fold per in HR. rewrite <- Hc1, <- Hc3 in HR. exact HR.
Qed.

Lemma max_abs_nonneg P f v : max_abs P f v -> 0 <= v.
Proof. intros [(k & _ & <-) _]. apply Rabs_pos. Qed.

Lemma eq_scale_balanced thr r1 r2 s : 0 < r1 -> 0 < r2 -> thr <= r1 + r2 ->
  r1 <= 1000000000000 * r2 -> r2 <= 1000000000000 * r1 -> eq_scale thr r1 r2 = Some s ->
  r1 / s = sqrt (r1 * r2) /\ r2 * s = sqrt (r1 * r2).
Proof.
  intros H1 H2 Ht Hb1 Hb2. unfold eq_scale. destruct (Rlt_dec _ _); [lra|].
  assert (HP : 0 < r1 * r2) by (apply Rmult_lt_0_compat; assumption).
  destruct (Req_EM_T _ _); [lra|]. intro H. injection H as <-.
  assert (Hq : 0 < sqrt (r1 * r2)) by (apply sqrt_lt_R0; exact HP).
  assert (Hqq : sqrt (r1 * r2) * sqrt (r1 * r2) = r1 * r2) by (apply sqrt_sqrt; lra).
  set (q := sqrt (r1 * r2)) in *. clearbody q.
  assert (Hlo : s_min <= r1 / q).
  { apply Rmult_le_reg_r with q; [exact Hq|]. unfold Rdiv. rewrite Rmult_assoc, Rinv_l by lra. rewrite Rmult_1_r. unfold s_min.
    destruct (Rle_lt_dec (1 / 1000000 * q) r1) as [|Hn]; [assumption|exfalso]. assert (r1 * r1 < (1 / 1000000 * q) * (1 / 1000000 * q)) by (apply Rmult_le_0_lt_compat; lra). nra. }
  assert (Hhi : r1 / q <= s_max).
  { apply Rmult_le_reg_r with q; [exact Hq|]. unfold Rdiv. rewrite Rmult_assoc, Rinv_l by lra. rewrite Rmult_1_r. unfold s_max.
    destruct (Rle_lt_dec r1 (1000000 * q)) as [|Hn]; [assumption|exfalso]. assert ((1000000 * q) * (1000000 * q) < r1 * r1) by (apply Rmult_le_0_lt_compat; lra). nra. }
  rewrite Rmax_right by exact Hlo. rewrite Rmin_right by exact Hhi. split.
  - field. split; lra.
  - apply Rmult_eq_reg_r with q; [|lra]. rewrite Hqq. field. lra.
Qed.

Theorem equalize_balances w1 b1 w2 G thr w1' b1' w2' c r1 r2 :
  (0 < G)%nat -> (nth 0 (tshape w2) 0 mod G = 0)%nat -> tshape w1 <> [] -> G = 1%nat \/ nth 1 (tshape w2) 0%nat = 1%nat ->
  weight_equal w1 b1 w2 G thr = Some (w1', b1', w2') -> (c < nth 0 (tshape w1) 0)%nat ->
  out_range w1 c r1 -> in_range G w2 c r2 ->
  (0 < r1 -> 0 < r2 -> thr <= r1 + r2 -> r1 <= 1000000000000 * r2 -> r2 <= 1000000000000 * r1 ->
    out_range w1' c (sqrt (r1 * r2)) /\ in_range G w2' c (sqrt (r1 * r2))) /\
  (r1 + r2 < thr -> out_range w1' c r1 /\ in_range G w2' c r2).
Proof.
  intros HG Hmod Hne Hal H Hc R1 R2. destruct (weight_equal_ranges _ _ _ _ _ _ _ _ c r1 r2 HG Hmod Hne H Hc R1 R2) as (s & Hs & A & B & E).
  specialize (E Hal). split.
  - intros. destruct (eq_scale_balanced thr r1 r2 s) as [E1 E2]; try assumption. rewrite E1 in A. rewrite E2 in B. split; assumption.
  - intro Ht. unfold eq_scale in E. destruct (Rlt_dec _ _); [|lra]. injection E as <-.
    replace (r1 / 1) with r1 in A by field. rewrite Rmult_1_r in B. split; assumption.
Qed.

(** the pass succeeds when no channel of the first layer is zero *)
Lemma oall_some_map {A B} (f : A -> option B) l : (forall x, In x l -> f x <> None) -> exists r, oall (map f l) = Some r.
Proof.
  induction l as [|a l IH]; intro H; [exists []; reflexivity|].
  destruct IH as [r E]; [intros x Hx; apply H; right; exact Hx|].
  destruct (f a) as [b|] eqn:Ea; [|exfalso; apply (H a); [left; reflexivity|exact Ea]].
  exists (b :: r). cbn [map oall]. rewrite Ea. cbn [obind]. rewrite E. reflexivity.
Qed.
Lemma rows_absmax_defined t : (0 < nth 1 (tshape t) 0)%nat -> exists r, rows_absmax t = Some r.
Proof.
  intro H. apply oall_some_map. intros x _. destruct (nth 1 (tshape t) 0%nat); [lia|]. cbn [seq map lmax]. discriminate.
Qed.

Theorem weight_equal_defined w1 b1 w2 G thr :
  tshape w1 <> [] -> (0 < G)%nat -> (2 <= length (tshape w2))%nat -> (nth 0 (tshape w2) 0 mod G = 0)%nat ->
  (0 < prod (tshape w2))%nat -> nth 0 (tshape w1) 0%nat = (nth 1 (tshape w2) 0 * G)%nat ->
  (forall c, (c < nth 0 (tshape w1) 0)%nat -> exists k, valid (tshape w1) (c :: k) /\ tget w1 (c :: k) <> 0) ->
  weight_equal w1 b1 w2 G thr <> None.
Proof.
  intros Hne HG HL Hmod HP HC Hnz.
  destruct (tshape w2) as [|o2 [|per ks]] eqn:Es; cbn [length] in HL; try lia. cbn [nth] in *.
  set (opg := (o2 / G)%nat) in *.
  assert (Ho : (o2 = opg * G)%nat) by (unfold opg; pose proof (Nat.div_mod o2 G ltac:(lia)); lia).
  cbn [prod] in HP.
  assert (Hprod : (0 < opg /\ 0 < per /\ 0 < prod ks)%nat) 
    by (rewrite Ho in HP; assert (HX : forall a g p k, (0 < a * g * (p * k) -> 0 < a /\ 0 < p /\ 0 < k)%nat) by (intros a g p k; destruct a, p, k; cbn; lia); exact (HX _ _ _ _ HP)).
  assert (HEq : exists s, equalize w1 w2 G thr = Some s).
  { unfold equalize. rewrite Es. cbn [nth tl]. fold opg.
    set (w2r := reshape (G :: opg :: per :: ks) w2).
    replace (length (tshape w2r)) with (3 + length ks)%nat by (unfold w2r; cbn [tshape reshape length]; lia).
    replace (3 + length ks <? 3)%nat with false by (symmetry; apply Nat.ltb_ge; lia).
    replace (3 + length ks - 3)%nat with (length ks) by lia.
    assert (Hsp : tshape (transpose ([2; 0; 1]%nat ++ seq 3 (length ks)) w2r) = per :: G :: opg :: ks) by (cbn [transpose tshape]; unfold w2r; cbn [reshape tshape]; apply sel201).
    rewrite Hsp. cbn [nth skipn].
    assert (Hp1 : (0 < prod (tl (tshape w1)))%nat).
    { destruct (Hnz 0%nat) as (k & V & _); [rewrite HC; nia|]. destruct (tshape w1) as [|o1 rest]; [congruence|]. inversion V as [|i0 d0 k0 s0 Hlt0 F]. cbn [tl].
      apply ravel_lt in F. lia. }
    set (w2m := reshape [(per * G)%nat; prod (opg :: ks)] (transpose ([2; 0; 1]%nat ++ seq 3 (length ks)) w2r)).
    destruct (rows_absmax_defined (reshape [nth 0 (tshape w1) 0%nat; prod (tl (tshape w1))] w1)) as [r1 E1]; [exact Hp1|].
    destruct (rows_absmax_defined w2m) as [r2 E2]; [cbn [w2m tshape reshape nth prod]; nia|].
    rewrite E1, E2. cbn [obind]. assert (L1 := rows_absmax_length _ _ E1). assert (L2 := rows_absmax_length _ _ E2). cbn [w2m tshape reshape nth] in L1, L2.
    replace (length r1 =? length r2)%nat with true by (symmetry; apply Nat.eqb_eq; lia).
    apply oall_some_map. intros c Hc. apply in_seq in Hc.
    assert (Hr : nth c r1 0 <> 0).
    { destruct (range1_ok w1 r1 c Hne) as [_ Hmax]; [lia|exact E1|]. destruct (Hnz c) as (k & V & Hk); [lia|].
      specialize (Hmax (c :: k) (conj V eq_refl)). pose proof (Rabs_pos_lt _ Hk). lra. }
    unfold eq_scale. destruct (Rlt_dec _ _); [discriminate|]. destruct (Req_EM_T _ _); [|discriminate].
    destruct (Req_EM_T _ _); [contradiction|discriminate]. }
  destruct HEq as [s E]. unfold weight_equal. rewrite E. discriminate.
Qed.
