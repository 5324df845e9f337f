(** Proofs about [AtenRnnModel]. *)
From Coq Require Import List Arith Bool Reals Lia Lra.
From Verif Require Import Tensor ReshapeProofs LowerProofs FuseProofs FuseMiscProofs AtenConvProofs AtenEltProofs AtenLinProofs.
From Verif Require Import ConvSpec CatSpec LayoutSpec FuseModel MoveSpec EltSpec LinSpec RnnSpec AtenRnnModel.
Import ListNotations.
Local Open Scope R_scope.

(* ------------------------------------------------------------------ *)
(** * Tensors that represent activations *)

Definition rep (B N : nat) (t : tensor R) (f : mat) : Prop :=
  tshape t = [B; N] /\ forall b j, (b < B)%nat -> (j < N)%nat -> tget t [b; j] = f b j.
(** the same, or one value per unit *)
Definition orep (B N : nat) (t : tensor R) (f : mat) : Prop :=
  rep B N t f \/ (tshape t = [N] /\ forall b j, (b < B)%nat -> (j < N)%nat -> tget t [j] = f b j).

Lemma vld2 a b i j : (i < a)%nat -> (j < b)%nat -> valid [a; b] [i; j].
Proof. intros. repeat constructor; auto. Qed.
Lemma rep_congr B N t f g : rep B N t f -> (forall b j, (b < B)%nat -> (j < N)%nat -> f b j = g b j) -> rep B N t g.
Proof. intros [S G] E. split; auto. intros b j Hb Hj. rewrite G by auto. auto. Qed.
Lemma rep_binop (op : R -> R -> R) B N x y f g : rep B N x f -> orep B N y g ->
  exists z, binop op x y = Some z /\ rep B N z (fun b j => op (f b j) (g b j)).
Proof.
  intros [Sx Gx] [[Sy Gy]|[Sy Gy]]; unfold binop; rewrite Sx, Sy.
  - rewrite bshape_self. eexists. split; [reflexivity|]. split; [reflexivity|]. intros b j Hb Hj. cbn [tget].
    rewrite bidx_self by now apply vld2. now rewrite Gx, Gy.
  - assert (bshape [B; N] [N] = Some [B; N]) as E by (unfold bshape; cbn; now rewrite bdim_same). rewrite E.
    eexists. split; [reflexivity|]. split; [reflexivity|]. intros b j Hb Hj. cbn [tget].
    rewrite bidx_self by now apply vld2. rewrite Gx by auto. f_equal. rewrite <- (Gy b j Hb Hj). f_equal. cbn.
    destruct (Nat.eqb_spec N 1); [f_equal; lia|reflexivity].
Qed.
Lemma rep_binop2 (op : R -> R -> R) B N x y f g : rep B N x f -> rep B N y g ->
  exists z, binop op x y = Some z /\ rep B N z (fun b j => op (f b j) (g b j)).
Proof. intros Hx Hy. apply rep_binop; [exact Hx | left; exact Hy]. Qed.
Lemma rep_const (op : R -> R -> R) B N (k : R) y g : rep B N y g ->
  exists z, binop op (mkT [] (fun _ => k)) y = Some z /\ rep B N z (fun b j => op k (g b j)).
Proof.
  intros [Sy Gy]. unfold binop. rewrite Sy. cbn [tshape].
  assert (bshape [] [B; N] = Some [B; N]) as E by reflexivity. rewrite E.
  eexists. split; [reflexivity|]. split; [reflexivity|]. intros b j Hb Hj. cbn [tget].
  rewrite bidx_self by now apply vld2. now rewrite Gy.
Qed.
Lemma rep_tmap F B N x f : rep B N x f -> rep B N (tmap F x) (fun b j => F (f b j)).
Proof. intros [S G]. split; [exact S|]. intros b j Hb Hj. cbn [tmap tget]. now rewrite G. Qed.

Lemma rep_fc B N K x w bias f : rep B K x f -> tshape w = [N; K] -> tshape bias = [N] -> (0 < K)%nat ->
  exists y, fully_connected false x w bias = Some y /\
    rep B N y (fun b j => tget bias [j] + lsum (seq 0 K) (fun k => tget w [j; k] * f b k)).
Proof.
  intros [Sx Gx] Sw Sb Hk.
  destruct (fc_keep x w bias [] B K N Sx Sw) as (y & Ey & Sy & Gy); [rewrite Sb; cbn; lia | exact Hk |].
  rewrite Sx in Ey. cbn [length] in Ey. exists y. split; [exact Ey|]. split; [exact Sy|].
  intros b j Hb Hj. change [b; j] with ([] ++ [b; j]). rewrite Gy by (auto; constructor). rewrite Sb, unravel1 by auto. f_equal.
  apply lsum_ext. intros q Hq. apply in_seq in Hq. cbn [app]. rewrite Gx by lia. reflexivity.
Qed.

(* ------------------------------------------------------------------ *)
(** * Gates *)

Definition nt : tensor R := mkT [] (fun _ => 0).
(** lists of weight matrices and of bias vectors, one per gate *)
Definition wrep (G H K : nat) (ws : list (tensor R)) (W : nat -> nat -> nat -> R) : Prop :=
  length ws = G /\ forall g, (g < G)%nat -> tshape (nth g ws nt) = [H; K] /\
    forall j k, (j < H)%nat -> (k < K)%nat -> tget (nth g ws nt) [j; k] = W g j k.
Definition brep (G H : nat) (bs : list (tensor R)) (Bf : nat -> nat -> R) : Prop :=
  length bs = G /\ forall g, (g < G)%nat -> tshape (nth g bs nt) = [H] /\ forall j, (j < H)%nat -> tget (nth g bs nt) [j] = Bf g j.

Lemma cat_rows H (ts : list (tensor R)) : forall rest d g j r,
  Forall (fun t => tshape t = H :: rest) ts -> (g < length ts)%nat -> (j < H)%nat ->
  cat_at d 0 ts (j :: r) (g * H + j) = tget (nth g ts nt) (j :: r).
Proof.
  induction ts as [|t ts IH]; intros rest d g j r F Hg Hj; [cbn in Hg; lia|].
  inversion F as [|? ? S1 F']; subst. cbn [cat_at]. unfold axis_size at 1. rewrite S1. cbn [nth].
  destruct g as [|g].
  - destruct (Nat.ltb_spec (0 * H + j) H); [|lia]. reflexivity.
  - destruct (Nat.ltb_spec (S g * H + j) H); [nia|]. unfold axis_size. rewrite S1. cbn [nth length] in *.
    replace (S g * H + j - H)%nat with (g * H + j)%nat by nia. apply (IH rest); auto. lia.
Qed.
Lemma cat_at_upd0 {A} (d : A) ts i r v n : cat_at d 0 ts (i :: r) n = cat_at d 0 ts (v :: r) n.
Proof. revert n. induction ts as [|t ts IH]; intro n; cbn [cat_at upd]; auto. now rewrite IH. Qed.
Lemma cat_shape H rest (ts : list (tensor R)) : ts <> [] -> Forall (fun t => tshape t = H :: rest) ts ->
  tshape (concatenation 0 0 ts) = (length ts * H)%nat :: rest.
Proof.
  intros N F. destruct ts as [|t ts]; [congruence|]. unfold concatenation. cbn [tshape]. inversion F as [|? ? S1 F']; subst. rewrite S1. cbn [upd].
  f_equal. clear N. unfold sizes_sum. induction F as [|u us Su Fu IH]; [reflexivity|]. cbn [map list_sum fold_right length].
  unfold axis_size at 1. rewrite Su. cbn [nth]. fold (list_sum (map (axis_size 0) us)). destruct us as [|v us]; [cbn; lia|].
  inversion Fu; subst. rewrite IH; auto.
Qed.
Lemma concat_rows H rest (ts : list (tensor R)) g j r : Forall (fun t => tshape t = H :: rest) ts -> (g < length ts)%nat -> (j < H)%nat ->
  tget (concatenation 0 0 ts) ((g * H + j)%nat :: r) = tget (nth g ts nt) (j :: r).
Proof. intros F Hg Hj. unfold concatenation. cbn [tget nth]. rewrite (cat_at_upd0 _ _ _ _ j). now apply (cat_rows H ts rest). Qed.
Lemma Forall_nth_in {A} (P : A -> Prop) l d n : length l = n -> (forall g, (g < n)%nat -> P (nth g l d)) -> Forall P l.
Proof. intros L E. apply Forall_forall. intros x Hx. apply (In_nth _ _ d) in Hx. destruct Hx as (i & Hi & <-). apply E. lia. Qed.

(** the product with the joined weights, gate by gate *)
Lemma fc_joined B G H K x ws bs f W Bf : rep B K x f -> wrep G H K ws W -> brep G H bs Bf -> (0 < K)%nat -> (0 < G)%nat ->
  exists y F, fully_connected false x (concatenation 0 0 ws) (concatenation 0 0 bs) = Some y /\ rep B (G * H) y F /\
    forall g b j, (g < G)%nat -> (b < B)%nat -> (j < H)%nat -> F b (g * H + j)%nat = Bf g j + lsum (seq 0 K) (fun k => W g j k * f b k).
Proof.
  intros Hx [Lw Ew] [Lb Eb] HK HG.
  assert (Forall (fun t => tshape t = [H; K]) ws) as Fw by (apply (Forall_nth_in _ _ nt G); auto; intros; apply Ew; auto).
  assert (Forall (fun t => tshape t = [H]) bs) as Fb by (apply (Forall_nth_in _ _ nt G); auto; intros; apply Eb; auto).
  assert (tshape (concatenation 0 0 ws) = [(G * H)%nat; K]) as Sw by (rewrite (cat_shape H [K]), Lw; auto; destruct ws; [cbn in Lw; lia|discriminate]).
  assert (tshape (concatenation 0 0 bs) = [(G * H)%nat]) as Sb by (rewrite (cat_shape H []), Lb; auto; destruct bs; [cbn in Lb; lia|discriminate]).
  destruct (rep_fc B (G * H) K x _ _ f Hx Sw Sb HK) as (y & Ey & Ry). exists y. eexists. split; [exact Ey|]. split; [exact Ry|].
  intros g b j Hg Hb Hj. cbv beta. rewrite (concat_rows H []) by (auto; lia). destruct (Eb g Hg) as [_ Eb']. rewrite Eb' by auto. f_equal.
  apply lsum_ext. intros k Hk. apply in_seq in Hk. rewrite (concat_rows H [K]) by (auto; lia). destruct (Ew g Hg) as [_ Ew']. rewrite Ew' by lia. reflexivity.
Qed.
Lemma brep_zero G H bs Bf : brep G H bs Bf -> brep G H (map (fun b => zeros (tshape b)) bs) (fun _ _ => 0).
Proof.
  intros [L E]. split; [now rewrite map_length|]. intros g Hg. rewrite (nth_indep _ nt (zeros (tshape nt))) by (rewrite map_length; lia).
  rewrite (map_nth (fun b => zeros (tshape b))). cbn [zeros tshape tget]. split; [apply E; auto | auto].
Qed.
Lemma fc_gate B G H K x ws bs f W Bf g : rep B K x f -> wrep G H K ws W -> brep G H bs Bf -> (0 < K)%nat -> (g < G)%nat ->
  exists y, fully_connected false x (nth g ws nt) (nth g bs nt) = Some y /\ rep B H y (fun b j => Bf g j + lsum (seq 0 K) (fun k => W g j k * f b k)).
Proof.
  intros Hx [Lw Ew] [Lb Eb] HK Hg. destruct (Ew g Hg) as [Sw Ew']. destruct (Eb g Hg) as [Sb Eb'].
  destruct (rep_fc B H K x _ _ f Hx Sw Sb HK) as (y & Ey & Ry). exists y. split; [exact Ey|]. eapply rep_congr; [exact Ry|].
  intros b j Hb Hj. cbv beta. rewrite Eb' by auto. f_equal. apply lsum_ext. intros k Hk. apply in_seq in Hk. rewrite Ew' by lia. reflexivity.
Qed.
Lemma split_gates B G H t F : (0 < G)%nat -> rep B (G * H) t F ->
  split_op G 1 t = Some (map (fun g => split_part G 1 g t) (seq 0 G)) /\
  forall g, (g < G)%nat -> rep B H (split_part G 1 g t) (fun b j => F b (g * H + j)%nat).
Proof.
  intros HG [S E]. unfold split_op, split_part, axis_size. rewrite S. cbn [nth upd].
  rewrite (Nat.mul_comm G H), Nat.mod_mul, Nat.eqb_refl, Nat.div_mul by lia. split; [reflexivity|].
  intros g Hg. split; [reflexivity|]. intros b j Hb Hj. cbn [tget upd nth]. apply E; nia.
Qed.

(* ------------------------------------------------------------------ *)
(** * One step of an LSTM *)

(** the cell in terms of the gates *)
Definition pre (H K : nat) (W Rr : nat -> nat -> nat -> R) (Bf : nat -> nat -> R) (x h : mat) (g b j : nat) : R :=
  Bf g j + lsum (seq 0 K) (fun k => W g j k * x b k) + lsum (seq 0 H) (fun k => Rr g j k * h b k).
Definition acell (H K : nat) W Rr Bf (x : mat) (s : mat * mat) : mat * mat :=
  let c b j := sigmoid (pre H K W Rr Bf x (fst s) 1 b j) * snd s b j + sigmoid (pre H K W Rr Bf x (fst s) 0 b j) * tanh (pre H K W Rr Bf x (fst s) 2 b j) in
  (fun b j => sigmoid (pre H K W Rr Bf x (fst s) 3 b j) * tanh (c b j), c).

Lemma lstm_pointwise_ok B H skip_c gates c fc (F : nat -> mat) :
  (forall g, (g < 4)%nat -> (g = 1%nat /\ skip_c = true) \/ exists y, nth_error gates g = Some (Some y) /\ rep B H y (F g)) ->
  rep B H c fc -> (skip_c = true -> forall b j, (b < B)%nat -> (j < H)%nat -> fc b j = 0) ->
  exists h' c', lstm_pointwise skip_c gates c = Some (h', c') /\
    rep B H c' (fun b j => sigmoid (F 1%nat b j) * fc b j + sigmoid (F 0%nat b j) * tanh (F 2%nat b j)) /\
    rep B H h' (fun b j => sigmoid (F 3%nat b j) * tanh (sigmoid (F 1%nat b j) * fc b j + sigmoid (F 0%nat b j) * tanh (F 2%nat b j))).
Proof.
  intros E Hc Z. unfold lstm_pointwise.
  destruct (E 0%nat ltac:(lia)) as [[? _]|(y0 & N0 & R0)]; [lia|]. destruct (E 2%nat ltac:(lia)) as [[? _]|(y2 & N2 & R2)]; [lia|].
  destruct (E 3%nat ltac:(lia)) as [[? _]|(y3 & N3 & R3)]; [lia|]. rewrite N0, N2, N3. cbn [obind].
  destruct (rep_binop2 Rmult B H _ _ _ _ (rep_tmap sigmoid _ _ _ _ R0) (rep_tmap tanh _ _ _ _ R2)) as (cr & Ecr & Rcr). rewrite Ecr. cbn [obind].
  assert (exists c', (if skip_c then Some cr
         else obind (obind (nth_error gates 1) (fun g => g)) (fun g1 => obind (binop Rmult (tmap sigmoid g1) c) (fun c_left => binop Rplus c_left cr))) = Some c' /\
         rep B H c' (fun b j => sigmoid (F 1%nat b j) * fc b j + sigmoid (F 0%nat b j) * tanh (F 2%nat b j))) as (c' & Ec & Rc).
  { destruct skip_c.
    - exists cr. split; [reflexivity|]. eapply rep_congr; [exact Rcr|]. intros b j Hb Hj. cbv beta. rewrite Z by auto. ring.
    - destruct (E 1%nat ltac:(lia)) as [[_ ?]|(y1 & N1 & R1)]; [discriminate|]. rewrite N1. cbn [obind].
      destruct (rep_binop2 Rmult B H _ _ _ _ (rep_tmap sigmoid _ _ _ _ R1) Hc) as (cl & Ecl & Rcl). rewrite Ecl. cbn [obind].
      exact (rep_binop2 Rplus B H _ _ _ _ Rcl Rcr). }
  rewrite Ec. cbn [obind].
  destruct (rep_binop2 Rmult B H _ _ _ _ (rep_tmap sigmoid _ _ _ _ R3) (rep_tmap tanh _ _ _ _ Rc)) as (h' & Eh & Rh). rewrite Eh. cbn [obind].
  exists h', c'. auto.
Qed.

Lemma list4 {A} (l : list A) : length l = 4%nat -> exists a b c d, l = [a; b; c; d].
Proof. destruct l as [|a [|b [|c [|d [|]]]]]; try discriminate. eauto. Qed.

Lemma gate_products_ok B H K skip x ws bs f W Bf : rep B K x f -> wrep 4 H K ws W -> brep 4 H bs Bf -> (0 < K)%nat ->
  exists y0 y1 y2 y3, gate_products skip x ws bs = Some [Some y0; if skip then None else Some y1; Some y2; Some y3] /\
    forall g, (g < 4)%nat -> rep B H (nth g [y0; y1; y2; y3] nt) (fun b j => Bf g j + lsum (seq 0 K) (fun k => W g j k * f b k)).
Proof.
  intros Hx Hw Hb HK.
  destruct (fc_gate B 4 H K x ws bs f W Bf 0 Hx Hw Hb HK ltac:(lia)) as (y0 & E0 & R0).
  destruct (fc_gate B 4 H K x ws bs f W Bf 1 Hx Hw Hb HK ltac:(lia)) as (y1 & E1 & R1).
  destruct (fc_gate B 4 H K x ws bs f W Bf 2 Hx Hw Hb HK ltac:(lia)) as (y2 & E2 & R2).
  destruct (fc_gate B 4 H K x ws bs f W Bf 3 Hx Hw Hb HK ltac:(lia)) as (y3 & E3 & R3).
  destruct Hw as [Lw _]. destruct Hb as [Lb _]. destruct (list4 _ Lw) as (w0 & w1 & w2 & w3 & ->). destruct (list4 _ Lb) as (b0 & b1 & b2 & b3 & ->).
  cbn [nth] in *. exists y0, y1, y2, y3. split.
  - unfold gate_products. cbn [length seq combine map fst snd Nat.eqb andb all_ops obind]. rewrite E0, E1, E2, E3. cbn [option_map].
    destruct skip; reflexivity.
  - intros g Hg. destruct g as [|[|[|[|]]]]; cbn [nth]; auto. lia.
Qed.

Lemma lsum_zero_mul n (w f : nat -> R) : (forall k, (k < n)%nat -> f k = 0) -> lsum (seq 0 n) (fun k => w k * f k) = 0.
Proof. intro E. apply lsum_zero. intros k Hk. apply in_seq in Hk. rewrite E by lia. ring. Qed.

Lemma lstm_step_ok sep skip_h skip_c B H K ws rs bs W Rr Bf t h c ft fh fc :
  (0 < K)%nat -> (0 < H)%nat -> wrep 4 H K ws W -> wrep 4 H H rs Rr -> brep 4 H bs Bf ->
  rep B K t ft -> rep B H h fh -> rep B H c fc ->
  (skip_h = true -> forall b j, (b < B)%nat -> (j < H)%nat -> fh b j = 0) ->
  (skip_c = true -> forall b j, (b < B)%nat -> (j < H)%nat -> fc b j = 0) ->
  (sep = true -> skip_c = true -> skip_h = true) ->
  exists h' c', lstm_step sep skip_h skip_c ws rs bs t h c = Some (h', c') /\
    rep B H h' (fst (acell H K W Rr Bf ft (fh, fc))) /\ rep B H c' (snd (acell H K W Rr Bf ft (fh, fc))).
Proof.
  intros HK HH Hw Hr Hb Ht Hh Hc Zh Zc Hsep. unfold lstm_step.
  assert (forall gates, (forall g, (g < 4)%nat -> (g = 1%nat /\ skip_c = true) \/ exists y, nth_error gates g = Some (Some y) /\ rep B H y (pre H K W Rr Bf ft fh g)) ->
    exists h' c', lstm_pointwise skip_c gates c = Some (h', c') /\
      rep B H h' (fst (acell H K W Rr Bf ft (fh, fc))) /\ rep B H c' (snd (acell H K W Rr Bf ft (fh, fc)))) as PW.
  { intros gates E. destruct (lstm_pointwise_ok B H skip_c gates c fc _ E Hc Zc) as (h' & c' & E' & Rc & Rh). exists h', c'. split; [exact E'|]. split; [exact Rh | exact Rc]. }
  destruct sep.
  - destruct (gate_products_ok B H K skip_c t ws bs ft W Bf Ht Hw Hb HK) as (y0 & y1 & y2 & y3 & Ey & Ry). rewrite Ey. cbn [obind].
    destruct skip_h.
    + apply PW. intros g Hg. assert (rep B H (nth g [y0; y1; y2; y3] nt) (pre H K W Rr Bf ft fh g)) as Rg.
      { eapply rep_congr; [apply Ry; auto|]. intros b j Hb' Hj. unfold pre. cbv beta. rewrite (lsum_zero_mul H) by (intros; apply Zh; auto). ring. }
      destruct g as [|[|[|[|]]]]; cbn [nth nth_error] in *; try lia; try (right; eexists; split; [reflexivity|assumption]).
      destruct skip_c; [left; auto | right; eauto].
    + assert (skip_c = false) as -> by (destruct skip_c; [discriminate (Hsep eq_refl eq_refl)|reflexivity]).
      destruct (gate_products_ok B H H false h rs _ fh Rr _ Hh Hr (brep_zero _ _ _ _ Hb) HH) as (z0 & z1 & z2 & z3 & Ez & Rz). rewrite Ez. cbn [obind add_products].
      assert (forall g, (g < 4)%nat -> exists s, binop Rplus (nth g [y0; y1; y2; y3] nt) (nth g [z0; z1; z2; z3] nt) = Some s /\ rep B H s (pre H K W Rr Bf ft fh g)) as A.
      { intros g Hg. destruct (rep_binop2 Rplus B H _ _ _ _ (Ry g Hg) (Rz g Hg)) as (s & Es & Rs). exists s. split; [exact Es|].
        eapply rep_congr; [exact Rs|]. intros b j Hb' Hj. unfold pre. cbv beta. ring. }
      destruct (A 0%nat ltac:(lia)) as (s0 & A0 & S0). destruct (A 1%nat ltac:(lia)) as (s1 & A1 & S1). destruct (A 2%nat ltac:(lia)) as (s2 & A2 & S2). destruct (A 3%nat ltac:(lia)) as (s3 & A3 & S3).
      cbn [nth] in A0, A1, A2, A3. rewrite A0, A1, A2, A3. cbn [obind].
      apply PW. intros g Hg. right. destruct g as [|[|[|[|]]]]; cbn [nth_error]; try lia; eauto.
  - cbv zeta. destruct (fc_joined B 4 H K t ws bs ft W Bf Ht Hw Hb HK ltac:(lia)) as (im & Fi & Ei & Ri & Vi). rewrite Ei. cbn [obind].
    assert (exists ao F, (if skip_h then Some im else obind (fully_connected false h (concatenation 0 0 rs) (zeros (tshape (concatenation 0 0 bs)))) (fun hm => binop Rplus im hm)) = Some ao /\
       rep B (4 * H) ao F /\ forall g b j, (g < 4)%nat -> (b < B)%nat -> (j < H)%nat -> F b (g * H + j)%nat = pre H K W Rr Bf ft fh g b j) as (ao & F & Ea & Ra & Va).
    { destruct skip_h.
      - exists im, Fi. split; [reflexivity|]. split; [exact Ri|]. intros g b j Hg Hb' Hj. rewrite Vi by auto. unfold pre.
        rewrite (lsum_zero_mul H) by (intros; apply Zh; auto). ring.
      - assert (Forall (fun t0 => tshape t0 = [H]) bs) as Fb by (destruct Hb as [Lb Eb]; apply (Forall_nth_in _ _ nt 4); auto; intros; apply Eb; auto).
        assert (tshape (concatenation 0 0 bs) = [(4 * H)%nat]) as Sb by (destruct Hb as [Lb Eb]; rewrite (cat_shape H []), Lb; auto; destruct bs; [cbn in Lb; lia|discriminate]).
        rewrite Sb.
        assert (Forall (fun t0 => tshape t0 = [H; H]) rs) as Fr by (destruct Hr as [Lr Er]; apply (Forall_nth_in _ _ nt 4); auto; intros; apply Er; auto).
        assert (tshape (concatenation 0 0 rs) = [(4 * H)%nat; H]) as Sr by (destruct Hr as [Lr Er]; rewrite (cat_shape H [H]), Lr; auto; destruct rs; [cbn in Lr; lia|discriminate]).
        destruct (rep_fc B (4 * H) H h _ (zeros [(4 * H)%nat]) fh Hh Sr eq_refl HH) as (hm & Eh & Rh). rewrite Eh. cbn [obind].
        destruct (rep_binop2 Rplus B (4 * H) _ _ _ _ Ri Rh) as (ao & Ea & Ra). exists ao. eexists. split; [exact Ea|]. split; [exact Ra|].
        intros g b j Hg Hb' Hj. cbv beta. rewrite Vi by auto. unfold pre. cbn [zeros tget]. rewrite Rplus_0_l. f_equal.
        apply lsum_ext. intros k Hk. apply in_seq in Hk. destruct Hr as [Lr Er]. rewrite (concat_rows H [H]) by (auto; lia). destruct (Er g Hg) as [_ Er']. rewrite Er' by lia. reflexivity. }
    rewrite Ea. cbn [obind]. destruct (split_gates B 4 H ao F ltac:(lia) Ra) as [Es Rs]. rewrite Es. cbn [obind seq map].
    apply PW. intros g Hg. right. destruct g as [|[|[|[|]]]]; cbn [nth_error]; try lia; (eexists; split; [reflexivity|]; eapply rep_congr; [apply Rs; lia|]; intros; apply Va; auto).
Qed.

(* ------------------------------------------------------------------ *)
(** * The loop over time *)

Lemma last_cons {A} (l : list A) a d : last (a :: l) d = last l a.
Proof. revert a d. induction l as [|b l IH]; intros a d; [reflexivity|]. change (last (b :: l) d = last (b :: l) a). now rewrite !IH. Qed.
Lemma run_length {P St} (cell : P -> mat -> St -> St) p xs : forall s, length (run cell p s xs) = length xs.
Proof. induction xs as [|x xs IH]; intro s; [reflexivity|]. cbn [run length]. now rewrite IH. Qed.

(** gates of a direction in terms of its weights *)
Definition pW (H : nat) (p : rnn_params) (g j k : nat) : R := tget (w_ih p) [(g * H + j)%nat; k].
Definition pR (H : nat) (p : rnn_params) (g j k : nat) : R := tget (w_hh p) [(g * H + j)%nat; k].
Definition pB (H : nat) (p : rnn_params) (g j : nat) : R :=
  match biases p with Some (a, b) => tget a [(g * H + j)%nat] + tget b [(g * H + j)%nat] | None => 0 end.
Lemma lstm_cell_eq H K p x s : params_ok 4 H K p -> lstm_cell p x s = acell H K (pW H p) (pR H p) (pB H p) x s.
Proof.
  intros (Sw & Sr & _).
  assert (forall g b j, affine (w_ih p) (option_map fst (biases p)) x (g * units p + j) b +
    affine (w_hh p) (option_map snd (biases p)) (fst s) (g * units p + j) b = pre H K (pW H p) (pR H p) (pB H p) x (fst s) g b j) as E.
  { intros g b j. unfold affine, pre, pW, pR, pB, units. rewrite Sw, Sr. cbn [nth]. destruct (biases p) as [[u v]|]; cbn [option_map fst snd]; ring. }
  unfold lstm_cell, acell. f_equal; apply FunctionalExtensionality.functional_extensionality; intro b;
    apply FunctionalExtensionality.functional_extensionality; intro j; rewrite !E; reflexivity.
Qed.

Definition srel2 (B H : nat) (m : tensor R * tensor R) (s : mat * mat) : Prop := rep B H (fst m) (fst s) /\ rep B H (snd m) (snd s).

Lemma lstm_loop_ok sep B H K ws rs bs p :
  (0 < K)%nat -> (0 < H)%nat -> params_ok 4 H K p -> wrep 4 H K ws (pW H p) -> wrep 4 H H rs (pR H p) -> brep 4 H bs (pB H p) ->
  forall ts xs, Forall2 (rep B K) ts xs -> forall skip_h skip_c h c fh fc, rep B H h fh -> rep B H c fc ->
  (skip_h = true -> forall b j, (b < B)%nat -> (j < H)%nat -> fh b j = 0) ->
  (skip_c = true -> forall b j, (b < B)%nat -> (j < H)%nat -> fc b j = 0) ->
  (sep = true -> skip_c = true -> skip_h = true) ->
  exists hs m, lstm_loop sep skip_h skip_c ws rs bs ts h c = Some (hs, m) /\
    Forall2 (rep B H) hs (map fst (run lstm_cell p (fh, fc) xs)) /\ srel2 B H m (last (run lstm_cell p (fh, fc) xs) (fh, fc)).
Proof.
  intros HK HH Hp Hw Hr Hb ts xs F. induction F as [|t x ts xs Ht F IH]; intros skip_h skip_c h c fh fc Hh Hc Zh Zc Hs.
  - exists [], (h, c). cbn. split; [reflexivity|]. split; [constructor|]. split; auto.
  - cbn [lstm_loop run]. rewrite (lstm_cell_eq H K) by auto.
    destruct (lstm_step_ok sep skip_h skip_c B H K ws rs bs _ _ _ t h c x fh fc HK HH Hw Hr Hb Ht Hh Hc Zh Zc Hs) as (h' & c' & E & Rh & Rc).
    rewrite E. cbn [obind fst snd].
    destruct (acell H K (pW H p) (pR H p) (pB H p) x (fh, fc)) as [fh' fc']. cbn [fst snd] in Rh, Rc.
    destruct (IH false false h' c' fh' fc' Rh Rc ltac:(discriminate) ltac:(discriminate) ltac:(discriminate)) as (hs & m & El & Fl & Sl).
    rewrite El. cbn [obind fst snd]. exists (h' :: hs), m. split; [reflexivity|]. split; [constructor; auto|]. rewrite last_cons. exact Sl.
Qed.

(* ------------------------------------------------------------------ *)
(** * Sequences as tensors *)

Definition seqrep (bf : bool) (B W : nat) (x : tensor R) (ys : list mat) : Prop :=
  tshape x = (if bf then [B; length ys; W] else [length ys; B; W]) /\
  forall t b j, (t < length ys)%nat -> (b < B)%nat -> (j < W)%nat -> tget x (if bf then [b; t; j] else [t; b; j]) = nth t ys no_mat b j.
Lemma seqrep_teq bf B W x ys : seqrep bf B W x ys -> teq x (seq_tensor bf B W ys).
Proof.
  intros [S E]. split; [exact S|]. intros idx V. rewrite S in V. destruct bf; destruct (valid3 _ _ _ _ V) as (a & b & c & -> & Ha & Hb & Hc); cbn; apply (E b a c) || apply (E a b c); auto.
Qed.
Lemma Forall2_nth_iff {A B} (P : A -> B -> Prop) d e : forall l m, Forall2 P l m <-> length l = length m /\ forall i, (i < length l)%nat -> P (nth i l d) (nth i m e).
Proof.
  induction l as [|a l IH]; intros [|b m]; cbn [length]; split.
  - intros _. split; auto. intros i Hi. lia.
  - intros _. constructor.
  - intro F. inversion F.
  - intros [L _]. discriminate.
  - intro F. inversion F.
  - intros [L _]. discriminate.
  - intro F. inversion F as [|? ? ? ? Hab F']; subst. apply IH in F'. destruct F' as [L E]. split; [lia|]. intros [|i] Hi; cbn [nth]; auto. apply E. lia.
  - intros [L E]. constructor; [exact (E 0%nat ltac:(lia))|]. apply IH. split; [lia|]. intros i Hi. exact (E (S i) ltac:(lia)).
Qed.
Lemma Forall2_rev' {A B} (P : A -> B -> Prop) l m : Forall2 P l m -> Forall2 P (rev l) (rev m).
Proof. intro F. induction F as [|a b l m Hab F IH]; [constructor|]. cbn [rev]. apply Forall2_app; auto. Qed.
Lemma F2_length {A B} (P : A -> B -> Prop) l m : Forall2 P l m -> length l = length m.
Proof. intro F. induction F; cbn; auto. Qed.

Lemma unpack_steps bf B W x ys : seqrep bf B W x ys ->
  Forall2 (rep B W) (map (fun t => unpack (if bf then 1%nat else 0%nat) t x) (seq 0 (nth (if bf then 1%nat else 0%nat) (tshape x) 0%nat))) ys.
Proof.
  intros [S E]. assert (nth (if bf then 1%nat else 0%nat) (tshape x) 0%nat = length ys) as L by (rewrite S; destruct bf; reflexivity). rewrite L.
  apply (Forall2_nth_iff _ nt no_mat). rewrite map_length, seq_length. split; [reflexivity|]. intros i Hi. rewrite nth_map_seq by auto.
  split; unfold unpack; cbn [tshape tget].
  - rewrite S. destruct bf; reflexivity.
  - intros b j Hb Hj. rewrite <- E by auto. destruct bf; reflexivity.
Qed.
Lemma pack_steps bf B W ts ys : ts <> [] -> Forall2 (rep B W) ts ys -> seqrep bf B W (pack 0 (if bf then 1%nat else 0%nat) ts) ys.
Proof.
  intros N F. pose proof (F2_length _ _ _ F) as L. apply (Forall2_nth_iff _ nt no_mat) in F. destruct F as [_ E].
  destruct ts as [|t0 ts']; [congruence|]. set (ts := t0 :: ts') in *.
  assert (0 < length ts)%nat as HL by (cbn; lia). pose proof (E 0%nat HL) as [S0 _]. cbn [nth ts] in S0.
  unfold pack. split; cbn [tshape tget].
  - change (match ts with [] => [] | t :: _ => insert_at (if bf then 1%nat else 0%nat) (length ts) (tshape t) end) with (insert_at (if bf then 1%nat else 0%nat) (length ts) (tshape t0)).
    rewrite S0, L. destruct bf; reflexivity.
  - intros t b j Ht Hb Hj. rewrite <- L in Ht. destruct (E t Ht) as [_ G]. destruct bf; cbn; apply G; auto.
Qed.
Lemma concat_sides bf B H x y xs ys : length xs = length ys -> seqrep bf B H x xs -> seqrep bf B H y ys ->
  seqrep bf B (2 * H) (concatenation 0 2 [x; y]) (map (fun t => side H (nth t xs no_mat) (nth t ys no_mat)) (seq 0 (length xs))).
Proof.
  intros L [Sx Ex] [Sy Ey]. unfold seqrep. rewrite map_length, seq_length. rewrite <- L in Sy, Ey. split.
  - unfold concatenation, sizes_sum, axis_size. cbn [tshape map list_sum fold_right]. rewrite Sx, Sy. destruct bf; cbn; repeat f_equal; lia.
  - intros t b j Ht Hb Hj. rewrite nth_map_seq by auto. unfold side. unfold concatenation. cbn [tget cat_at]. unfold axis_size. rewrite Sx, Sy.
    destruct bf; cbn [nth upd]; destruct (Nat.ltb_spec j H).
    + apply (Ex t b j); auto.
    + destruct (Nat.ltb_spec (j - H) H); [|lia]. apply (Ey t b (j - H)%nat); auto.
    + apply (Ex t b j); auto.
    + destruct (Nat.ltb_spec (j - H) H); [|lia]. apply (Ey t b (j - H)%nat); auto.
Qed.
Lemma steps_rep (bf : bool) (B W T : nat) (x : tensor R) : tshape x = (if bf then [B; T; W] else [T; B; W]) -> seqrep bf B W x (steps bf x) /\ length (steps bf x) = T.
Proof.
  intros S. assert (length (steps bf x) = T) as L by (unfold steps; rewrite map_length, seq_length, S; destruct bf; reflexivity). split; [|exact L].
  split; [now rewrite L|]. intros t b j Ht Hb Hj. unfold steps. rewrite L in Ht. rewrite nth_map_seq by (rewrite S; destruct bf; cbn; auto). reflexivity.
Qed.

(* ------------------------------------------------------------------ *)
(** * Layers *)

Section LayersOk.
  Context {P St M : Type} (cell : P -> mat -> St -> St) (out : St -> mat) (srel : M -> St -> Prop) (B H : nat).
  Definition dir_ok (I : nat) (p : P) (s : St) (dir : list (tensor R) -> option (list (tensor R) * M)) : Prop :=
    forall ts xs, Forall2 (rep B I) ts xs ->
    exists hs m, dir ts = Some (hs, m) /\ Forall2 (rep B H) hs (map out (run cell p s xs)) /\ srel m (last (run cell p s xs) s).
  Definition currep (bf : bool) (W : nat) (cur : tensor R + list (tensor R)) (xs : list mat) : Prop :=
    match cur with inl x => seqrep bf B W x xs | inr ts => Forall2 (rep B W) ts xs end.
  Lemma layer_unrolled_ok (bf bi lst : bool) (I : nat) (l : list (P * St)) (dir : nat -> list (tensor R) -> option (list (tensor R) * M)) (cur : tensor R + list (tensor R)) (xs : list mat) :
    length l = (if bi then 2%nat else 1%nat) -> xs <> [] -> currep bf I cur xs ->
    (forall d p s, nth_error l d = Some (p, s) -> dir_ok I p s (dir d)) ->
    exists cur' ms, layer_unrolled bf bi lst dir cur = Some (cur', ms) /\
      currep bf (length l * H) cur' (layer_out cell out H l xs) /\ (lst = true -> exists y, cur' = inl y) /\
      Forall2 srel ms (layer_final cell l xs) /\ length (layer_out cell out H l xs) = length xs.
  Proof.
    intros Ll Nx Hc Hd. unfold layer_unrolled.
    set (ts := match cur with inl x => map (fun t => unpack (if bf then 1%nat else 0%nat) t x) (seq 0 (nth (if bf then 1%nat else 0%nat) (tshape x) 0%nat)) | inr ts => ts end).
    assert (Forall2 (rep B I) ts xs) as Ft by (subst ts; destruct cur as [x|ts]; [apply unpack_steps; exact Hc | exact Hc]).
    clearbody ts. pose proof (F2_length _ _ _ Ft) as Lt.
    assert (0 < length xs)%nat as Px by (destruct xs; [congruence|cbn; lia]).
    destruct bi.
    - destruct l as [|[p s] [|[q u] [|]]]; try discriminate.
      destruct (Hd 0%nat p s eq_refl ts xs Ft) as (hs & m & E0 & F0 & S0).
      destruct (Hd 1%nat q u eq_refl (rev ts) (rev xs) (Forall2_rev' _ _ _ Ft)) as (hs' & m' & E1 & F1 & S1).
      cbn [seq map Nat.eqb all_ops]. rewrite E0, E1. cbn [option_map obind fst snd concat map].
      eexists. eexists. split; [reflexivity|].
      pose proof (F2_length _ _ _ F0) as L0. rewrite map_length, run_length in L0.
      pose proof (F2_length _ _ _ F1) as L1. rewrite map_length, run_length, rev_length in L1.
      rewrite app_nil_r, Lt, <- L0. rewrite firstn_app, skipn_app, Nat.sub_diag. cbn [firstn skipn].
      rewrite firstn_all, skipn_all, app_nil_r. cbn [app].
      assert (hs <> []) as N0 by (destruct hs; [cbn in L0; lia|discriminate]).
      assert (rev hs' <> []) as N1 by (intro E; apply (f_equal (@length _)) in E; rewrite rev_length in E; cbn in E; lia).
      apply Forall2_rev' in F1. rewrite <- map_rev in F1.
      pose proof (pack_steps bf B H hs _ N0 F0) as Q0. pose proof (pack_steps bf B H (rev hs') _ N1 F1) as Q1.
      split; [|split; [intros _; eauto|split; [repeat constructor; auto|cbn [layer_out]; rewrite map_length, seq_length; lia]]].
      cbn [length currep layer_out]. unfold direction_out.
      set (xa := map out (run cell p s xs)) in *. set (xb := map out (rev (run cell q u (rev xs)))) in *.
      assert (length xa = length xb) as Lab by (subst xa xb; now rewrite !map_length, rev_length, !run_length, rev_length).
      assert (length xs = length xa) as Lxa by (subst xa; now rewrite map_length, run_length).
      rewrite Lxa. exact (concat_sides bf B H _ _ xa xb Lab Q0 Q1).
    - destruct l as [|[p s] [|]]; try discriminate.
      destruct (Hd 0%nat p s eq_refl ts xs Ft) as (hs & m & E0 & F0 & S0).
      cbn [seq map Nat.eqb all_ops]. rewrite E0. cbn [option_map obind fst snd concat map]. rewrite app_nil_r.
      pose proof (F2_length _ _ _ F0) as L0. rewrite map_length, run_length in L0.
      assert (hs <> []) as N0 by (destruct hs; [cbn in L0; lia|discriminate]).
      cbn [length layer_out layer_final]. rewrite Nat.mul_1_l. unfold direction_out, direction_final. rewrite map_length, run_length.
      eexists. eexists. split; [reflexivity|]. split; [|split; [|split; [repeat constructor; auto | reflexivity]]].
      + destruct lst; cbn [currep]; [apply pack_steps; auto | exact F0].
      + destruct lst; [eauto | discriminate].
  Qed.
  (** all layers; [k]: index of the first state *)
  Lemma layers_unrolled_ok (bf bi : bool) (dir : nat -> nat -> list (tensor R) -> option (list (tensor R) * M)) : forall (ls : list (list (P * St))) (l I : nat) (cur : tensor R + list (tensor R)) (xs : list mat),
    Forall (fun x => length x = (if bi then 2%nat else 1%nat)) ls -> xs <> [] -> currep bf I cur xs ->
    (forall i d p s x, nth_error ls i = Some x -> nth_error x d = Some (p, s) ->
       dir_ok (if (i =? 0)%nat then I else (length x * H)%nat) p s (dir (l + i)%nat d)) ->
    exists cur' ms, layers_unrolled bf bi dir (length ls) l cur = Some (cur', ms) /\
      (ls <> [] -> exists y, cur' = inl y /\ seqrep bf B ((if bi then 2 else 1) * H) y (fst (net cell out H ls xs))) /\
      Forall2 srel ms (snd (net cell out H ls xs)) /\ length (fst (net cell out H ls xs)) = length xs.
  Proof.
    induction ls as [|x ls IH]; intros l I cur xs FL Nx Hc Hd.
    - exists cur, []. cbn. repeat split; auto. congruence.
    - inversion FL as [|? ? Lx FL']; subst. cbn [length layers_unrolled net fst snd].
      destruct (layer_unrolled_ok bf bi (length ls =? 0)%nat I x (dir l) cur xs Lx Nx Hc) as (cur1 & ms1 & E1 & C1 & In1 & S1 & L1).
      { intros d p s Nd. specialize (Hd 0%nat d p s x eq_refl Nd). cbn [Nat.eqb] in Hd. rewrite Nat.add_0_r in Hd. exact Hd. }
      rewrite E1. cbn [obind fst snd].
      assert (layer_out cell out H x xs <> []) as N1 by (intro E; rewrite E in L1; destruct xs; [congruence|discriminate]).
      destruct (IH (S l) (length x * H)%nat cur1 (layer_out cell out H x xs) FL' N1 C1) as (cur2 & ms2 & E2 & C2 & S2 & L2).
      { intros i d p s y Ny Nd. specialize (Hd (S i) d p s y Ny Nd). cbn [Nat.eqb] in Hd. replace (S l + i)%nat with (l + S i)%nat by lia.
        assert (length y = length x) as Ly by (rewrite Lx; apply nth_error_In in Ny; rewrite Forall_forall in FL'; auto).
        destruct (i =? 0)%nat; [rewrite <- Ly|]; exact Hd. }
      rewrite E2. cbn [obind fst snd]. exists cur2, (ms1 ++ ms2). split; [reflexivity|]. split; [|split; [apply Forall2_app; auto | lia]].
      intros _. destruct ls as [|x' ls].
      + cbn [layers_unrolled] in E2. injection E2 as <- <-. cbn [length Nat.eqb] in In1. destruct (In1 eq_refl) as [y ->]. exists y. split; [reflexivity|].
        cbn [net fst]. cbn [currep] in C1. rewrite Lx in C1. exact C1.
      + apply C2. discriminate.
  Qed.
End LayersOk.

(* ------------------------------------------------------------------ *)
(** * Operands of a direction *)

Lemma chunks_nth n w g d : (g < n)%nat -> nth g (chunks n w) d = split_part n 0 g w.
Proof. intro Hg. unfold chunks. now rewrite nth_map_seq. Qed.
Lemma chunks_length n w : length (chunks n w) = n.
Proof. unfold chunks. now rewrite map_length, seq_length. Qed.
Lemma chunks_wrep G H K w : (0 < G)%nat -> tshape w = [(G * H)%nat; K] -> wrep G H K (chunks G w) (fun g j k => tget w [(g * H + j)%nat; k]).
Proof.
  intros HG S. split; [apply chunks_length|]. intros g Hg. rewrite chunks_nth by auto. unfold split_part, axis_size. rewrite S. cbn [nth upd tshape tget].
  rewrite (Nat.mul_comm G H), Nat.div_mul by lia. split; [reflexivity|]. reflexivity.
Qed.
Lemma chunks_brep G H w : (0 < G)%nat -> tshape w = [(G * H)%nat] -> brep G H (chunks G w) (fun g j => tget w [(g * H + j)%nat]).
Proof.
  intros HG S. split; [apply chunks_length|]. intros g Hg. rewrite chunks_nth by auto. unfold split_part, axis_size. rewrite S. cbn [nth upd tshape tget].
  rewrite (Nat.mul_comm G H), Nat.div_mul by lia. split; [reflexivity|]. reflexivity.
Qed.
Lemma brep_congr G H bs f g : brep G H bs f -> (forall q j, (q < G)%nat -> (j < H)%nat -> f q j = g q j) -> brep G H bs g.
Proof. intros [L E] Q. split; auto. intros q Hq. destruct (E q Hq) as [S V]. split; auto. intros j Hj. rewrite V by auto. auto. Qed.
Lemma zeros_brep G H : brep G H (repeat (zeros [H]) G) (fun _ _ => 0).
Proof.
  split; [apply repeat_length|]. intros g Hg. rewrite (nth_indep _ nt (zeros [H])) by (rewrite repeat_length; auto).
  rewrite nth_repeat. split; reflexivity.
Qed.

(** fused biases of a direction *)
Definition lstm_bias (p : rnn_params) : list (tensor R) :=
  match biases p with
  | Some (a, b) => chunks 4 (match binop Rplus a b with Some f => f | None => nt end)
  | None => repeat (zeros (firstn 1 (tshape (split_part 4 0 3 (w_ih p))))) 4
  end.
Lemma lstm_bias_rep H K p : params_ok 4 H K p -> brep 4 H (lstm_bias p) (pB H p).
Proof.
  intros (Sw & _ & Sb). unfold lstm_bias, pB. destruct (biases p) as [[a b]|].
  - destruct Sb as [Sa Sb]. unfold binop. rewrite Sa, Sb, bshape_self.
    eapply brep_congr; [apply chunks_brep; [lia|reflexivity]|]. intros q j Hq Hj. cbn [tget].
    rewrite bidx_self by (repeat constructor; nia). reflexivity.
  - unfold split_part, axis_size. rewrite Sw. cbn [nth upd tshape firstn]. rewrite (Nat.mul_comm 4 H), Nat.div_mul by lia. apply zeros_brep.
Qed.
(** the seventeen operands of a direction *)
Definition dir_slots (p : rnn_params) : list slot :=
  map Attr (chunks 4 (w_ih p)) ++ map Attr (chunks 4 (w_hh p)) ++ [Absent; Absent; Absent] ++ map Attr (lstm_bias p) ++ [Absent; Absent].

Definition pstep (p : rnn_params) : nat := length (flat_params p).
Lemma flat_offset has nd ps i l : all_biases has ps -> Forall (fun x => length x = nd) ps -> nth_error ps l = Some i ->
  forall k, (k < params_step has * nd)%nat -> nth_error (flat ps) (l * (params_step has * nd) + k) = nth_error (flat_map flat_params i) k.
Proof.
  assert (forall x, length x = nd -> Forall (fun p => match biases p with Some _ => has = true | None => has = false end) x ->
    length (flat_map flat_params x) = (params_step has * nd)%nat) as LL.
  { intros x <- Fx. induction Fx as [|p x Hp Fx IH]; [cbn; lia|]. cbn [flat_map length]. rewrite app_length, IH.
    unfold flat_params. destruct (biases p) as [[a b]|]; subst has; cbn; lia. }
  revert l. induction ps as [|x ps IH]; intros l Hb Hl Hi k Hk; [destruct l; discriminate|].
  inversion Hb as [|? ? Hbx Hb']; subst. inversion Hl as [|? ? Hlx Hl']; subst. unfold flat. cbn [flat_map]. fold (flat ps).
  pose proof (LL x eq_refl Hbx) as Lx. destruct l as [|l].
  - cbn in Hi. injection Hi as <-. rewrite nth_error_app1 by lia. f_equal.
  - cbn [nth_error] in Hi. rewrite nth_error_app2 by nia. rewrite <- (IH l Hb' Hl' Hi k Hk). f_equal. nia.
Qed.
Lemma flat_length has nd ps : all_biases has ps -> Forall (fun x => length x = nd) ps -> length (flat ps) = (length ps * (params_step has * nd))%nat.
Proof.
  intros Hb Hl. induction ps as [|x ps IH]; [reflexivity|]. inversion Hb as [|? ? Hbx Hb']; subst. inversion Hl as [|? ? Hlx Hl']; subst.
  unfold flat. cbn [flat_map]. fold (flat ps). rewrite app_length, IH by auto. cbn [length]. cbn [Nat.mul]. f_equal.
  clear - Hbx. induction Hbx as [|p x Hp Fx IH]; [cbn; lia|]. cbn [flat_map length]. rewrite app_length, IH.
  unfold flat_params. destruct (biases p) as [[a b]|]; subst has; cbn; lia.
Qed.

(** reading one direction's weights *)
Lemma lstm_input_helper_at has params ps is ins p H K : params_ok 4 H K p ->
  match biases p with Some _ => has = true | None => has = false end ->
  (forall k, (k < params_step has)%nat -> nth_error params (ps + k) = nth_error (flat_params p) k) ->
  lstm_input_helper has params ps is ins =
    (if has then Some (put_all (is + 11) (map Attr (lstm_bias p)) (put_all (is + 4) (map Attr (chunks 4 (w_hh p))) (put_all is (map Attr (chunks 4 (w_ih p))) ins)))
     else match nth (is + 3) (put_all (is + 4) (map Attr (chunks 4 (w_hh p))) (put_all is (map Attr (chunks 4 (w_ih p))) ins)) Absent with
          | Attr w => Some (put_all (is + 11) (map Attr (repeat (zeros (firstn 1 (tshape w))) 4)) (put_all (is + 4) (map Attr (chunks 4 (w_hh p))) (put_all is (map Attr (chunks 4 (w_ih p))) ins)))
          | _ => None end).
Proof.
  intros (_ & _ & Sb) Hb E. unfold lstm_input_helper.
  pose proof (E 0%nat ltac:(destruct has; cbn; lia)) as E0. rewrite Nat.add_0_r in E0. rewrite E0, (E 1%nat) by (destruct has; cbn; lia).
  cbn [flat_params app nth_error obind]. unfold lstm_bias. destruct (biases p) as [[a b]|] eqn:EB; subst has; [|reflexivity].
  rewrite (E 2%nat), (E 3%nat) by (cbn; lia). unfold flat_params. rewrite EB. cbn [app nth_error obind].
  destruct Sb as [Sa Sb]. unfold binop. rewrite Sa, Sb, bshape_self. reflexivity.
Qed.

Lemma nth_error_app_at {A} (l m : list A) a k : length l = a -> nth_error (l ++ m) (a + k) = nth_error m k.
Proof. intros <-. rewrite nth_error_app2 by lia. f_equal. lia. Qed.

Lemma flat_params_length p has : match biases p with Some _ => has = true | None => has = false end -> length (flat_params p) = params_step has.
Proof. unfold flat_params. destruct (biases p) as [[a b]|]; intros ->; reflexivity. Qed.

(** operands of a layer with one direction and with two *)
Lemma lstm_inputs_uni unroll has params off layer hs cs x p H K : params_ok 4 H K p ->
  match biases p with Some _ => has = true | None => has = false end ->
  (forall k, (k < params_step has)%nat -> nth_error params (off + k) = nth_error (flat_map flat_params [p]) k) ->
  lstm_inputs unroll has false params off layer hs cs x =
    Some (x :: dir_slots p ++ [state_slot unroll hs (2 * layer) layer; state_slot unroll cs (2 * layer + 1) layer] ++ repeat Absent 4).
Proof.
  intros Hp Hb E. unfold lstm_inputs. cbn [seq fold_left obind nth].
  rewrite (lstm_input_helper_at has params (off + 0) 1 _ p H K Hp Hb).
  2:{ intros k Hk. rewrite Nat.add_0_r, E by auto. cbn [flat_map]. now rewrite app_nil_r. }
  assert (layer * 1 + 0 = layer)%nat as -> by lia.
  unfold dir_slots, lstm_bias. destruct (biases p) as [[a b]|]; subst has; reflexivity.
Qed.
Lemma lstm_inputs_bi unroll has params off layer hs cs x p q H K : params_ok 4 H K p -> params_ok 4 H K q ->
  match biases p with Some _ => has = true | None => has = false end -> match biases q with Some _ => has = true | None => has = false end ->
  (forall k, (k < params_step has * 2)%nat -> nth_error params (off + k) = nth_error (flat_map flat_params [p; q]) k) ->
  lstm_inputs unroll has true params off layer hs cs x =
    Some (x :: dir_slots p ++ dir_slots q ++
          [state_slot unroll hs (2 * (layer * 2)) (layer * 2); state_slot unroll cs (2 * (layer * 2) + 1) (layer * 2);
           state_slot unroll hs (2 * (layer * 2 + 1)) (layer * 2 + 1); state_slot unroll cs (2 * (layer * 2 + 1) + 1) (layer * 2 + 1)] ++ repeat Absent 9).
Proof.
  intros Hp Hq Bp Bq E. unfold lstm_inputs. cbn [seq fold_left obind nth].
  pose proof (flat_params_length p has Bp) as Lp. pose proof (flat_params_length q has Bq) as Lq.
  rewrite (lstm_input_helper_at has params (off + 0) 1 _ p H K Hp Bp).
  2:{ intros k Hk. rewrite Nat.add_0_r, E by lia. cbn [flat_map]. rewrite nth_error_app1 by lia. reflexivity. }
  assert (forall k, (k < params_step has)%nat -> nth_error params (off + (if has then 4 else 2) + k) = nth_error (flat_params q) k) as Eq.
  { intros k Hk. change (if has then 4%nat else 2%nat) with (params_step has). rewrite <- Nat.add_assoc, E by lia. cbn [flat_map]. rewrite app_nil_r.
    apply nth_error_app_at. exact Lp. }
  assert (layer * 2 + 0 = layer * 2)%nat as -> by lia.
  unfold dir_slots, lstm_bias. destruct (biases p) as [[a b]|] eqn:EBp; subst has; cbn [obind].
  - rewrite (lstm_input_helper_at true params _ 18 _ q H K Hq Bq Eq). destruct (biases q) as [[a' b']|] eqn:EBq; [|discriminate]. unfold lstm_bias. rewrite EBq. reflexivity.
  - match goal with |- context [nth (1 + 3) ?l Absent] => change (nth (1 + 3) l Absent) with (Attr (split_part 4 0 3 (w_ih p))) end. cbv beta iota. cbn [obind].
    rewrite (lstm_input_helper_at false params _ 18 _ q H K Hq Bq Eq). destruct (biases q) as [[a' b']|] eqn:EBq; [discriminate|]. reflexivity.
Qed.

(* ------------------------------------------------------------------ *)
(** * The unrolled LSTM *)

(** [h0] is what the emitted operators start from: the tensor of the graph, or zero when the state was recorded *)
Definition starts (n B H : nat) (s : source) (h0 : tensor R) : Prop :=
  match s with
  | Given t => tshape t = [n; B; H] /\ forall idx, valid [n; B; H] idx -> tget t idx = tget h0 idx
  | Recorded t => tshape t = [n; B; H] /\ forall idx, valid [n; B; H] idx -> tget h0 idx = 0
  end.
Definition is_given (s : source) : bool := match s with Given _ => true | Recorded _ => false end.
Definition recorded_zero (n B H : nat) (s : source) : Prop :=
  match s with Given _ => False | Recorded t => forall idx, valid [n; B; H] idx -> tget t idx = 0 end.

Lemma np_any_zero t : (forall idx, valid (tshape t) idx -> tget t idx = 0) -> np_any t = false.
Proof.
  intro Z. unfold np_any. destruct (existsb _ _) eqn:E; [|reflexivity]. apply existsb_exists in E. destruct E as (idx & Hi & Hn).
  apply indices_valid in Hi. rewrite (Z idx Hi) in Hn. destruct (Reqb_spec 0 0); [discriminate | congruence].
Qed.
Lemma state_slot_ok n B H s h0 k i : starts n B H s h0 -> (i < n)%nat ->
  exists v, slot_val no_mem (state_slot true s k i) = Some v /\ rep B H v (state_of h0 i) /\
    (is_given s = true -> compute (state_slot true s k i) = true) /\ (recorded_zero n B H s -> compute (state_slot true s k i) = false) /\
    (is_given s = false -> forall b j, (b < B)%nat -> (j < H)%nat -> state_of h0 i b j = 0).
Proof.
  intros St Hi. destruct s as [t|t]; cbn [state_slot slot_val is_given compute no_mem recorded_zero starts] in *; destruct St as [St Z].
  - eexists. split; [reflexivity|]. split; [|split; [reflexivity | split; [contradiction | discriminate]]]. split; [cbn; now rewrite St|]. intros b j Hb Hj. cbn. unfold state_of. apply Z. repeat constructor; auto.
  - assert (forall b j, (b < B)%nat -> (j < H)%nat -> tget h0 [i; b; j] = 0) as Z' by (intros; apply Z; repeat constructor; auto).
    eexists. split; [reflexivity|]. split; [|split; [discriminate|split]].
    + split; [cbn; now rewrite St|]. intros b j Hb Hj. cbn. unfold state_of. now rewrite Z'.
    + intro Zr. apply np_any_zero. intros idx V. cbn in V. rewrite St in V. cbn in V. destruct (valid2 _ _ _ V) as (b & j & -> & Hb & Hj). cbn. apply Zr. repeat constructor; auto.
    + intros _ b j Hb Hj. unfold state_of. now apply Z'.
Qed.

Lemma lstm_bias_4 H K p : params_ok 4 H K p -> exists a b c d, lstm_bias p = [a; b; c; d].
Proof. intro Hp. apply list4. exact (proj1 (lstm_bias_rep H K p Hp)). Qed.

Lemma lstm_direction_uni sep x p hs cs ts H K : params_ok 4 H K p ->
  lstm_direction sep false (x :: dir_slots p ++ [hs; cs] ++ repeat Absent 4) 0 ts =
  obind (slot_val no_mem hs) (fun h => obind (slot_val no_mem cs) (fun c =>
    lstm_loop sep (negb (compute hs)) (negb (compute cs)) (chunks 4 (w_ih p)) (chunks 4 (w_hh p)) (lstm_bias p) ts h c)).
Proof. intro Hp. destruct (lstm_bias_4 H K p Hp) as (a & b & c & d & E). unfold dir_slots. rewrite E. reflexivity. Qed.
Lemma lstm_direction_fw sep x p q hs cs hs' cs' ts H K : params_ok 4 H K p -> params_ok 4 H K q ->
  lstm_direction sep true (x :: dir_slots p ++ dir_slots q ++ [hs; cs; hs'; cs'] ++ repeat Absent 9) 0 ts =
  obind (slot_val no_mem hs) (fun h => obind (slot_val no_mem cs) (fun c =>
    lstm_loop sep (negb (compute hs)) (negb (compute cs)) (chunks 4 (w_ih p)) (chunks 4 (w_hh p)) (lstm_bias p) ts h c)).
Proof.
  intros Hp Hq. destruct (lstm_bias_4 H K p Hp) as (a & b & c & d & E). destruct (lstm_bias_4 H K q Hq) as (a' & b' & c' & d' & E').
  unfold dir_slots. rewrite E, E'. reflexivity.
Qed.
Lemma lstm_direction_bw sep x p q hs cs hs' cs' ts H K : params_ok 4 H K p -> params_ok 4 H K q ->
  lstm_direction sep true (x :: dir_slots p ++ dir_slots q ++ [hs; cs; hs'; cs'] ++ repeat Absent 9) 1 ts =
  obind (slot_val no_mem hs') (fun h => obind (slot_val no_mem cs') (fun c =>
    lstm_loop sep (negb (compute hs')) (negb (compute cs')) (chunks 4 (w_ih q)) (chunks 4 (w_hh q)) (lstm_bias q) ts h c)).
Proof.
  intros Hp Hq. destruct (lstm_bias_4 H K p Hp) as (a & b & c & d & E). destruct (lstm_bias_4 H K q Hq) as (a' & b' & c' & d' & E').
  unfold dir_slots. rewrite E, E'. reflexivity.
Qed.

Lemma attach_nth {P St} (st : nat -> St) nd : forall (ps : list (list P)) k i x d p s, Forall (fun l => length l = nd) ps ->
  nth_error (attach st k ps) i = Some x -> nth_error x d = Some (p, s) ->
  exists l, nth_error ps i = Some l /\ nth_error l d = Some p /\ s = st (k + i * nd + d)%nat /\ length x = nd /\ (d < nd)%nat.
Proof.
  induction ps as [|l ps IH]; intros k i x d p s F Ex Ed; [destruct i; discriminate|].
  inversion F as [|? ? Ll F']; subst. destruct i as [|i]; cbn [attach nth_error] in Ex.
  - injection Ex as <-. exists l. split; [reflexivity|].
    assert (length (map st (seq k (length l))) = length l) as Lm by now rewrite map_length, seq_length.
    assert (forall (a : list P) k0 d0, nth_error (combine a (map st (seq k0 (length a)))) d0 = Some (p, s) -> nth_error a d0 = Some p /\ s = st (k0 + d0)%nat /\ (d0 < length a)%nat) as Q.
    { clear. induction a as [|u a IH]; intros k0 d0 E; [destruct d0; discriminate|]. destruct d0 as [|d0]; cbn [length seq map combine nth_error] in *.
      - injection E as -> <-. rewrite Nat.add_0_r. repeat split; lia.
      - apply IH in E. destruct E as (E1 & -> & L). split; [exact E1|]. split; [f_equal; lia | lia]. }
    apply Q in Ed. destruct Ed as (E1 & E2 & E3). split; [exact E1|]. split; [rewrite E2; f_equal; lia|]. split; [rewrite combine_length, Lm; lia | exact E3].
  - destruct (IH _ _ _ _ _ _ F' Ex Ed) as (l' & E1 & E2 & -> & E4 & E5). exists l'. repeat split; auto. f_equal. lia.
Qed.
Lemma attach_length {P St} (st : nat -> St) : forall (ps : list (list P)) k, length (attach st k ps) = length ps.
Proof. induction ps as [|l ps IH]; intro k; [reflexivity|]. cbn. now rewrite IH. Qed.
Lemma attach_sizes {P St} (st : nat -> St) nd : forall (ps : list (list P)) k, Forall (fun l => length l = nd) ps -> Forall (fun l => length l = nd) (attach st k ps).
Proof. induction ps as [|l ps IH]; intros k F; [constructor|]. inversion F; subst. cbn. constructor; auto. rewrite combine_length, map_length, seq_length. lia. Qed.
Lemma net_ok_sizes G H D : forall ps I, net_ok G H I D ps -> Forall (fun l => length l = D) ps.
Proof. induction ps as [|l ps IH]; intros I N; [constructor|]. destruct N as (L & _ & N). constructor; eauto. Qed.
Lemma net_ok_nth G H D : forall ps I i l, net_ok G H I D ps -> nth_error ps i = Some l ->
  Forall (params_ok G H (if (i =? 0)%nat then I else (D * H)%nat)) l.
Proof.
  induction ps as [|l0 ps IH]; intros I i l N E; [destruct i; discriminate|]. destruct N as (L & F & N). destruct i as [|i]; cbn in E.
  - now injection E as <-.
  - apply (IH _ _ _ N) in E. cbn [Nat.eqb]. destruct (i =? 0)%nat; exact E.
Qed.
Lemma net_length {P St} (cell : P -> mat -> St -> St) out H nd : (nd = 1 \/ nd = 2)%nat -> forall ls xs, Forall (fun l => length l = nd) ls ->
  length (snd (net cell out H ls xs)) = (length ls * nd)%nat.
Proof.
  intro Hn. induction ls as [|l ls IH]; intros xs F; [reflexivity|]. inversion F as [|? ? L F']; subst. cbn [net snd length]. rewrite app_length, IH by auto.
  cbn [Nat.mul]. f_equal. destruct l as [|[p s] [|[q u] [|]]]; cbn in Hn |- *; lia.
Qed.
Lemma Forall2_map_r {A B C} (P : A -> B -> Prop) (f : C -> B) l m : Forall2 (fun a c => P a (f c)) l m -> Forall2 P l (map f m).
Proof. intro F. induction F; cbn; auto. Qed.
Lemma Forall2_map_l {A B C} (P : A -> B -> Prop) (f : C -> A) l m : Forall2 (fun c b => P (f c) b) l m -> Forall2 P (map f l) m.
Proof. intro F. induction F; cbn; auto. Qed.
Lemma Forall2_imp {A B} (P Q : A -> B -> Prop) l m : (forall a b, P a b -> Q a b) -> Forall2 P l m -> Forall2 Q l m.
Proof. intros E F. induction F; auto. Qed.

Lemma state_output_ok B H ts (fs : list mat) : ts <> [] -> Forall2 (rep B H) ts fs -> teq (pack 0 0 ts) (state_tensor B H fs).
Proof. intros N F. exact (seqrep_teq false B H _ _ (pack_steps false B H ts fs N F)). Qed.

Definition ndirs (bi : bool) : nat := if bi then 2%nat else 1%nat.
Theorem lstm_unrolled_ok (sep bf bi has : bool) (ps : list (list rnn_params)) (hs cs : source) (h0 c0 x : tensor R) (T B I H : nat) :
  ps <> [] -> net_ok 4 H I (ndirs bi) ps -> all_biases has ps ->
  tshape x = (if bf then [B; T; I] else [T; B; I]) -> (0 < T)%nat -> (0 < I)%nat -> (0 < H)%nat ->
  starts (length ps * ndirs bi) B H hs h0 -> starts (length ps * ndirs bi) B H cs c0 ->
  (sep = true -> is_given cs = true \/ recorded_zero (length ps * ndirs bi) B H hs) ->
  let r := torch_lstm bf H (ndirs bi) ps h0 c0 x in
  exists y hn cn, aten_lstm_unrolled sep bf bi has (length ps) x hs cs (flat ps) = Some (y, (hn, cn)) /\
    teq y (fst r) /\
    match hn with Some t => is_given hs = true /\ teq t (fst (snd r)) | None => is_given hs = false end /\
    match cn with Some t => is_given cs = true /\ teq t (snd (snd r)) | None => is_given cs = false end.
Proof.
  intros Np Nok Hb Sx HT HI HH Hh Hc Hs. cbv zeta. unfold aten_lstm_unrolled.
  fold (ndirs bi). set (nd := ndirs bi) in *.
  pose proof (net_ok_sizes _ _ _ _ _ Nok) as Fl.
  rewrite (flat_length has nd ps Hb Fl).
  assert (length ps * (params_step has * nd) = expected_params has bi (length ps))%nat as -> by (subst nd; unfold params_step, expected_params, ndirs; destruct has, bi; lia).
  rewrite Nat.eqb_refl.
  destruct (steps_rep bf B I T x Sx) as [Rx Lx].
  assert (batch bf x = B) as EB by (unfold batch; rewrite Sx; destruct bf; reflexivity).
  set (st := fun k => (state_of h0 k, state_of c0 k)).
  assert (steps bf x <> []) as Nx by (intro E; rewrite E in Lx; cbn in Lx; lia).
  set (dir := fun l d ts => obind (lstm_inputs true has bi (flat ps) (l * (params_step has * nd)) l hs cs (Act x)) (fun ins => lstm_direction sep bi ins d ts)).
  destruct (layers_unrolled_ok lstm_cell fst (srel2 B H) B H bf bi dir (attach st 0 ps) 0 I (inl x) (steps bf x)) as (cur & ms & E & Cy & Sm & Ly); auto.
  { apply attach_sizes. exact Fl. }
  { intros i d p s y0 Ey Ed. destruct (attach_nth st nd ps 0 i y0 d p s Fl Ey Ed) as (l & El & Ep & Es & Ly0 & Hd).
    pose proof (net_ok_nth _ _ _ _ _ _ _ Nok El) as Fp. rewrite Ly0. set (K := if (i =? 0)%nat then I else (nd * H)%nat) in *.
    assert (0 < K)%nat as HK by (subst K nd; unfold ndirs; destruct (i =? 0)%nat, bi; lia).
    assert (length l = nd) as Ll by (rewrite Forall_forall in Fl; apply Fl; apply nth_error_In in El; exact El).
    assert (Forall (fun p => match biases p with Some _ => has = true | None => has = false end) l) as Fb.
    { unfold all_biases in Hb. rewrite Forall_forall in Hb. apply Hb. apply nth_error_In in El. exact El. }
    pose proof (flat_offset has nd ps l i Hb Fl El) as Off.
    assert (i < length ps)%nat as Hi by (apply nth_error_Some; rewrite El; discriminate).
    assert (i * nd + d < length ps * nd)%nat as Hsl by nia.
    destruct (state_slot_ok _ B H hs h0 (2 * (i * nd + d)) (i * nd + d) Hh Hsl) as (hv & Ehv & Rhv & Ghv & Chv & Zhv).
    destruct (state_slot_ok _ B H cs c0 (2 * (i * nd + d) + 1) (i * nd + d) Hc Hsl) as (cv & Ecv & Rcv & Gcv & Ccv & Zcv).
    set (ch := compute (state_slot true hs (2 * (i * nd + d)) (i * nd + d))) in *. set (cc := compute (state_slot true cs (2 * (i * nd + d) + 1) (i * nd + d))) in *.
    intros ts xs Fts. change (0 + i)%nat with i.
    assert (params_ok 4 H K p) as Pp by (rewrite Forall_forall in Fp; apply Fp; apply nth_error_In in Ep; exact Ep).
    assert (dir i d ts = lstm_loop sep (negb ch) (negb cc) (chunks 4 (w_ih p)) (chunks 4 (w_hh p)) (lstm_bias p) ts hv cv) as ->.
    { subst dir ch cc. cbv beta. subst nd. unfold ndirs in *. destruct bi.
      - destruct l as [|p0 [|q0 [|]]]; try discriminate.
        inversion Fp as [|? ? P0 Fp']; subst. inversion Fp' as [|? ? Q0 _]; subst. inversion Fb as [|? ? Bp0 Fb']; subst. inversion Fb' as [|? ? Bq0 _]; subst.
        rewrite (lstm_inputs_bi true has (flat ps) _ i hs cs (Act x) p0 q0 H K P0 Q0 Bp0 Bq0 Off). cbn [obind].
        destruct d as [|[|d]]; [| |lia]; cbn in Ep; injection Ep as <-.
        + rewrite Nat.add_0_r in *. rewrite (lstm_direction_fw _ _ _ _ _ _ _ _ _ H K) by auto. rewrite Ehv, Ecv. reflexivity.
        + rewrite (lstm_direction_bw _ _ _ _ _ _ _ _ _ H K) by auto. rewrite Ehv, Ecv. reflexivity.
      - destruct l as [|p0 [|]]; try discriminate. inversion Fp as [|? ? P0 _]; subst. inversion Fb as [|? ? Bp0 _]; subst.
        assert (forall k, (k < params_step has)%nat -> nth_error (flat ps) (i * (params_step has * 1) + k) = nth_error (flat_map flat_params [p0]) k) as Off' by (intros; apply Off; lia).
        rewrite (lstm_inputs_uni true has (flat ps) _ i hs cs (Act x) p0 H K P0 Bp0 Off'). cbn [obind].
        destruct d as [|d]; [|lia]. cbn in Ep; injection Ep as <-. rewrite Nat.add_0_r, Nat.mul_1_r in *.
        rewrite (lstm_direction_uni _ _ _ _ _ _ H K) by auto. rewrite Ehv, Ecv. reflexivity. }
    assert (s = (state_of h0 (i * nd + d), state_of c0 (i * nd + d))) as -> by (rewrite Es; reflexivity).
    apply (lstm_loop_ok sep B H K); auto.
    - apply chunks_wrep; [lia|]. apply Pp.
    - apply chunks_wrep; [lia|]. apply Pp.
    - apply lstm_bias_rep with (K := K). exact Pp.
    - intro E0. apply Zhv. destruct (is_given hs); [rewrite Ghv in E0 by auto; discriminate|reflexivity].
    - intro E0. apply Zcv. destruct (is_given cs); [rewrite Gcv in E0 by auto; discriminate|reflexivity].
    - intros E1 E2. destruct (Hs E1) as [G|Zr]; [rewrite Gcv in E2 by auto; discriminate|]. rewrite Chv by auto. reflexivity. }
  rewrite attach_length in E. fold dir. rewrite E. cbn [obind fst snd].
  assert (attach st 0 ps <> []) as Na by (destruct ps; [congruence|discriminate]).
  destruct (Cy Na) as (y & -> & Ry). eexists. eexists. eexists. split; [reflexivity|].
  unfold torch_lstm. fold st. rewrite EB. cbn [fst snd].
  assert (ms <> []) as Nm.
  { intro E0. apply F2_length in Sm. rewrite (net_length _ _ _ nd) in Sm by (subst nd; unfold ndirs; destruct bi; auto using attach_sizes). rewrite E0, attach_length in Sm.
    destruct ps; [congruence|]. subst nd. unfold ndirs in Sm. destruct bi; cbn in Sm; lia. }
  split; [|split].
  - apply seqrep_teq. exact Ry.
  - destruct hs as [th|th]; cbn [state_output is_given]; [|reflexivity]. split; [reflexivity|]. apply state_output_ok; [destruct ms; [congruence|discriminate]|].
    apply Forall2_map_l, Forall2_map_r. eapply Forall2_imp; [|exact Sm]. intros a b [? ?]. assumption.
  - destruct cs as [tc|tc]; cbn [state_output is_given]; [|reflexivity]. split; [reflexivity|]. apply state_output_ok; [destruct ms; [congruence|discriminate]|].
    apply Forall2_map_l, Forall2_map_r. eapply Forall2_imp; [|exact Sm]. intros a b [? ?]. assumption.
Qed.

(* ------------------------------------------------------------------ *)
(** * The sequence operators *)

Definition eqm (B N : nat) (f g : mat) : Prop := forall b j, (b < B)%nat -> (j < N)%nat -> f b j = g b j.
Definition eqs (B H : nat) (s u : mat * mat) : Prop := eqm B H (fst s) (fst u) /\ eqm B H (snd s) (snd u).

Lemma acell_congr B H K W Rr Bf x y s u : eqm B K x y -> eqs B H s u -> eqs B H (acell H K W Rr Bf x s) (acell H K W Rr Bf y u).
Proof.
  intros Ex [E1 E2].
  assert (forall g b j, (b < B)%nat -> pre H K W Rr Bf x (fst s) g b j = pre H K W Rr Bf y (fst u) g b j) as E.
  { intros g b j Hb. unfold pre. f_equal; [f_equal|]; apply lsum_ext; intros k Hk; apply in_seq in Hk; [rewrite Ex|rewrite E1]; auto; lia. }
  unfold acell. split; intros b j Hb Hj; cbn [fst snd]; rewrite !E, E2 by auto; reflexivity.
Qed.
Lemma seq_cell_run B H K w p : params_ok 4 H K p -> (forall x s, seq_cell w x s = lstm_cell p x s) ->
  forall xs ys, Forall2 (eqm B K) xs ys -> forall s u, eqs B H s u ->
  Forall2 (eqs B H) (run seq_cell w s xs) (run lstm_cell p u ys) /\ eqs B H (last (run seq_cell w s xs) s) (last (run lstm_cell p u ys) u).
Proof.
  intros Hp Ew xs ys F. induction F as [|x y xs ys Hxy F IH]; intros s u Hs; [split; [constructor | exact Hs]|].
  cbn [run]. rewrite !last_cons, Ew, !(lstm_cell_eq H K) by auto.
  pose proof (acell_congr B H K (pW H p) (pR H p) (pB H p) x y s u Hxy Hs) as Hs'. destruct (IH _ _ Hs') as [F1 F2]. split; [constructor; auto | exact F2].
Qed.
Lemma seq_tensor_rep bf B W ys zs : Forall2 (eqm B W) ys zs -> seqrep bf B W (seq_tensor bf B W ys) zs.
Proof.
  intros F. pose proof (F2_length _ _ _ F) as L. apply (Forall2_nth_iff _ no_mat no_mat) in F. destruct F as [_ E]. split.
  - cbn. now rewrite L.
  - intros t b j Ht Hb Hj. rewrite <- L in Ht. destruct bf; cbn; apply E; auto.
Qed.
Lemma mat_tensor_rep B H f g : eqm B H f g -> rep B H (mat_tensor B H f) g.
Proof. intro E. split; [reflexivity|]. intros b j Hb Hj. cbn. auto. Qed.
Lemma steps_eqm bf B W x xs : seqrep bf B W x xs -> Forall2 (eqm B W) (steps bf x) xs /\ batch bf x = B.
Proof.
  intros [S E]. split; [|unfold batch; rewrite S; destruct bf; reflexivity].
  assert (nth (time_axis bf) (tshape x) 0%nat = length xs) as L by (rewrite S; destruct bf; reflexivity).
  apply (Forall2_nth_iff _ no_mat no_mat). unfold steps. rewrite map_length, seq_length, L. split; [reflexivity|].
  intros t Ht. rewrite nth_map_seq by auto. intros b j Hb Hj. apply E; auto.
Qed.

Lemma read_dir mem p H K : params_ok 4 H K p -> (0 < H)%nat ->
  exists w, read_weights (map (slot_val mem) (dir_slots p)) = Some w /\ nth 0 (tshape (sw_rec w 3)) 0%nat = H /\
    forall x s, seq_cell w x s = lstm_cell p x s.
Proof.
  intros Hp HH. destruct (lstm_bias_4 H K p Hp) as (b0 & b1 & b2 & b3 & Eb).
  exists (mkW (fun g => nth g (chunks 4 (w_ih p)) (split_part 4 0 3 (w_ih p))) (fun g => nth g (chunks 4 (w_hh p)) (split_part 4 0 3 (w_hh p))) (fun g => nth g (lstm_bias p) b3)).
  split; [unfold dir_slots; rewrite Eb; reflexivity|].
  destruct Hp as (Sw & Sr & Sb).
  assert (forall g, (g < 4)%nat -> tshape (split_part 4 0 g (w_ih p)) = [H; K] /\ tshape (split_part 4 0 g (w_hh p)) = [H; H]) as SS.
  { intros g Hg. unfold split_part, axis_size. rewrite Sw, Sr. cbn [nth upd tshape]. rewrite (Nat.mul_comm 4 H), Nat.div_mul by lia. auto. }
  split; [cbn [sw_rec]; rewrite chunks_nth by lia; rewrite (proj2 (SS 3%nat ltac:(lia))); reflexivity|].
  assert (forall g j k, (g < 4)%nat -> tget (split_part 4 0 g (w_ih p)) [j; k] = pW H p g j k /\ tget (split_part 4 0 g (w_hh p)) [j; k] = pR H p g j k) as GG.
  { intros g j k Hg. unfold split_part, axis_size, pW, pR. rewrite Sw, Sr. cbn [nth upd tget]. rewrite (Nat.mul_comm 4 H), Nat.div_mul by lia. auto. }
  assert (forall g j, (g < 4)%nat -> tget (nth g (lstm_bias p) b3) [j] = pB H p g j) as BB.
  { intros g j Hg. unfold lstm_bias, pB. destruct (biases p) as [[u v]|].
    - destruct Sb as [Su Sv]. rewrite chunks_nth by auto. unfold binop. rewrite Su, Sv, bshape_self.
      unfold split_part, axis_size. cbn [nth upd tget tshape]. rewrite (Nat.mul_comm 4 H), Nat.div_mul by lia. unfold bidx. cbn [rev app bidx_rev].
      destruct (Nat.eqb_spec (H * 4) 1); [lia|]. reflexivity.
    - rewrite (nth_indep _ b3 (zeros (firstn 1 (tshape (split_part 4 0 3 (w_ih p)))))) by (rewrite repeat_length; auto). rewrite nth_repeat. reflexivity. }
  intros x s. rewrite (lstm_cell_eq H K) by (repeat split; auto).
  assert (forall g b j, (g < 4)%nat ->
    lsum (seq 0 (nth 1 (tshape (nth g (chunks 4 (w_ih p)) (split_part 4 0 3 (w_ih p)))) 0%nat)) (fun k => tget (nth g (chunks 4 (w_ih p)) (split_part 4 0 3 (w_ih p))) [j; k] * x b k) +
    lsum (seq 0 (nth 1 (tshape (nth g (chunks 4 (w_hh p)) (split_part 4 0 3 (w_hh p)))) 0%nat)) (fun k => tget (nth g (chunks 4 (w_hh p)) (split_part 4 0 3 (w_hh p))) [j; k] * fst s b k) +
    tget (nth g (lstm_bias p) b3) [j] = pre H K (pW H p) (pR H p) (pB H p) x (fst s) g b j) as E.
  { intros g b j Hg. rewrite !chunks_nth by auto. rewrite (proj1 (SS g Hg)), (proj2 (SS g Hg)), BB by auto. cbn [nth]. unfold pre.
    rewrite (lsum_ext _ _ (fun k => pW H p g j k * x b k)) by (intros; now rewrite (proj1 (GG g j _ Hg))).
    rewrite (lsum_ext _ (fun k => tget (split_part 4 0 g (w_hh p)) [j; k] * fst s b k) (fun k => pR H p g j k * fst s b k)) by (intros; now rewrite (proj2 (GG g j _ Hg))). ring. }
  unfold seq_cell, acell. cbn [sw_in sw_rec sw_bias].
  f_equal; apply FunctionalExtensionality.functional_extensionality; intro b;
    apply FunctionalExtensionality.functional_extensionality; intro j; rewrite !E by lia; reflexivity.
Qed.

Lemma dir_slots_length p H K : params_ok 4 H K p -> length (dir_slots p) = 17%nat.
Proof. intro Hp. destruct (lstm_bias_4 H K p Hp) as (a & b & c & d & E). unfold dir_slots. rewrite E. reflexivity. Qed.
Lemma firstn_at {A} (l m : list A) n : length l = n -> firstn n (l ++ m) = l.
Proof. intros <-. now rewrite firstn_app, Nat.sub_diag, firstn_all, app_nil_r. Qed.
Lemma skipn_at {A} (l m : list A) n : length l = n -> skipn n (l ++ m) = m.
Proof. intros <-. now rewrite skipn_app, Nat.sub_diag, skipn_all. Qed.

Lemma uni_seq_ok mem bf B H K p x xs h c s rest : params_ok 4 H K p -> (0 < H)%nat -> seqrep bf B K x xs ->
  eqs B H (mat_of h, mat_of c) s -> rest = [] \/ rest = [None; None; None; None] ->
  exists y f, uni_seq_lstm (negb bf) (Some x :: map (slot_val mem) (dir_slots p) ++ Some h :: Some c :: rest) = Some (y, [f]) /\
    seqrep bf B H y (direction_out lstm_cell fst false p s xs) /\ srel2 B H f (direction_final lstm_cell false p s xs).
Proof.
  intros Hp HH Hx Hs Hr. destruct (read_dir mem p H K Hp HH) as (w & Ew & EH & Ec).
  destruct (steps_eqm _ _ _ _ _ Hx) as [Fx EB].
  assert (length (map (slot_val mem) (dir_slots p)) = 17%nat) as L17 by (rewrite map_length; now apply (dir_slots_length p H K)).
  unfold uni_seq_lstm. rewrite firstn_at, skipn_at, Ew by auto. rewrite negb_involutive, EB, EH.
  assert (forallb absent rest && ((length rest =? 0)%nat || (length rest =? 4)%nat) = true) as -> by (destruct Hr as [-> | ->]; reflexivity).
  destruct (seq_cell_run B H K w p Hp Ec _ _ Fx _ _ Hs) as [F1 [F2 F3]].
  eexists. eexists. split; [reflexivity|]. split; [|split].
  - apply seq_tensor_rep. unfold direction_out. apply Forall2_map_l, Forall2_map_r. eapply Forall2_imp; [|exact F1]. intros a b [? ?]. assumption.
  - unfold direction_final. apply mat_tensor_rep. exact F2.
  - unfold direction_final. apply mat_tensor_rep. exact F3.
Qed.
Lemma eqm_side B H f g f' g' : eqm B H f f' -> eqm B H g g' -> eqm B (2 * H) (side H f g) (side H f' g').
Proof. intros E1 E2 b j Hb Hj. unfold side. destruct (Nat.ltb_spec j H); [apply E1 | apply E2]; auto; lia. Qed.
Lemma bi_seq_ok mem bf B H K p q x xs h c h' c' s u : params_ok 4 H K p -> params_ok 4 H K q -> (0 < H)%nat -> seqrep bf B K x xs ->
  eqs B H (mat_of h, mat_of c) s -> eqs B H (mat_of h', mat_of c') u ->
  exists y f f', bi_seq_lstm (negb bf) (Some x :: map (slot_val mem) (dir_slots p) ++ map (slot_val mem) (dir_slots q) ++ Some h :: Some c :: Some h' :: Some c' :: repeat None 9) = Some (y, [f; f']) /\
    seqrep bf B (2 * H) y (layer_out lstm_cell fst H [(p, s); (q, u)] xs) /\ Forall2 (srel2 B H) [f; f'] (layer_final lstm_cell [(p, s); (q, u)] xs).
Proof.
  intros Hp Hq HH Hx Hs Hu. destruct (read_dir mem p H K Hp HH) as (w & Ew & EH & Ec). destruct (read_dir mem q H K Hq HH) as (v & Ev & EH' & Ec').
  destruct (steps_eqm _ _ _ _ _ Hx) as [Fx EB].
  assert (length (map (slot_val mem) (dir_slots p)) = 17%nat) as Lp by (rewrite map_length; now apply (dir_slots_length p H K)).
  assert (length (map (slot_val mem) (dir_slots q)) = 17%nat) as Lq by (rewrite map_length; now apply (dir_slots_length q H K)).
  unfold bi_seq_lstm.
  assert (skipn 34 (map (slot_val mem) (dir_slots p) ++ map (slot_val mem) (dir_slots q) ++ Some h :: Some c :: Some h' :: Some c' :: repeat None 9) = Some h :: Some c :: Some h' :: Some c' :: repeat None 9) as ->
    by (rewrite app_assoc; apply skipn_at; rewrite app_length; lia).
  rewrite firstn_at, skipn_at, firstn_at, Ew, Ev by auto. rewrite negb_involutive, EB, EH.
  change (forallb absent (repeat (@None (tensor R)) 9) && (length (repeat (@None (tensor R)) 9) =? 9)%nat) with true. cbv iota zeta.
  destruct (seq_cell_run B H K w p Hp Ec _ _ Fx _ _ Hs) as [F1 [F2 F3]].
  destruct (seq_cell_run B H K v q Hq Ec' _ _ (Forall2_rev' _ _ _ Fx) _ _ Hu) as [G1 [G2 G3]].
  pose proof (F2_length _ _ _ Fx) as Lx.
  eexists. eexists. eexists. split; [reflexivity|]. split.
  - apply seq_tensor_rep. cbn [layer_out]. unfold direction_out. apply (Forall2_nth_iff _ no_mat no_mat). rewrite !map_length, !seq_length. split; [exact Lx|].
    intros t Ht. rewrite !nth_map_seq by lia. apply eqm_side.
    + assert (Forall2 (eqm B H) (map fst (run seq_cell w (mat_of h, mat_of c) (steps bf x))) (map fst (run lstm_cell p s xs))) as Q
        by (apply Forall2_map_l, Forall2_map_r; eapply Forall2_imp; [|exact F1]; intros a b [? ?]; assumption).
      apply (Forall2_nth_iff _ no_mat no_mat) in Q. apply Q. rewrite map_length, run_length. exact Ht.
    + assert (Forall2 (eqm B H) (map fst (rev (run seq_cell v (mat_of h', mat_of c') (rev (steps bf x))))) (map fst (rev (run lstm_cell q u (rev xs))))) as Q
        by (apply Forall2_map_l, Forall2_map_r; eapply Forall2_imp; [|apply Forall2_rev'; exact G1]; intros a b [? ?]; assumption).
      apply (Forall2_nth_iff _ no_mat no_mat) in Q. apply Q. rewrite map_length, rev_length, run_length, rev_length. exact Ht.
  - cbn [layer_final]. unfold direction_final. repeat constructor; apply mat_tensor_rep; assumption.
Qed.
Lemma reverse_seq bf B W x xs : seqrep bf B W x xs -> seqrep bf B W (reverse [if bf then 1%nat else 0%nat] x) (rev xs).
Proof.
  intros [Sx E]. split; unfold reverse; cbn [tshape tget]; rewrite rev_length; [exact Sx|].
  intros t b j Ht Hb Hj. rewrite Sx, rev_nth by auto.
  replace (length xs - S t)%nat with (length xs - 1 - t)%nat by lia.
  rewrite <- (E (length xs - 1 - t)%nat b j) by lia. destruct bf; reflexivity.
Qed.

Definition mem_state (mem : nat -> option (tensor R)) (k : nat) : mat := match mem k with Some v => mat_of v | None => no_mat end.
Lemma state_val mem s k i : exists v, slot_val mem (state_slot false s k i) = Some v /\ mat_of v = mem_state mem k.
Proof. destruct s as [t|t]; cbn; eexists; (split; [reflexivity|]); unfold mem_state; destruct (mem k); reflexivity. Qed.
Lemma eqs_refl' B H s u : s = u -> eqs B H s u.
Proof. intros ->. split; intros b j _ _; reflexivity. Qed.

Lemma seq_layer_uni mem map_bi bf B H K p x xs hs cs layer : params_ok 4 H K p -> (0 < H)%nat -> seqrep bf B K x xs ->
  let l := [(p, (mem_state mem (2 * layer), mem_state mem (2 * layer + 1)))] in
  exists y fs, lstm_sequence_layer mem map_bi bf false (Act x :: dir_slots p ++ [state_slot false hs (2 * layer) layer; state_slot false cs (2 * layer + 1) layer] ++ repeat Absent 4) = Some (y, fs) /\
    seqrep bf B (1 * H) y (layer_out lstm_cell fst H l xs) /\ Forall2 (srel2 B H) fs (layer_final lstm_cell l xs).
Proof.
  intros Hp HH Hx l. unfold lstm_sequence_layer. cbv zeta. cbn [map]. rewrite map_app. cbn [map app slot_val].
  destruct (state_val mem hs (2 * layer) layer) as (h & Eh & Mh). destruct (state_val mem cs (2 * layer + 1) layer) as (c & Ec & Mc). rewrite Eh, Ec.
  destruct (uni_seq_ok mem bf B H K p x xs h c (mem_state mem (2 * layer), mem_state mem (2 * layer + 1)) [None; None; None; None] Hp HH Hx) as (y & f & E & Ry & Rf).
  { apply eqs_refl'. now rewrite Mh, Mc. } { auto. }
  cbn [repeat map slot_val]. rewrite E. eexists. eexists. split; [reflexivity|]. rewrite Nat.mul_1_l. split; [exact Ry|]. repeat constructor; apply Rf.
Qed.
Lemma seq_layer_bi mem map_bi bf B H K p q x xs hs cs layer : params_ok 4 H K p -> params_ok 4 H K q -> (0 < H)%nat -> seqrep bf B K x xs ->
  let l := [(p, (mem_state mem (2 * (layer * 2)), mem_state mem (2 * (layer * 2) + 1))); (q, (mem_state mem (2 * (layer * 2 + 1)), mem_state mem (2 * (layer * 2 + 1) + 1)))] in
  exists y fs, lstm_sequence_layer mem map_bi bf true (Act x :: dir_slots p ++ dir_slots q ++
          [state_slot false hs (2 * (layer * 2)) (layer * 2); state_slot false cs (2 * (layer * 2) + 1) (layer * 2);
           state_slot false hs (2 * (layer * 2 + 1)) (layer * 2 + 1); state_slot false cs (2 * (layer * 2 + 1) + 1) (layer * 2 + 1)] ++ repeat Absent 9) = Some (y, fs) /\
    seqrep bf B (2 * H) y (layer_out lstm_cell fst H l xs) /\ Forall2 (srel2 B H) fs (layer_final lstm_cell l xs).
Proof.
  intros Hp Hq HH Hx l. unfold lstm_sequence_layer. cbv zeta.
  destruct (state_val mem hs (2 * (layer * 2)) (layer * 2)) as (h & Eh & Mh). destruct (state_val mem cs (2 * (layer * 2) + 1) (layer * 2)) as (c & Ec & Mc).
  destruct (state_val mem hs (2 * (layer * 2 + 1)) (layer * 2 + 1)) as (h' & Eh' & Mh'). destruct (state_val mem cs (2 * (layer * 2 + 1) + 1) (layer * 2 + 1)) as (c' & Ec' & Mc').
  set (s := (mem_state mem (2 * (layer * 2)), mem_state mem (2 * (layer * 2) + 1))) in *.
  set (u := (mem_state mem (2 * (layer * 2 + 1)), mem_state mem (2 * (layer * 2 + 1) + 1))) in *.
  assert (eqs B H (mat_of h, mat_of c) s) as Es by (apply eqs_refl'; subst s; now rewrite Mh, Mc).
  assert (eqs B H (mat_of h', mat_of c') u) as Eu by (apply eqs_refl'; subst u; now rewrite Mh', Mc').
  destruct map_bi.
  - pose proof (dir_slots_length p H K Hp) as Lp. pose proof (dir_slots_length q H K Hq) as Lq.
    set (rest := [state_slot false hs (2 * (layer * 2)) (layer * 2); state_slot false cs (2 * (layer * 2) + 1) (layer * 2);
           state_slot false hs (2 * (layer * 2 + 1)) (layer * 2 + 1); state_slot false cs (2 * (layer * 2 + 1) + 1) (layer * 2 + 1)] ++ repeat Absent 9).
    assert (firstn 18 (Act x :: dir_slots p ++ dir_slots q ++ rest) = Act x :: dir_slots p) as E18 by (change 18%nat with (S 17); rewrite firstn_cons; f_equal; now apply firstn_at).
    assert (skipn 18 (Act x :: dir_slots p ++ dir_slots q ++ rest) = dir_slots q ++ rest) as S18 by (change 18%nat with (S 17); rewrite skipn_cons; now apply skipn_at).
    assert (skipn 35 (Act x :: dir_slots p ++ dir_slots q ++ rest) = rest) as S35 by (change 35%nat with (S 34); rewrite skipn_cons, app_assoc; apply skipn_at; rewrite app_length; lia).
    assert (skipn 37 (Act x :: dir_slots p ++ dir_slots q ++ rest) = skipn 2 rest) as S37.
    { change 37%nat with (S 36). rewrite skipn_cons, app_assoc, skipn_app. assert (length (dir_slots p ++ dir_slots q) = 34%nat) as L34 by (rewrite app_length; lia).
      rewrite L34, (skipn_all2 (n := 36)) by lia. reflexivity. }
    rewrite E18, S18, S35, S37. change (35 - 18)%nat with 17%nat. rewrite (firstn_at (dir_slots q)) by auto.
    subst rest. cbn [app firstn skipn map nth_error obind slot_val Nat.sub]. rewrite !map_app. cbn [map]. rewrite Eh, Ec, Eh', Ec'.
    destruct (uni_seq_ok mem bf B H K p x xs h c s [] Hp HH Hx Es (or_introl eq_refl)) as (y & f & E & Ry & Rf). rewrite E. cbn [obind fst snd].
    pose proof (reverse_seq bf B K x xs Hx) as Hrx.
    destruct (uni_seq_ok mem bf B H K q _ _ h' c' u [] Hq HH Hrx Eu (or_introl eq_refl)) as (y' & f' & E' & Ry' & Rf'). rewrite E'. cbn [obind fst snd].
    eexists. eexists. split; [reflexivity|].
    pose proof (reverse_seq bf B H y' _ Ry') as Rr. subst l. cbn [layer_out layer_final]. split.
    + set (xa := direction_out lstm_cell fst false p s xs) in *. set (xb := direction_out lstm_cell fst true q u xs) in *.
      assert (rev (direction_out lstm_cell fst false q u (rev xs)) = xb) as Eb by (subst xb; unfold direction_out; now rewrite map_rev). rewrite Eb in Rr.
      assert (length xa = length xb) as Lab by (subst xa xb; unfold direction_out; now rewrite !map_length, rev_length, !run_length, rev_length).
      assert (length xs = length xa) as Lxa by (subst xa; unfold direction_out; now rewrite map_length, run_length).
      rewrite Lxa. exact (concat_sides bf B H _ _ xa xb Lab Ry Rr).
    + repeat constructor; (apply Rf || apply Rf').
  - cbn [map]. rewrite !map_app. cbn [map app slot_val repeat]. rewrite Eh, Ec, Eh', Ec'.
    destruct (bi_seq_ok mem bf B H K p q x xs h c h' c' s u Hp Hq HH Hx Es Eu) as (y & f & f' & E & Ry & Rf). cbn [repeat] in E. rewrite E.
    eexists. eexists. split; [reflexivity|]. auto.
Qed.

(** the states held by the variables, as one tensor per kind (0 hidden, 1 cell) *)
Definition mem_tensor (mem : nat -> option (tensor R)) (q n B H : nat) : tensor R :=
  mkT [n; B; H] (fun idx => match mem (2 * nth 0 idx 0 + q)%nat with Some v => tget v (tl idx) | None => 0 end).
Lemma mem_tensor_state mem q n B H k : state_of (mem_tensor mem q n B H) k = mem_state mem (2 * k + q).
Proof. unfold state_of, mem_state, mem_tensor, mat_of, no_mat. cbn [tget nth tl]. destruct (mem (2 * k + q)%nat); reflexivity. Qed.

Lemma seq_layers_ok mem map_bi (bf bi has : bool) hs cs params B H : (0 < H)%nat -> forall ps l K x xs,
  net_ok 4 H K (ndirs bi) ps -> all_biases has ps -> seqrep bf B K x xs ->
  (forall i y, nth_error ps i = Some y -> forall k, (k < params_step has * ndirs bi)%nat ->
     nth_error params ((l + i) * (params_step has * ndirs bi) + k) = nth_error (flat_map flat_params y) k) ->
  exists y fs, lstm_sequence_layers mem map_bi bf bi has hs cs params (length ps) l x = Some (y, fs) /\
    let r := net lstm_cell fst H (attach (fun k => (mem_state mem (2 * k), mem_state mem (2 * k + 1))) (l * ndirs bi) ps) xs in
    (ps <> [] -> seqrep bf B (ndirs bi * H) y (fst r)) /\ Forall2 (srel2 B H) fs (snd r).
Proof.
  intros HH. induction ps as [|lp ps IH]; intros l K x xs Nok Hb Hx Off.
  - exists x, []. cbn. split; [reflexivity|]. split; [congruence | constructor].
  - destruct Nok as (Ll & Fp & Nok). inversion Hb as [|? ? Fb Hb']; subst. cbn [length lstm_sequence_layers].
    fold (ndirs bi). pose proof (Off 0%nat lp eq_refl) as Off0. rewrite Nat.add_0_r in Off0.
    set (st := fun k => (mem_state mem (2 * k), mem_state mem (2 * k + 1))).
    assert (exists ins y fs, lstm_inputs false has bi params (l * (params_step has * ndirs bi)) l hs cs (Act x) = Some ins /\
      lstm_sequence_layer mem map_bi bf bi ins = Some (y, fs) /\
      seqrep bf B (ndirs bi * H) y (layer_out lstm_cell fst H (combine lp (map st (seq (l * ndirs bi) (length lp)))) xs) /\
      Forall2 (srel2 B H) fs (layer_final lstm_cell (combine lp (map st (seq (l * ndirs bi) (length lp)))) xs)) as (ins & y & fs & Ei & Ey & Ry & Rf).
    { unfold ndirs in *. destruct bi.
      - destruct lp as [|p [|q [|]]]; try discriminate. inversion Fp as [|? ? P0 Fp']; subst. inversion Fp' as [|? ? Q0 _]; subst. inversion Fb as [|? ? Bp0 Fb']; subst. inversion Fb' as [|? ? Bq0 _]; subst.
        rewrite (lstm_inputs_bi false has params _ l hs cs (Act x) p q H K P0 Q0 Bp0 Bq0 Off0).
        destruct (seq_layer_bi mem map_bi bf B H K p q x xs hs cs l P0 Q0 HH Hx) as (y & fs & E & Ry & Rf).
        eexists. exists y, fs. split; [reflexivity|]. split; [exact E|]. subst st. cbn [length seq map combine]. replace (S (l * 2)) with (l * 2 + 1)%nat by lia. split; [exact Ry | exact Rf].
      - destruct lp as [|p [|]]; try discriminate. inversion Fp as [|? ? P0 _]; subst. inversion Fb as [|? ? Bp0 _]; subst.
        assert (forall k, (k < params_step has)%nat -> nth_error params (l * (params_step has * 1) + k) = nth_error (flat_map flat_params [p]) k) as Off' by (intros; apply Off0; lia).
        rewrite (lstm_inputs_uni false has params _ l hs cs (Act x) p H K P0 Bp0 Off').
        destruct (seq_layer_uni mem map_bi bf B H K p x xs hs cs l P0 HH Hx) as (y & fs & E & Ry & Rf).
        eexists. exists y, fs. split; [reflexivity|]. split; [exact E|]. subst st. cbn [length seq map combine]. rewrite Nat.mul_1_r. split; [exact Ry | exact Rf]. }
    rewrite Ei. cbn [obind]. rewrite Ey. cbn [obind fst snd].
    destruct (IH (S l) (ndirs bi * H)%nat y _ Nok Hb' Ry) as (y2 & fs2 & E2 & Q).
    { intros i z Ez k Hk. replace (S l + i)%nat with (l + S i)%nat by lia. apply Off; auto. }
    cbv zeta in Q. destruct Q as [Q1 Q2]. rewrite E2. cbn [obind fst snd]. exists y2, (fs ++ fs2). split; [reflexivity|].
    cbn [attach net fst snd]. fold st in Q1, Q2 |- *. rewrite Ll. replace (l * ndirs bi + ndirs bi)%nat with (S l * ndirs bi)%nat by lia.
    rewrite Ll in Q1, Q2. rewrite Ll in Rf. split; [|apply Forall2_app; auto].
    intros _. destruct ps as [|lp' ps].
    + cbn in E2. injection E2 as <- <-. rewrite Ll in Ry. exact Ry.
    + apply Q1. discriminate.
Qed.

Theorem lstm_sequence_ok mem map_bi (bf bi has : bool) (ps : list (list rnn_params)) (hs cs : source) (x : tensor R) (T B I H : nat) :
  ps <> [] -> net_ok 4 H I (ndirs bi) ps -> all_biases has ps ->
  tshape x = (if bf then [B; T; I] else [T; B; I]) -> (0 < H)%nat ->
  let n := (length ps * ndirs bi)%nat in
  let r := torch_lstm bf H (ndirs bi) ps (mem_tensor mem 0 n B H) (mem_tensor mem 1 n B H) x in
  exists y fs, aten_lstm_sequence mem map_bi bf bi has (length ps) x hs cs (flat ps) = Some (y, fs) /\
    teq y (fst r) /\ length fs = n /\
    forall k b j, (k < n)%nat -> (b < B)%nat -> (j < H)%nat ->
      tget (fst (nth k fs (nt, nt))) [b; j] = tget (fst (snd r)) [k; b; j] /\ tget (snd (nth k fs (nt, nt))) [b; j] = tget (snd (snd r)) [k; b; j].
Proof.
  intros Np Nok Hb Sx HH. cbv zeta. unfold aten_lstm_sequence. pose proof (net_ok_sizes _ _ _ _ _ Nok) as Fl.
  rewrite (flat_length has (ndirs bi) ps Hb Fl).
  assert (length ps * (params_step has * ndirs bi) = expected_params has bi (length ps))%nat as -> by (unfold params_step, expected_params, ndirs; destruct has, bi; lia).
  rewrite Nat.eqb_refl. destruct (steps_rep bf B I T x Sx) as [Rx Lx].
  assert (batch bf x = B) as EB by (unfold batch; rewrite Sx; destruct bf; reflexivity).
  destruct (seq_layers_ok mem map_bi bf bi has hs cs (flat ps) B H HH ps 0 I x (steps bf x) Nok Hb Rx) as (y & fs & E & Q).
  { intros i z Ez k Hk. now apply flat_offset. }
  cbv zeta in Q. destruct Q as [Q1 Q2]. exists y, fs. split; [exact E|]. unfold torch_lstm. rewrite EB. cbn [fst snd].
  assert ((fun k => (state_of (mem_tensor mem 0 (length ps * ndirs bi) B H) k, state_of (mem_tensor mem 1 (length ps * ndirs bi) B H) k)) =
          (fun k => (mem_state mem (2 * k), mem_state mem (2 * k + 1)))) as -> .
  { apply FunctionalExtensionality.functional_extensionality. intro k. rewrite !mem_tensor_state, Nat.add_0_r. reflexivity. }
  change (0 * ndirs bi)%nat with 0%nat in Q1, Q2. 
  set (F := net lstm_cell fst H (attach (fun k => (mem_state mem (2 * k), mem_state mem (2 * k + 1))) 0 ps) (steps bf x)) in *.
  assert (length fs = (length ps * ndirs bi)%nat) as Lf.
  { rewrite (F2_length _ _ _ Q2). subst F. rewrite (net_length _ _ _ (ndirs bi)), attach_length; auto; [unfold ndirs; destruct bi; auto | now apply attach_sizes]. }
  split; [apply seqrep_teq; auto|]. split; [exact Lf|].
  intros k b j Hk Hb' Hj. apply (Forall2_nth_iff _ (nt, nt) (no_mat, no_mat)) in Q2. destruct Q2 as [LQ Q2]. destruct (Q2 k ltac:(lia)) as [[_ G1] [_ G2]].
  rewrite G1, G2 by auto. unfold state_tensor. cbn [tget nth].
  rewrite (nth_indep (map fst (snd F)) no_mat (fst (no_mat, no_mat))), (nth_indep (map snd (snd F)) no_mat (snd (no_mat, no_mat))) by (rewrite map_length; lia).
  rewrite (map_nth (@fst mat mat)), (map_nth (@snd mat mat)). auto.
Qed.

(* ------------------------------------------------------------------ *)
(** * GRU *)

Definition prod_in (K : nat) (W : nat -> nat -> nat -> R) (Bf : nat -> nat -> R) (x : mat) (g b j : nat) : R :=
  Bf g j + lsum (seq 0 K) (fun k => W g j k * x b k).
Definition gcell (H K : nat) W Rr Bi Bh (x h : mat) : mat := fun b j =>
  let r := sigmoid (prod_in K W Bi x 0 b j + prod_in H Rr Bh h 0 b j) in
  let z := sigmoid (prod_in K W Bi x 1 b j + prod_in H Rr Bh h 1 b j) in
  let n := tanh (prod_in K W Bi x 2 b j + r * prod_in H Rr Bh h 2 b j) in
  (1 - z) * n + z * h b j.
Definition bias_in (H : nat) (p : rnn_params) (g j : nat) : R := match biases p with Some (a, _) => tget a [(g * H + j)%nat] | None => 0 end.
Definition bias_hid (H : nat) (p : rnn_params) (g j : nat) : R := match biases p with Some (_, b) => tget b [(g * H + j)%nat] | None => 0 end.
Lemma gru_cell_eq H K p x h : params_ok 3 H K p -> gru_cell p x h = gcell H K (pW H p) (pR H p) (bias_in H p) (bias_hid H p) x h.
Proof.
  intros (Sw & Sr & _).
  assert (forall g b j, affine (w_ih p) (option_map fst (biases p)) x (g * units p + j) b = prod_in K (pW H p) (bias_in H p) x g b j) as E1.
  { intros g b j. unfold affine, prod_in, pW, bias_in, units. rewrite Sw, Sr. cbn [nth]. destruct (biases p) as [[u v]|]; cbn [option_map fst snd]; ring. }
  assert (forall g b j, affine (w_hh p) (option_map snd (biases p)) h (g * units p + j) b = prod_in H (pR H p) (bias_hid H p) h g b j) as E2.
  { intros g b j. unfold affine, prod_in, pR, bias_hid, units. rewrite Sr. cbn [nth]. destruct (biases p) as [[u v]|]; cbn [option_map fst snd]; ring. }
  unfold gru_cell, gcell. apply FunctionalExtensionality.functional_extensionality; intro b.
  apply FunctionalExtensionality.functional_extensionality; intro j. rewrite !E1, !E2. reflexivity.
Qed.

Lemma gru_pointwise_ok B H skip li ri lz rz ln rn h (fli fri flz frz fln frn fh : mat) :
  rep B H li fli -> orep B H ri fri -> rep B H lz flz -> orep B H rz frz -> rep B H ln fln -> orep B H rn frn -> rep B H h fh ->
  (skip = true -> forall b j, (b < B)%nat -> (j < H)%nat -> fh b j = 0) ->
  exists h', gru_pointwise skip li ri lz rz ln rn h = Some h' /\
    rep B H h' (fun b j => let r := sigmoid (fli b j + fri b j) in let z := sigmoid (flz b j + frz b j) in
                           let n := tanh (fln b j + r * frn b j) in (1 - z) * n + z * fh b j).
Proof.
  intros Hli Hri Hlz Hrz Hln Hrn Hh Z. unfold gru_pointwise.
  destruct (rep_binop Rplus B H _ _ _ _ Hli Hri) as (r & Er & Rr). rewrite Er. cbn [obind].
  destruct (rep_binop Rplus B H _ _ _ _ Hlz Hrz) as (z & Ez & Rz). rewrite Ez. cbn [obind].
  destruct (rep_binop Rmult B H _ _ _ _ (rep_tmap sigmoid _ _ _ _ Rr) Hrn) as (nr & En & Rn). rewrite En. cbn [obind].
  destruct (rep_binop2 Rplus B H _ _ _ _ Hln Rn) as (n & En' & Rn'). rewrite En'. cbn [obind].
  destruct (rep_const Rminus B H 1 _ _ (rep_tmap sigmoid _ _ _ _ Rz)) as (h0 & E0 & R0). rewrite E0. cbn [obind].
  destruct (rep_binop2 Rmult B H _ _ _ _ R0 (rep_tmap tanh _ _ _ _ Rn')) as (hl & El & Rl). rewrite El. cbn [obind].
  destruct skip.
  - exists hl. split; [reflexivity|]. eapply rep_congr; [exact Rl|]. intros b j Hb Hj. cbv beta zeta. rewrite Z by auto. ring.
  - destruct (rep_binop2 Rmult B H _ _ _ _ (rep_tmap sigmoid _ _ _ _ Rz) Hh) as (hr & Ehr & Rhr). rewrite Ehr. cbn [obind].
    destruct (rep_binop2 Rplus B H _ _ _ _ Rl Rhr) as (h' & Eh' & Rh'). exists h'. split; [exact Eh' | exact Rh'].
Qed.

Lemma list3' {A} (l : list A) : length l = 3%nat -> exists a b c, l = [a; b; c].
Proof. destruct l as [|a [|b [|c [|]]]]; try discriminate. eauto. Qed.

Lemma fc_list B H K x ws bs f W Bf : rep B K x f -> wrep 3 H K ws W -> brep 3 H bs Bf -> (0 < K)%nat ->
  exists y0 y1 y2, all_ops (map (fun wb => fully_connected false x (fst wb) (snd wb)) (combine ws bs)) = Some [y0; y1; y2] /\
    forall g, (g < 3)%nat -> rep B H (nth g [y0; y1; y2] nt) (prod_in K W Bf f g).
Proof.
  intros Hx Hw Hb HK.
  destruct (fc_gate B 3 H K x ws bs f W Bf 0 Hx Hw Hb HK ltac:(lia)) as (y0 & E0 & R0).
  destruct (fc_gate B 3 H K x ws bs f W Bf 1 Hx Hw Hb HK ltac:(lia)) as (y1 & E1 & R1).
  destruct (fc_gate B 3 H K x ws bs f W Bf 2 Hx Hw Hb HK ltac:(lia)) as (y2 & E2 & R2).
  destruct Hw as [Lw _]. destruct Hb as [Lb _]. destruct (list3' _ Lw) as (w0 & w1 & w2 & ->). destruct (list3' _ Lb) as (b0 & b1 & b2 & ->).
  cbn [nth] in *. exists y0, y1, y2. split; [cbn [combine map fst snd all_ops]; rewrite E0, E1, E2; reflexivity|].
  intros g Hg. destruct g as [|[|[|]]]; cbn [nth]; auto. lia.
Qed.
Lemma fc_split B H K x ws bs f W Bf : rep B K x f -> wrep 3 H K ws W -> brep 3 H bs Bf -> (0 < K)%nat ->
  exists im y0 y1 y2, fully_connected false x (concatenation 0 0 ws) (concatenation 0 0 bs) = Some im /\ split_op 3 1 im = Some [y0; y1; y2] /\
    forall g, (g < 3)%nat -> rep B H (nth g [y0; y1; y2] nt) (prod_in K W Bf f g).
Proof.
  intros Hx Hw Hb HK. destruct (fc_joined B 3 H K x ws bs f W Bf Hx Hw Hb HK ltac:(lia)) as (im & F & E & Rm & V).
  destruct (split_gates B 3 H im F ltac:(lia) Rm) as [Es Rs]. exists im. eexists. eexists. eexists. split; [exact E|]. split; [exact Es|].
  intros g Hg. assert (nth g [split_part 3 1 0 im; split_part 3 1 1 im; split_part 3 1 2 im] nt = split_part 3 1 g im) as -> by (destruct g as [|[|[|]]]; auto; lia).
  eapply rep_congr; [apply Rs; auto|]. intros b j Hb' Hj. apply V; auto.
Qed.
Lemma gru_step_ok sep skip B H K ws rs bi bh W Rr Bi Bh t h ft fh :
  (0 < K)%nat -> (0 < H)%nat -> wrep 3 H K ws W -> wrep 3 H H rs Rr -> brep 3 H bi Bi -> brep 3 H bh Bh ->
  rep B K t ft -> rep B H h fh -> (skip = true -> forall b j, (b < B)%nat -> (j < H)%nat -> fh b j = 0) ->
  exists h', gru_step sep skip ws rs bi bh t h = Some h' /\ rep B H h' (gcell H K W Rr Bi Bh ft fh).
Proof.
  intros HK HH Hw Hr Hbi Hbh Ht Hh Z. unfold gru_step, gcell. destruct sep.
  - destruct (fc_list B H K t ws bi ft W Bi Ht Hw Hbi HK) as (y0 & y1 & y2 & Ey & Ry). rewrite Ey. cbn [obind].
    assert (exists z0 z1 z2, (if skip then Some bh else all_ops (map (fun wb => fully_connected false h (fst wb) (snd wb)) (combine rs bh))) = Some [z0; z1; z2] /\
      forall g, (g < 3)%nat -> orep B H (nth g [z0; z1; z2] nt) (prod_in H Rr Bh fh g)) as (z0 & z1 & z2 & Ez & Rz).
    { destruct skip.
      - destruct Hbh as [Lb Eb]. destruct (list3' _ Lb) as (b0 & b1 & b2 & ->). exists b0, b1, b2. split; [reflexivity|]. intros g Hg. destruct (Eb g Hg) as [Sb Vb].
        right. split; [exact Sb|]. intros b j Hb Hj. rewrite Vb by auto. unfold prod_in. rewrite (lsum_zero_mul H) by (intros; apply Z; auto). ring.
      - destruct (fc_list B H H h rs bh fh Rr Bh Hh Hr Hbh HH) as (z0 & z1 & z2 & Ez & Rz). exists z0, z1, z2. split; [exact Ez|]. intros g Hg. left. now apply Rz. }
    rewrite Ez. cbn [obind].
    apply (gru_pointwise_ok B H); auto; [apply (Ry 0%nat) | apply (Rz 0%nat) | apply (Ry 1%nat) | apply (Rz 1%nat) | apply (Ry 2%nat) | apply (Rz 2%nat)]; lia.
  - destruct (fc_split B H K t ws bi ft W Bi Ht Hw Hbi HK) as (im & y0 & y1 & y2 & Ei & Ey & Ry).
    destruct (fc_split B H H h rs bh fh Rr Bh Hh Hr Hbh HH) as (hm & z0 & z1 & z2 & Eh & Ez & Rz).
    rewrite Ei, Eh. cbn [obind]. rewrite Ey, Ez. cbn [obind].
    apply (gru_pointwise_ok B H); auto; [apply (Ry 0%nat) | left; apply (Rz 0%nat) | apply (Ry 1%nat) | left; apply (Rz 1%nat) | apply (Ry 2%nat) | left; apply (Rz 2%nat)]; lia.
Qed.
Lemma gru_loop_ok sep B H K ws rs bi bh p :
  (0 < K)%nat -> (0 < H)%nat -> params_ok 3 H K p -> wrep 3 H K ws (pW H p) -> wrep 3 H H rs (pR H p) -> brep 3 H bi (bias_in H p) -> brep 3 H bh (bias_hid H p) ->
  forall ts xs, Forall2 (rep B K) ts xs -> forall skip h fh, rep B H h fh ->
  (skip = true -> forall b j, (b < B)%nat -> (j < H)%nat -> fh b j = 0) ->
  exists hs m, gru_loop sep skip ws rs bi bh ts h = Some (hs, m) /\
    Forall2 (rep B H) hs (map (fun s => s) (run gru_cell p fh xs)) /\ rep B H m (last (run gru_cell p fh xs) fh).
Proof.
  intros HK HH Hp Hw Hr Hbi Hbh ts xs F. induction F as [|t x ts xs Ht F IH]; intros skip h fh Hh Z.
  - exists [], h. cbn. split; [reflexivity|]. split; [constructor | exact Hh].
  - cbn [gru_loop run]. rewrite (gru_cell_eq H K) by auto.
    destruct (gru_step_ok sep skip B H K ws rs bi bh _ _ _ _ t h x fh HK HH Hw Hr Hbi Hbh Ht Hh Z) as (h' & E & Rh). rewrite E. cbn [obind].
    destruct (IH false h' _ Rh ltac:(discriminate)) as (hs & m & El & Fl & Sl).
    rewrite El. cbn [obind fst snd]. exists (h' :: hs), m. split; [reflexivity|]. split; [constructor; auto|]. rewrite last_cons. exact Sl.
Qed.

Lemma gru_input_helper_at has params ps p H K : params_ok 3 H K p ->
  match biases p with Some _ => has = true | None => has = false end ->
  (forall k, (k < params_step has)%nat -> nth_error params (ps + k) = nth_error (flat_params p) k) ->
  exists bi bh, gru_input_helper has params ps = Some (chunks 3 (w_ih p), chunks 3 (w_hh p), bi, bh) /\ brep 3 H bi (bias_in H p) /\ brep 3 H bh (bias_hid H p).
Proof.
  intros (Sw & Sr & Sb) Hb E. unfold gru_input_helper.
  pose proof (E 0%nat ltac:(destruct has; cbn; lia)) as E0. rewrite Nat.add_0_r in E0. rewrite E0, (E 1%nat) by (destruct has; cbn; lia).
  cbn [flat_params app nth_error obind]. unfold bias_in, bias_hid. destruct (biases p) as [[a b]|] eqn:EB; subst has.
  - rewrite (E 2%nat), (E 3%nat) by (cbn; lia). unfold flat_params. rewrite EB. cbn [app nth_error obind]. eexists. eexists. split; [reflexivity|].
    destruct Sb as [Sa Sb]. split; apply chunks_brep; auto; lia.
  - eexists. eexists. split; [reflexivity|].
    assert (nth 0 (tshape (split_part 3 0 2 (w_ih p))) 0%nat = H) as -> by (unfold split_part, axis_size; rewrite Sw; cbn [nth upd tshape]; now rewrite (Nat.mul_comm 3 H), Nat.div_mul by lia).
    split; exact (zeros_brep 3 H).
Qed.

Theorem gru_ok (sep bf bi has : bool) (ps : list (list rnn_params)) (hs : source) (h0 x : tensor R) (T B I H : nat) :
  ps <> [] -> net_ok 3 H I (ndirs bi) ps -> all_biases has ps ->
  tshape x = (if bf then [B; T; I] else [T; B; I]) -> (0 < T)%nat -> (0 < I)%nat -> (0 < H)%nat ->
  starts (length ps * ndirs bi) B H hs h0 ->
  let r := torch_gru bf H (ndirs bi) ps h0 x in
  exists y hn, aten_gru sep bf bi has (length ps) x hs (flat ps) = Some (y, hn) /\
    teq y (fst r) /\ match hn with Some t => is_given hs = true /\ teq t (snd r) | None => is_given hs = false end.
Proof.
  intros Np Nok Hb Sx HT HI HH Hh. cbv zeta. unfold aten_gru.
  fold (ndirs bi). set (nd := ndirs bi) in *.
  pose proof (net_ok_sizes _ _ _ _ _ Nok) as Fl.
  rewrite (flat_length has nd ps Hb Fl).
  assert (length ps * (params_step has * nd) = expected_params has bi (length ps))%nat as -> by (subst nd; unfold params_step, expected_params, ndirs; destruct has, bi; lia).
  rewrite Nat.eqb_refl.
  destruct (steps_rep bf B I T x Sx) as [Rx Lx].
  assert (batch bf x = B) as EB by (unfold batch; rewrite Sx; destruct bf; reflexivity).
  set (st := fun k => state_of h0 k).
  assert (steps bf x <> []) as Nx by (intro E; rewrite E in Lx; cbn in Lx; lia).
  set (dir := fun l d ts => gru_direction sep has (flat ps) (l * (params_step has * nd)) (l * nd + d) hs d ts).
  destruct (layers_unrolled_ok gru_cell (fun s => s) (rep B H) B H bf bi dir (attach st 0 ps) 0 I (inl x) (steps bf x)) as (cur & ms & E & Cy & Sm & Ly); auto.
  { apply attach_sizes. exact Fl. }
  { intros i d p s y0 Ey Ed. destruct (attach_nth st nd ps 0 i y0 d p s Fl Ey Ed) as (l & El & Ep & Es & Ly0 & Hd).
    pose proof (net_ok_nth _ _ _ _ _ _ _ Nok El) as Fp. rewrite Ly0. set (K := if (i =? 0)%nat then I else (nd * H)%nat) in *.
    assert (0 < K)%nat as HK by (subst K nd; unfold ndirs; destruct (i =? 0)%nat, bi; lia).
    assert (length l = nd) as Ll by (rewrite Forall_forall in Fl; apply Fl; apply nth_error_In in El; exact El).
    assert (Forall (fun p => match biases p with Some _ => has = true | None => has = false end) l) as Fb.
    { unfold all_biases in Hb. rewrite Forall_forall in Hb. apply Hb. apply nth_error_In in El. exact El. }
    pose proof (flat_offset has nd ps l i Hb Fl El) as Off.
    assert (i < length ps)%nat as Hi by (apply nth_error_Some; rewrite El; discriminate).
    assert (i * nd + d < length ps * nd)%nat as Hsl by nia.
    destruct (state_slot_ok _ B H hs h0 (i * nd + d) (i * nd + d) Hh Hsl) as (hv & Ehv & Rhv & Ghv & _ & Zhv).
    intros ts xs Fts. change (0 + i)%nat with i.
    assert (params_ok 3 H K p) as Pp by (rewrite Forall_forall in Fp; apply Fp; apply nth_error_In in Ep; exact Ep).
    assert (match biases p with Some _ => has = true | None => has = false end) as Bp by (rewrite Forall_forall in Fb; apply Fb; apply nth_error_In in Ep; exact Ep).
    destruct (gru_input_helper_at has (flat ps) (i * (params_step has * nd) + nth d [0%nat; params_step has] 0%nat) p H K Pp Bp) as (bi0 & bh0 & Eg & Hbi & Hbh).
    { intros k Hk. rewrite <- Nat.add_assoc. subst nd. unfold ndirs in *. destruct bi.
      - destruct l as [|p0 [|q0 [|]]]; try discriminate. inversion Fb as [|? ? B0 _]; subst. pose proof (flat_params_length p0 has B0) as Lp0. pose proof (flat_params_length p has Bp) as Lpp.
        destruct d as [|[|d]]; [| |lia]; cbn in Ep; injection Ep as <-; cbn [nth].
        + rewrite Off by lia. cbn [flat_map]. rewrite Nat.add_0_l, nth_error_app1 by lia. reflexivity.
        + rewrite Off by lia. cbn [flat_map]. rewrite app_nil_r. apply nth_error_app_at. exact Lp0.
      - destruct l as [|p0 [|]]; try discriminate. destruct d as [|d]; [|lia]. cbn in Ep; injection Ep as <-. cbn [nth]. rewrite Nat.add_0_l, Off by lia.
        cbn [flat_map]. now rewrite app_nil_r. }
    subst dir. cbv beta. unfold gru_direction. rewrite Eg. cbn [obind]. rewrite Ehv. cbn [obind].
    assert (s = state_of h0 (i * nd + d)) as -> by (rewrite Es; reflexivity).
    apply (gru_loop_ok sep B H K); auto.
    - apply chunks_wrep; [lia|]. apply Pp.
    - apply chunks_wrep; [lia|]. apply Pp.
    - intro E0. apply Zhv. destruct (is_given hs); [rewrite Ghv in E0 by auto; discriminate|reflexivity]. }
  rewrite attach_length in E. fold dir. rewrite E. cbn [obind fst snd].
  assert (attach st 0 ps <> []) as Na by (destruct ps; [congruence|discriminate]).
  destruct (Cy Na) as (y & -> & Ry). eexists. eexists. split; [reflexivity|].
  unfold torch_gru. fold st. rewrite EB. cbn [fst snd].
  assert (ms <> []) as Nm.
  { intro E0. apply F2_length in Sm. rewrite (net_length _ _ _ nd) in Sm by (subst nd; unfold ndirs; destruct bi; auto using attach_sizes). rewrite E0, attach_length in Sm.
    destruct ps; [congruence|]. subst nd. unfold ndirs in Sm. destruct bi; cbn in Sm; lia. }
  split.
  - apply seqrep_teq. exact Ry.
  - destruct hs as [th|th]; cbn [state_output is_given]; [|reflexivity]. split; [reflexivity|]. now apply state_output_ok.
Qed.

(* ------------------------------------------------------------------ *)
(** * Where the lowering is not faithful *)

(** one unit, one feature; all weights zero, every gate gets [g] *)
Definition one_cell (n : nat) (g : R) : rnn_params :=
  mkP (zeros [n; 1%nat]) (zeros [n; 1%nat]) (Some (mkT [n] (fun _ => g), zeros [n])).
Definition one_state (v : R) : tensor R := mkT [1; 1; 1]%nat (fun _ => v).

Lemma affine_zero n b x r bt : affine (zeros [n; 1%nat]) b x r bt = match b with Some v => tget v [r] | None => 0 end.
Proof. unfold affine, zeros. cbn [tshape nth tget]. replace (lsum _ _) with 0; [lra|]. cbn. unfold lsum. cbn. lra. Qed.
Lemma one_lstm g h c x : tshape x = [1; 1; 1]%nat -> tshape c = [1; 1; 1]%nat ->
  let r := torch_lstm false 1 1 [[one_cell 4 g]] h c x in
  tget (fst r) [0; 0; 0]%nat = sigmoid g * tanh (sigmoid g * tget c [0; 0; 0]%nat + sigmoid g * tanh g) /\
  tget (snd (snd r)) [0; 0; 0]%nat = sigmoid g * tget c [0; 0; 0]%nat + sigmoid g * tanh g.
Proof.
  intros Sx Sc. cbv zeta. unfold torch_lstm, steps. rewrite Sx. cbn [time_axis nth length seq map attach combine net layer_out layer_final direction_out direction_final run
    fst snd app last seq_tensor tget state_tensor lstm_cell Nat.sub]. unfold one_cell. cbn [w_ih w_hh biases option_map].
  rewrite !affine_zero. cbn [fst snd tget zeros]. unfold state_of. rewrite !Rplus_0_r. split; reflexivity.
Qed.
Lemma one_gru g h x : tshape x = [1; 1; 1]%nat -> tshape h = [1; 1; 1]%nat ->
  tget (fst (torch_gru false 1 1 [[one_cell 3 g]] h x)) [0; 0; 0]%nat = (1 - sigmoid g) * tanh g + sigmoid g * tget h [0; 0; 0]%nat.
Proof.
  intros Sx Sh. unfold torch_gru, steps. rewrite Sx. cbn [time_axis nth length seq map attach combine net layer_out layer_final direction_out direction_final run
    fst snd app last seq_tensor tget state_tensor Nat.sub]. unfold gru_cell, one_cell. cbn [w_ih w_hh biases option_map].
  rewrite !affine_zero. cbn [fst snd tget zeros]. unfold state_of.
  rewrite !Rmult_0_r, !Rplus_0_r. reflexivity.
Qed.
Lemma one_net n g : net_ok n 1 1 1 [[one_cell n g]] /\ all_biases true [[one_cell n g]].
Proof. split; [|repeat constructor]. cbn [net_ok]. repeat split. repeat constructor; unfold one_cell; cbn [w_ih w_hh biases zeros tshape]; try split; now rewrite Nat.mul_1_r. Qed.
Lemma valid000 : valid [1; 1; 1]%nat [0; 0; 0]%nat.
Proof. repeat constructor. Qed.
Lemma sigmoid_pos x : 0 < sigmoid x.
Proof. unfold sigmoid. apply Rdiv_lt_0_compat; [lra|]. pose proof (exp_pos (- x)). lra. Qed.
Lemma tanh_0' : tanh 0 = 0.
Proof. unfold tanh, sinh. replace (- 0) with 0 by lra. field. unfold cosh. replace (- 0) with 0 by lra. rewrite exp_0. lra. Qed.
Lemma tanh_pos x : 0 < x -> 0 < tanh x.
Proof.
  intro Hx. unfold tanh, sinh, cosh. pose proof (exp_increasing (- x) x ltac:(lra)). pose proof (exp_pos (- x)). pose proof (exp_pos x).
  apply Rdiv_lt_0_compat; lra.
Qed.
Lemma tanh_inj_pos a b : a < b -> tanh a <> tanh b.
Proof.
  intros H E. assert (forall x, tanh x = 1 - 2 / (exp (2 * x) + 1)) as F.
  { intro x. unfold tanh, sinh, cosh. replace (2 * x) with (x + x) by lra. rewrite exp_plus, exp_Ropp. pose proof (exp_pos x). field. split; nra. }
  rewrite !F in E. pose proof (exp_increasing (2 * a) (2 * b) ltac:(lra)). pose proof (exp_pos (2 * a)).
  assert (2 / (exp (2 * a) + 1) = 2 / (exp (2 * b) + 1)) as E2 by lra.
  apply (f_equal (fun z => z * (exp (2 * a) + 1) * (exp (2 * b) + 1))) in E2. field_simplify in E2; lra.
Qed.
Lemma starts_zero n B H s t : s = Recorded t -> tshape t = [n; B; H] -> starts n B H s (zeros [n; B; H]).
Proof. intros -> S1. split; [exact S1|]. reflexivity. Qed.

(** a recorded initial state that is not zero is lost *)
Lemma lstm_recorded_refuted : exists ps h0 c0 x y o, net_ok 4 1 1 1 ps /\ all_biases true ps /\ tshape x = [1; 1; 1]%nat /\
  tshape h0 = [1; 1; 1]%nat /\ tshape c0 = [1; 1; 1]%nat /\
  aten_lstm_unrolled false false false true 1 x (Recorded h0) (Recorded c0) (flat ps) = Some (y, o) /\
  ~ teq y (fst (torch_lstm false 1 1 ps h0 c0 x)).
Proof.
  set (ps := [[one_cell 4 0]]). set (x := one_state 0). destruct (one_net 4 0) as [Nok Hb].
  destruct (lstm_unrolled_ok false false false true ps (Recorded (one_state 0)) (Recorded (one_state 1)) (zeros [1; 1; 1]%nat) (zeros [1; 1; 1]%nat) x 1 1 1 1)
    as (y & hn & cn & E & Hy & _); auto; try discriminate; try (eapply starts_zero; reflexivity).
  exists ps, (one_state 0), (one_state 1), x, y, (hn, cn). do 5 (split; [auto|]). split; [exact E|]. intro Q.
  destruct Hy as [Sy Vy]. destruct Q as [_ Vq]. assert (valid (tshape y) [0; 0; 0]%nat) as V by (rewrite Sy; apply valid000).
  specialize (Vy _ V). specialize (Vq _ V). rewrite Vy in Vq.
  destruct (one_lstm 0 (zeros [1; 1; 1]%nat) (zeros [1; 1; 1]%nat) x eq_refl eq_refl) as [E1 _].
  destruct (one_lstm 0 (one_state 0) (one_state 1) x eq_refl eq_refl) as [E2 _].
  cbv zeta in E1, E2. unfold ps, ndirs in Vq. rewrite E1, E2 in Vq. cbn [tget zeros one_state] in Vq.
  pose proof (sigmoid_pos 0) as P. apply Rmult_eq_reg_l in Vq; [|lra]. revert Vq. apply tanh_inj_pos. lra.
Qed.

(** separated gates with a given hidden state and a recorded zero cell state: the list of gates is one short *)
Lemma lstm_separated_refuted : exists ps h0 c0 x, net_ok 4 1 1 1 ps /\ all_biases true ps /\ tshape x = [1; 1; 1]%nat /\
  tshape h0 = [1; 1; 1]%nat /\ tshape c0 = [1; 1; 1]%nat /\ (forall idx, tget c0 idx = 0) /\
  aten_lstm_unrolled true false false true 1 x (Given h0) (Recorded c0) (flat ps) = None.
Proof.
  set (ps := [[one_cell 4 0]]). destruct (one_net 4 0) as [Nok Hb].
  exists ps, (one_state 0), (one_state 0), (one_state 0). do 5 (split; [auto|]). split; [reflexivity|].
  assert (np_any (unpack 0 0 (one_state 0)) = false) as Z by (apply np_any_zero; reflexivity).
  unfold aten_lstm_unrolled. cbn [length flat flat_map ps flat_params one_cell app biases expected_params Nat.mul Nat.add Nat.eqb layers_unrolled layer_unrolled].
  cbn -[lstm_loop np_any unpack]. unfold layer_unrolled, lstm_direction. cbn -[lstm_loop np_any unpack split_part]. rewrite Z.
  unfold lstm_loop, lstm_step, gate_products. cbn -[Rplus Rmult]. reflexivity.
Qed.

(** the final states have no producer when the initial states were recorded *)
Lemma lstm_state_outputs_refuted : exists ps x y, net_ok 4 1 1 1 ps /\ all_biases true ps /\ tshape x = [1; 1; 1]%nat /\
  aten_lstm_unrolled false false false true 1 x (Recorded (zeros [1; 1; 1]%nat)) (Recorded (zeros [1; 1; 1]%nat)) (flat ps) = Some (y, (None, None)) /\
  tget (snd (snd (torch_lstm false 1 1 ps (zeros [1; 1; 1]%nat) (zeros [1; 1; 1]%nat) x))) [0; 0; 0]%nat > 0.
Proof.
  set (ps := [[one_cell 4 1]]). set (x := one_state 0). destruct (one_net 4 1) as [Nok Hb].
  destruct (lstm_unrolled_ok false false false true ps (Recorded (zeros [1; 1; 1]%nat)) (Recorded (zeros [1; 1; 1]%nat)) (zeros [1; 1; 1]%nat) (zeros [1; 1; 1]%nat) x 1 1 1 1)
    as (y & hn & cn & E & _ & Hn & Cn); auto; try discriminate; try (eapply starts_zero; reflexivity).
  exists ps, x, y. do 3 (split; [auto|]). destruct hn; [destruct Hn; discriminate|]. destruct cn; [destruct Cn; discriminate|]. split; [exact E|].
  destruct (one_lstm 1 (zeros [1; 1; 1]%nat) (zeros [1; 1; 1]%nat) x eq_refl eq_refl) as [_ E1]. cbv zeta in E1. unfold ps. rewrite E1. cbn [tget zeros].
  pose proof (sigmoid_pos 1). pose proof (tanh_pos 1 ltac:(lra)). nra.
Qed.

(** the second invocation starts from the state the first one left *)
Lemma lstm_second_refuted : exists ps x y fs y' fs', net_ok 4 1 1 1 ps /\ all_biases true ps /\ tshape x = [1; 1; 1]%nat /\
  let z := zeros [1; 1; 1]%nat in
  aten_lstm_sequence no_mem false false false true 1 x (Recorded z) (Recorded z) (flat ps) = Some (y, fs) /\
  aten_lstm_sequence (mem_after fs) false false false true 1 x (Recorded z) (Recorded z) (flat ps) = Some (y', fs') /\
  teq y (fst (torch_lstm false 1 1 ps z z x)) /\ ~ teq y' (fst (torch_lstm false 1 1 ps z z x)).
Proof.
  set (ps := [[one_cell 4 1]]). set (x := one_state 0). set (z := zeros [1; 1; 1]%nat). destruct (one_net 4 1) as [Nok Hb].
  destruct (lstm_sequence_ok no_mem false false false true ps (Recorded z) (Recorded z) x 1 1 1 1) as (y & fs & E & Hy & Lf & Hf); auto; try discriminate.
  destruct (lstm_sequence_ok (mem_after fs) false false false true ps (Recorded z) (Recorded z) x 1 1 1 1) as (y' & fs' & E' & Hy' & _); auto; try discriminate.
  exists ps, x, y, fs, y', fs'. do 3 (split; [auto|]). cbv zeta. split; [exact E|]. split; [exact E'|].
  split; [exact Hy|]. intro Q.
  destruct Hy' as [Sy Vy]. destruct Q as [_ Vq]. assert (valid (tshape y') [0; 0; 0]%nat) as V by (rewrite Sy; apply valid000).
  specialize (Vy _ V). specialize (Vq _ V). rewrite Vy in Vq. unfold ps, ndirs in Vq, Lf, Hf. cbn [length Nat.mul Nat.add] in Vq, Lf, Hf.
  destruct (Hf 0%nat 0%nat 0%nat ltac:(lia) ltac:(lia) ltac:(lia)) as [_ Hc].
  destruct (one_lstm 1 (mem_tensor no_mem 0 1 1 1) (mem_tensor no_mem 1 1 1 1) x eq_refl eq_refl) as [_ E1].
  destruct (one_lstm 1 (mem_tensor (mem_after fs) 0 1 1 1) (mem_tensor (mem_after fs) 1 1 1 1) x eq_refl eq_refl) as [E2 _].
  destruct (one_lstm 1 z z x eq_refl eq_refl) as [E3 _]. cbv zeta in E1, E2, E3. rewrite E1 in Hc. rewrite E2, E3 in Vq.
  destruct fs as [|f fs]; [discriminate|]. cbn [nth] in Hc. cbn in Vq. rewrite Hc in Vq. cbn in Vq.
  pose proof (sigmoid_pos 1) as P. pose proof (tanh_pos 1 ltac:(lra)) as P1. apply Rmult_eq_reg_l in Vq; [|lra]. symmetry in Vq. revert Vq. apply tanh_inj_pos.
  pose proof (Rmult_lt_0_compat _ _ P (Rmult_lt_0_compat _ _ P P1)). lra.
Qed.

(** a state that is an input of the graph is ignored unless the layers are unrolled *)
Lemma lstm_given_refuted : exists ps h0 c0 x y fs, net_ok 4 1 1 1 ps /\ all_biases true ps /\ tshape x = [1; 1; 1]%nat /\
  tshape h0 = [1; 1; 1]%nat /\ tshape c0 = [1; 1; 1]%nat /\
  aten_lstm_sequence no_mem false false false true 1 x (Given h0) (Given c0) (flat ps) = Some (y, fs) /\
  ~ teq y (fst (torch_lstm false 1 1 ps h0 c0 x)).
Proof.
  set (ps := [[one_cell 4 0]]). set (x := one_state 0). destruct (one_net 4 0) as [Nok Hb].
  destruct (lstm_sequence_ok no_mem false false false true ps (Given (one_state 0)) (Given (one_state 1)) x 1 1 1 1) as (y & fs & E & Hy & _); auto; try discriminate.
  exists ps, (one_state 0), (one_state 1), x, y, fs. do 5 (split; [auto|]). split; [exact E|]. intro Q.
  destruct Hy as [Sy Vy]. destruct Q as [_ Vq]. assert (valid (tshape y) [0; 0; 0]%nat) as V by (rewrite Sy; apply valid000).
  specialize (Vy _ V). specialize (Vq _ V). rewrite Vy in Vq. unfold ps, ndirs in Vq. cbn [length Nat.mul Nat.add] in Vq.
  destruct (one_lstm 0 (mem_tensor no_mem 0 1 1 1) (mem_tensor no_mem 1 1 1 1) x eq_refl eq_refl) as [E1 _].
  destruct (one_lstm 0 (one_state 0) (one_state 1) x eq_refl eq_refl) as [E2 _].
  cbv zeta in E1, E2. rewrite E1, E2 in Vq. cbn [tget zeros one_state mem_tensor no_mem] in Vq.
  pose proof (sigmoid_pos 0) as P. apply Rmult_eq_reg_l in Vq; [|lra]. revert Vq. apply tanh_inj_pos. lra.
Qed.

Lemma gru_recorded_refuted : exists ps h0 x y o, net_ok 3 1 1 1 ps /\ all_biases true ps /\ tshape x = [1; 1; 1]%nat /\ tshape h0 = [1; 1; 1]%nat /\
  aten_gru false false false true 1 x (Recorded h0) (flat ps) = Some (y, o) /\ ~ teq y (fst (torch_gru false 1 1 ps h0 x)).
Proof.
  set (ps := [[one_cell 3 0]]). set (x := one_state 0). destruct (one_net 3 0) as [Nok Hb].
  destruct (gru_ok false false false true ps (Recorded (one_state 1)) (zeros [1; 1; 1]%nat) x 1 1 1 1)
    as (y & hn & E & Hy & _); auto; try discriminate; try (eapply starts_zero; reflexivity).
  exists ps, (one_state 1), x, y, hn. do 4 (split; [auto|]). split; [exact E|]. intro Q.
  destruct Hy as [Sy Vy]. destruct Q as [_ Vq]. assert (valid (tshape y) [0; 0; 0]%nat) as V by (rewrite Sy; apply valid000).
  specialize (Vy _ V). specialize (Vq _ V). rewrite Vy in Vq. unfold ps, ndirs in Vq.
  rewrite !one_gru in Vq by reflexivity. cbn [tget zeros one_state] in Vq. pose proof (sigmoid_pos 0) as P. lra.
Qed.
Lemma gru_state_output_refuted : exists ps x y, net_ok 3 1 1 1 ps /\ all_biases true ps /\ tshape x = [1; 1; 1]%nat /\
  aten_gru false false false true 1 x (Recorded (zeros [1; 1; 1]%nat)) (flat ps) = Some (y, None) /\
  tshape (snd (torch_gru false 1 1 ps (zeros [1; 1; 1]%nat) x)) = [1; 1; 1]%nat.
Proof.
  set (ps := [[one_cell 3 1]]). set (x := one_state 0). destruct (one_net 3 1) as [Nok Hb].
  destruct (gru_ok false false false true ps (Recorded (zeros [1; 1; 1]%nat)) (zeros [1; 1; 1]%nat) x 1 1 1 1)
    as (y & hn & E & _ & Hn); auto; try discriminate; try (eapply starts_zero; reflexivity).
  exists ps, x, y. do 3 (split; [auto|]). destruct hn; [destruct Hn; discriminate|]. split; [exact E|]. reflexivity.
Qed.
