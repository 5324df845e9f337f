(** Proofs about the lowering of pooling (AtenPoolModel.v). *)
From Coq Require Import List Arith Bool Reals Lia Lra ZArith.
From Verif Require Import Tensor ConvSpec CatSpec LayoutSpec FuseModel FuseMiscProofs PadProofs AtenSpec AtenConvModel AtenConvProofs
  PoolSpec AtenPoolModel.
Import ListNotations.

(* ------------------------------------------------------------------ *)
(** * Sizes *)

Lemma pool_out_floor d k s p : pool_out false d k s p = (d + 2 * p - k) / s + 1.
Proof. unfold pool_out. cbn [andb]. now rewrite Nat.add_0_r. Qed.

Lemma div_unique_le a b q : 0 < b -> q * b <= a -> a < (q + 1) * b -> a / b = q.
Proof. intros. symmetry. apply Nat.div_unique with (r := a - q * b); nia. Qed.

(** the exact number of windows in ceil mode, with its remainder *)
Lemma pool_out_ceil d k s p : pool_axis d k s p ->
  exists o, pool_out true d k s p = o + 1 /\ o * s < d + p /\
            (o * s < d + 2 * p - k + s) /\ (d + 2 * p - k <= o * s \/ d + p <= (o + 1) * s).
Proof.
  intros (Hd & Hk & Hs & Hp & Hf). unfold pool_out. cbn [andb].
  set (a := d + 2 * p - k) in *. set (q := (a + (s - 1)) / s).
  assert (q * s <= a + (s - 1)) as H1 by (unfold q; rewrite Nat.mul_comm; apply Nat.mul_div_le; lia).
  assert (a + (s - 1) < (q + 1) * s) as H2.
  { unfold q. pose proof (Nat.mul_succ_div_gt (a + (s - 1)) s ltac:(lia)). nia. }
  replace (q + 1 - 1) with q by lia. destruct (Nat.leb_spec (d + p) (q * s)) as [L|L].
  - destruct q as [|q]; [lia|]. exists q. split; [lia|]. repeat split; nia.
  - exists q. repeat split; nia.
Qed.
Lemma pool_out_div d k s p : pool_axis d k s p -> (d + 2 * p - k) mod s = 0 -> pool_out true d k s p = pool_out false d k s p.
Proof.
  intros Hp E. pose proof Hp as (Hd & Hk & Hs & H2 & Hf). rewrite pool_out_floor. unfold pool_out. cbn [andb].
  apply Nat.mod_divides in E; [|lia]. destruct E as (q & E). rewrite E.
  replace ((s * q + (s - 1)) / s) with q by (symmetry; apply div_unique_le; nia).
  rewrite (Nat.mul_comm s q), Nat.div_mul by lia. replace (q + 1 - 1) with q by lia.
  destruct (Nat.leb_spec (d + p) (q * s)); [nia|reflexivity].
Qed.

(** every window touches the operand *)
Lemma pool_hit ceil d k s p o : pool_axis d k s p -> o < pool_out ceil d k s p ->
  exists t, t < k /\ p <= o * s + t /\ o * s + t - p < d.
Proof.
  intros Hp Ho. pose proof Hp as (Hd & Hk & Hs & H2 & Hf).
  assert (o * s < d + p).
  { destruct ceil.
    - destruct (pool_out_ceil _ _ _ _ Hp) as (q & E & L & _). rewrite E in Ho. nia.
    - rewrite pool_out_floor in Ho. pose proof (Nat.mul_div_le (d + 2 * p - k) s ltac:(lia)). nia. }
  destruct (le_lt_dec p (o * s)).
  - exists 0. lia.
  - exists (p - o * s). lia.
Qed.

(** the amount that ceil mode adds behind the symmetric padding *)
Lemma ceil_pad_out d k s p : pool_axis d k s p -> s <= k -> p = 0 \/ p + 1 < s ->
  let c := (pool_ceil_pad (Z.of_nat d) (Z.of_nat k) (Z.of_nat s) (Z.of_nat p) + Z.of_nat p)%Z in
  (0 <= c)%Z /\ valid_out (p + d + p + Z.to_nat c) s 1 k = pool_out true d k s p.
Proof.
  intros Hp Hsk Hps c. pose proof Hp as (Hd & Hk & Hs & H2 & Hf).
  destruct (pool_out_ceil _ _ _ _ Hp) as (o & E & L1 & L2 & L3). rewrite E.
  assert (c = let c0 := (if Z.of_nat s =? 1 then 0 else Z.of_nat k - (Z.of_nat d + 2 * Z.of_nat p - (Z.of_nat o * Z.of_nat s + 1)))%Z in
              ((if c0 + 2 * Z.of_nat p >=? Z.of_nat k then (if c0 <? Z.of_nat k - 1 then c0 else Z.of_nat k - 1) else c0) + Z.of_nat p)%Z) as Ec.
  { unfold c, pool_ceil_pad.
    set (a := (Z.of_nat d + 2 * Z.of_nat p - Z.of_nat k)%Z).
    assert (a = Z.of_nat (d + 2 * p - k)) as Ea by (unfold a; lia).
    set (q := (- ((- a) / Z.of_nat s))%Z).
    assert (q * Z.of_nat s < a + Z.of_nat s)%Z as Q1.
    { unfold q. pose proof (Z.mul_succ_div_gt (- a) (Z.of_nat s) ltac:(lia)). nia. }
    assert (a <= q * Z.of_nat s)%Z as Q2.
    { unfold q. pose proof (Z.mul_div_le (- a) (Z.of_nat s) ltac:(lia)). nia. }
    assert ((if (q + 1) * Z.of_nat s - Z.of_nat s >=? Z.of_nat d + Z.of_nat p then q + 1 - 1 else q + 1)%Z = Z.of_nat o + 1)%Z as Eo.
    { destruct (Z.geb_spec ((q + 1) * Z.of_nat s - Z.of_nat s) (Z.of_nat d + Z.of_nat p)) as [G|G].
      - assert (Z.of_nat o + 1 = q)%Z; [|lia]. destruct L3 as [L3|L3]; nia.
      - assert (Z.of_nat o = q)%Z; [|lia]. destruct L3 as [L3|L3]; nia. }
    rewrite Eo. replace (Z.of_nat o + 1 - 1)%Z with (Z.of_nat o) by lia. reflexivity. }
  cbv zeta in Ec.
  assert (exists e, (0 <= c /\ Z.of_nat (d + 2 * p) + c = Z.of_nat o * Z.of_nat s + Z.of_nat k + Z.of_nat e)%Z /\ e < s) as (e & (Hc & Ee) & He).
  { destruct (Z.eqb_spec (Z.of_nat s) 1) as [S1|S1].
    - assert (s = 1) by lia. subst s. assert (p = 0) by lia. subst p. exists 0.
      assert (o = d - k) by lia. subst o.
      destruct (Z.geb_spec (0 + 2 * Z.of_nat 0) (Z.of_nat k)); [lia|]. lia.
    - set (x := (Z.of_nat d + 2 * Z.of_nat p - (Z.of_nat o * Z.of_nat s + 1))%Z) in *.
      assert (Z.of_nat o * Z.of_nat s = Z.of_nat (o * s))%Z as Eos by lia.
      assert (Z.of_nat k - x <= Z.of_nat k)%Z as Lx.
      { unfold x. rewrite Eos. destruct Hps as [->|Hps]; nia. }
      destruct (Z.geb_spec (Z.of_nat k - x + 2 * Z.of_nat p) (Z.of_nat k)) as [G|G].
      + destruct (Z.ltb_spec (Z.of_nat k - x) (Z.of_nat k - 1)) as [G2|G2].
        * exists (p + 1). unfold x in *. rewrite Eos in *. lia.
        * exists (p + (if Z.eq_dec (Z.of_nat k - x) (Z.of_nat k) then 0 else 1)).
          destruct (Z.eq_dec (Z.of_nat k - x) (Z.of_nat k)) as [G3|G3]; unfold x in *; rewrite Eos in *; lia.
      + exists (p + 1). unfold x in *. rewrite Eos in *. lia. }
  split; [exact Hc|]. unfold valid_out. f_equal. apply div_unique_le; nia.
Qed.

(* ------------------------------------------------------------------ *)
(** * Padded operands in NHWC order *)

Definition axis (d p a : nat) : option nat := if (p <=? a) && (a - p <? d) then Some (a - p) else None.
Definition pad_of (v : R) (xp x : tensor R) (N C h w p1 p2 e1 e2 : nat) : Prop :=
  tshape xp = [N; p1 + h + e1; p2 + w + e2; C] /\
  forall n a b c, n < N -> a < p1 + h + e1 -> b < p2 + w + e2 -> c < C ->
    tget xp [n; a; b; c] = match axis h p1 a, axis w p2 b with Some i, Some j => tget x [n; c; i; j] | _, _ => v end.

Lemma eq4 (a b c d a' b' c' d' : nat) : a = a' -> b = b' -> c = c' -> d = d' -> [a; b; c; d] = [a'; b'; c'; d'].
Proof. congruence. Qed.
Lemma axis_in d a : a < d -> axis d 0 a = Some a.
Proof. intro H. unfold axis. cbn [Nat.leb andb]. rewrite Nat.sub_0_r. destruct (Nat.ltb_spec a d); [reflexivity|lia]. Qed.
Lemma pad_of_start v x N C h w : tshape x = [N; C; h; w] -> pad_of v (transpose [0; 2; 3; 1] x) x N C h w 0 0 0 0.
Proof.
  intro Hs. split.
  - cbn [transpose tshape]. rewrite Hs. cbn [sel map nth]. apply eq4; lia.
  - intros n a b c Hn Ha Hb Hc. rewrite !axis_in by lia. reflexivity.
Qed.
Lemma pad_of_pad v xp x N C h w p1 p2 e1 e2 f1 f2 g1 g2 : pad_of v xp x N C h w p1 p2 e1 e2 ->
  pad_of v (pad_op v [(0, 0); (f1, g1); (f2, g2); (0, 0)] xp) x N C h w (f1 + p1) (f2 + p2) (e1 + g1) (e2 + g2).
Proof.
  intros (Hs & Hg). split.
  - cbn [pad_op tshape]. rewrite Hs. cbn [pad_shape]. apply eq4; lia.
  - intros n a b c Hn Ha Hb Hc. cbn [pad_op tget]. rewrite Hs. cbn [unpad]. rewrite !Nat.sub_0_r. cbn [Nat.leb andb].
    destruct (Nat.ltb_spec n N); [|lia]. destruct (Nat.ltb_spec c C); [|lia]. cbn [option_map].
    destruct (Nat.leb_spec f1 a) as [A1|A1]; [destruct (Nat.ltb_spec (a - f1) (p1 + h + e1)) as [A2|A2]|]; cbn [andb option_map].
    + destruct (Nat.leb_spec f2 b) as [B1|B1]; [destruct (Nat.ltb_spec (b - f2) (p2 + w + e2)) as [B2|B2]|]; cbn [andb option_map].
      * rewrite Hg by lia.
        assert (axis h p1 (a - f1) = axis h (f1 + p1) a) as ->.
        { unfold axis. replace (a - f1 - p1) with (a - (f1 + p1)) by lia.
          destruct (Nat.leb_spec p1 (a - f1)), (Nat.leb_spec (f1 + p1) a); try lia; reflexivity. }
        assert (axis w p2 (b - f2) = axis w (f2 + p2) b) as ->.
        { unfold axis. replace (b - f2 - p2) with (b - (f2 + p2)) by lia.
          destruct (Nat.leb_spec p2 (b - f2)), (Nat.leb_spec (f2 + p2) b); try lia; reflexivity. }
        reflexivity.
      * assert (axis w (f2 + p2) b = None) as ->.
        { unfold axis. destruct (Nat.ltb_spec (b - (f2 + p2)) w); [lia|]. now rewrite andb_false_r. }
        destruct (axis h (f1 + p1) a); reflexivity.
      * assert (axis w (f2 + p2) b = None) as ->.
        { unfold axis. destruct (Nat.leb_spec (f2 + p2) b); [lia|]. reflexivity. }
        destruct (axis h (f1 + p1) a); reflexivity.
    + assert (axis h (f1 + p1) a = None) as ->; [|reflexivity].
      unfold axis. destruct (Nat.ltb_spec (a - (f1 + p1)) h); [lia|]. now rewrite andb_false_r.
    + assert (axis h (f1 + p1) a = None) as ->; [|reflexivity].
      unfold axis. destruct (Nat.leb_spec (f1 + p1) a); [lia|]. reflexivity.
Qed.
Lemma pad_of_sym v x N C h w ph pw : tshape x = [N; C; h; w] ->
  let xt := transpose [0; 2; 3; 1] x in
  pad_of v (if 0 <? ph + pw then pad_op v [(0, 0); (ph, ph); (pw, pw); (0, 0)] xt else xt) x N C h w ph pw ph pw.
Proof.
  intros Hs xt. pose proof (pad_of_start v x N C h w Hs) as P. destruct (Nat.ltb_spec 0 (ph + pw)).
  - apply (pad_of_pad _ _ _ _ _ _ _ _ _ _ _ ph pw ph pw) in P. rewrite !Nat.add_0_r in P. exact P.
  - assert (ph = 0 /\ pw = 0) as [-> ->] by lia. exact P.
Qed.

(** a kernel that only looks at its own channel *)
Definition per_channel {B} (F : nat -> list (list (option R)) -> B) (g : list (option R) -> B) : Prop :=
  forall o win, F o win = g (map (fun r => nth o r None) win).
Lemma per_channel_max : per_channel maxpool_kernel (fold_right omax None).
Proof. intros o win. apply maxpool_fold. Qed.

Lemma nth_seq_map {A} (f : nat -> A) n c d : c < n -> nth c (map f (seq 0 n)) d = f c.
Proof. intro H. rewrite (nth_indep _ d (f 0)) by (rewrite map_length, seq_length; lia). rewrite map_nth, seq_nth by lia. reflexivity. Qed.

Lemma tap2 h w s1 s2 p1 p2 a b t u :
  tap [h; w] [s1; s2] [1; 1] [p1; p2] [a; b] [t; u] =
  match axis h p1 (a * s1 + t), axis w p2 (b * s2 + u) with Some i, Some j => Some [i; j] | _, _ => None end.
Proof.
  cbn [tap]. unfold axis. rewrite !Nat.mul_1_r.
  destruct ((p1 <=? a * s1 + t) && (a * s1 + t - p1 <? h)); [|reflexivity].
  destruct ((p2 <=? b * s2 + u) && (b * s2 + u - p2 <? w)); reflexivity.
Qed.

Lemma valid_out_fit P s k o t : 0 < k -> 0 < s -> k <= P -> o < valid_out P s 1 k -> t < k -> o * s + t < P.
Proof.
  intros Hk Hs HP Ho Ht. unfold valid_out in Ho. pose proof (Nat.mul_div_le (P - (1 * (k - 1) + 1)) s ltac:(lia)). nia.
Qed.

Lemma op_valid_pool {B} F (g : list (option R) -> B) v xp x N C h w p1 p2 e1 e2 k1 k2 s1 s2 n a b c :
  per_channel F g -> pad_of v xp x N C h w p1 p2 e1 e2 -> tshape x = [N; C; h; w] ->
  0 < k1 -> 0 < k2 -> 0 < s1 -> 0 < s2 -> k1 <= p1 + h + e1 -> k2 <= p2 + w + e2 ->
  n < N -> c < C -> a < valid_out (p1 + h + e1) s1 1 k1 -> b < valid_out (p2 + w + e2) s2 1 k2 ->
  tget (op_valid F C [s1; s2] [1; 1] [k1; k2] xp) [n; a; b; c] =
  g (map (fill v) (pool_win x [k1; k2] [s1; s2] [p1; p2] n c [a; b])).
Proof.
  intros HF (Hs & Hg) Hx K1 K2 S1 S2 F1 F2 Hn Hc Ha Hb.
  change [n; a; b; c] with (n :: [a; b] ++ [c]). unfold op_valid. rewrite windowed_get, HF. f_equal.
  unfold window, pool_win. rewrite Hs, Hx. cbn [tl removelast last skipn ones map]. rewrite !map_map. apply map_ext_in.
  intros t Ht. apply indices_valid in Ht. apply valid2 in Ht. destruct Ht as (t1 & t2 & -> & T1 & T2).
  rewrite nth_seq_map by auto. rewrite !tap2.
  pose proof (valid_out_fit _ _ _ _ _ K1 S1 F1 Ha T1) as L1. pose proof (valid_out_fit _ _ _ _ _ K2 S2 F2 Hb T2) as L2.
  rewrite !axis_in by assumption. cbn [option_map app]. rewrite Hg by assumption.
  destruct (axis h p1 (a * s1 + t1)) as [i|]; [|reflexivity]. destruct (axis w p2 (b * s2 + t2)) as [j|]; reflexivity.
Qed.
Lemma op_same_pool {B} F (g : list (option R) -> B) x N C h w p1 p2 k1 k2 s1 s2 n a b c :
  per_channel F g -> tshape x = [N; C; h; w] -> same_before h s1 1 k1 = p1 -> same_before w s2 1 k2 = p2 -> c < C ->
  tget (op_same F C [s1; s2] [1; 1] [k1; k2] (transpose [0; 2; 3; 1] x)) [n; a; b; c] =
  g (pool_win x [k1; k2] [s1; s2] [p1; p2] n c [a; b]).
Proof.
  intros HF Hx P1 P2 Hc. change [n; a; b; c] with (n :: [a; b] ++ [c]). unfold op_same. rewrite windowed_get, HF. f_equal.
  unfold window, pool_win. cbn [transpose tshape]. rewrite Hx. cbn [sel map nth tl removelast last skipn ones same_befores].
  rewrite P1, P2, !map_map. apply map_ext_in. intros t Ht. apply indices_valid in Ht. apply valid2 in Ht.
  destruct Ht as (t1 & t2 & -> & T1 & T2). rewrite nth_seq_map by auto. rewrite !tap2.
  destruct (axis h p1 (a * s1 + t1)) as [i|]; [|reflexivity]. destruct (axis w p2 (b * s2 + t2)) as [j|]; reflexivity.
Qed.

(* ------------------------------------------------------------------ *)
(** * Max pooling *)

Lemma axis_lt d p a i : axis d p a = Some i -> i < d.
Proof.
  unfold axis. destruct ((p <=? a) && (a - p <? d)) eqn:E; [|discriminate]. intros [= <-]. apply andb_prop in E. destruct E as [_ E].
  now apply Nat.ltb_lt.
Qed.
Lemma pool_win_max low ceil x N C h w k1 k2 s1 s2 p1 p2 n c a b :
  tshape x = [N; C; h; w] -> pool_axis h k1 s1 p1 -> pool_axis w k2 s2 p2 ->
  (forall idx, valid (tshape x) idx -> (low <= tget x idx)%R) -> n < N -> c < C ->
  a < pool_out ceil h k1 s1 p1 -> b < pool_out ceil w k2 s2 p2 ->
  let W := pool_win x [k1; k2] [s1; s2] [p1; p2] n c [a; b] in
  fold_right omax None (map (fill low) W) = fold_right omax None W.
Proof.
  intros Hx A1 A2 Hlow Hn Hc Ha Hb W.
  assert (forall v, In (Some v) W -> (low <= v)%R) as HW.
  { intros v Hv. unfold W, pool_win in Hv. rewrite Hx in Hv. apply in_map_iff in Hv. destruct Hv as (t & Et & Ht).
    apply indices_valid in Ht. apply valid2 in Ht. destruct Ht as (t1 & t2 & -> & T1 & T2).
    cbn [skipn ones map] in Et. rewrite tap2 in Et.
    destruct (axis h p1 (a * s1 + t1)) as [i|] eqn:Ei; [|discriminate]. destruct (axis w p2 (b * s2 + t2)) as [j|] eqn:Ej; [|discriminate].
    injection Et as <-. apply Hlow. rewrite Hx. apply axis_lt in Ei. apply axis_lt in Ej. repeat constructor; auto. }
  destruct (omax_fill low W HW) as [_ E]. rewrite E.
  destruct (pool_hit _ _ _ _ _ _ A1 Ha) as (t1 & T1 & T1a & T1b). destruct (pool_hit _ _ _ _ _ _ A2 Hb) as (t2 & T2 & T2a & T2b).
  assert (In (Some (tget x [n; c; a * s1 + t1 - p1; b * s2 + t2 - p2])) W) as Hin.
  { unfold W, pool_win. rewrite Hx. apply in_map_iff. exists [t1; t2]. split; [|apply indices_valid; repeat constructor; auto].
    cbn [skipn ones map]. rewrite tap2. unfold axis.
    destruct (Nat.leb_spec p1 (a * s1 + t1)); [|lia]. destruct (Nat.ltb_spec (a * s1 + t1 - p1) h); [|lia].
    destruct (Nat.leb_spec p2 (b * s2 + t2)); [|lia]. destruct (Nat.ltb_spec (b * s2 + t2 - p2) w); [|lia]. reflexivity. }
  destruct (omax_some W _ Hin) as [m ->]. reflexivity.
Qed.

Lemma divisible_nat d k s p : pool_axis d k s p ->
  ((((Z.of_nat (d + 2 * p) - Z.of_nat k) mod Z.of_nat s) =? 0)%Z = ((d + 2 * p - k) mod s =? 0)).
Proof.
  intros (Hd & Hk & Hs & H2 & Hf). rewrite <- Nat2Z.inj_sub by lia. rewrite <- Nat2Z.inj_mod.
  destruct (Nat.eqb_spec ((d + 2 * p - k) mod s) 0) as [E|E]; [rewrite E; reflexivity|].
  apply Z.eqb_neq. lia.
Qed.
Lemma valid_out_sym d k s p : pool_axis d k s p -> valid_out (p + d + p) s 1 k = pool_out false d k s p.
Proof. intros (Hd & Hk & Hs & H2 & Hf). rewrite pool_out_floor. unfold valid_out. do 2 f_equal. lia. Qed.

Lemma handle_padding_spec is_max low x N C h w k1 k2 s1 s2 p1 p2 ceil :
  tshape x = [N; C; h; w] -> pool_axis h k1 s1 p1 -> pool_axis w k2 s2 p2 ->
  (ceil = true -> ((h + 2 * p1 - k1) mod s1 = 0 /\ (w + 2 * p2 - k2) mod s2 = 0) \/
                  (is_max = true /\ ceil_ok h k1 s1 p1 /\ ceil_ok w k2 s2 p2)) ->
  exists xp e1 e2, handle_padding is_max low k1 k2 s1 s2 p1 p2 ceil (transpose [0; 2; 3; 1] x) = Some xp /\
    pad_of (if is_max then low else 0%R) xp x N C h w p1 p2 e1 e2 /\
    valid_out (p1 + h + e1) s1 1 k1 = pool_out ceil h k1 s1 p1 /\ valid_out (p2 + w + e2) s2 1 k2 = pool_out ceil w k2 s2 p2 /\
    k1 <= p1 + h + e1 /\ k2 <= p2 + w + e2 /\
    ((h + 2 * p1 - k1) mod s1 = 0 -> (w + 2 * p2 - k2) mod s2 = 0 -> e1 = p1 /\ e2 = p2) /\
    (ceil = false -> e1 = p1 /\ e2 = p2).
Proof.
  intros Hx A1 A2 Hceil. unfold handle_padding. cbn [transpose tshape]. rewrite Hx. cbn [sel map nth].
  rewrite !divisible_nat by auto.
  pose proof (pad_of_sym (if is_max then low else 0%R) x N C h w p1 p2 Hx) as P. cbv zeta in P.
  set (xp := if 0 <? p1 + p2 then _ else _) in *.
  pose proof A1 as (_ & _ & _ & _ & F1). pose proof A2 as (_ & _ & _ & _ & F2).
  destruct (ceil && negb _) eqn:Ef.
  - apply andb_prop in Ef. destruct Ef as [-> Ef].
    destruct (Hceil eq_refl) as [[D1 D2]|(-> & O1 & O2)].
    { apply negb_true_iff in Ef. rewrite D1, D2 in Ef. discriminate. }
    cbn [negb andb]. destruct O1 as [O1 Q1]. destruct O2 as [O2 Q2].
    destruct (ceil_pad_out _ _ _ _ A1 O1 Q1) as [C1 V1]. destruct (ceil_pad_out _ _ _ _ A2 O2 Q2) as [C2 V2]. cbv zeta in C1, V1, C2, V2.
    set (ch := (pool_ceil_pad (Z.of_nat h) _ _ _ + _)%Z) in *. set (cw := (pool_ceil_pad (Z.of_nat w) _ _ _ + _)%Z) in *.
    destruct (Z.ltb_spec ch 0); [lia|]. destruct (Z.ltb_spec cw 0); [lia|]. cbn [orb].
    apply (pad_of_pad _ _ _ _ _ _ _ _ _ _ _ 0 0 (Z.to_nat ch) (Z.to_nat cw)) in P. cbn [Nat.add] in P.
    eexists _, _, _. split; [reflexivity|]. split; [exact P|]. rewrite !Nat.add_assoc. split; [exact V1|]. split; [exact V2|].
    split; [lia|]. split; [lia|]. split; [|discriminate].
    intros D1 D2. apply negb_true_iff in Ef. rewrite D1, D2 in Ef. discriminate.
  - cbn [andb]. exists xp, p1, p2. split; [reflexivity|]. split; [exact P|]. rewrite !valid_out_sym by auto.
    split; [|split; [|repeat split; lia]].
    + destruct ceil; [|reflexivity]. cbn [andb] in Ef. apply negb_false_iff in Ef. apply andb_prop in Ef. destruct Ef as [E1 E2].
      symmetry. apply pool_out_div; auto. now apply Nat.eqb_eq.
    + destruct ceil; [|reflexivity]. cbn [andb] in Ef. apply negb_false_iff in Ef. apply andb_prop in Ef. destruct Ef as [E1 E2].
      symmetry. apply pool_out_div; auto. now apply Nat.eqb_eq.
Qed.

Lemma op_valid_pool_shape {B} (F : nat -> list (list (option R)) -> B) xp N C P1 P2 s1 s2 k1 k2 : tshape xp = [N; P1; P2; C] ->
  tshape (op_valid F C [s1; s2] [1; 1] [k1; k2] xp) = [N; valid_out P1 s1 1 k1; valid_out P2 s2 1 k2; C].
Proof. intro Hs. unfold op_valid, windowed. cbn [tshape]. rewrite Hs. reflexivity. Qed.

Lemma same_before_one d k : 0 < d -> Nat.odd k = true -> same_before d 1 1 k = k / 2.
Proof.
  intros Hd Ho. apply Nat.odd_spec in Ho. destruct Ho as (m & ->). unfold same_before, same_out, cdiv.
  rewrite Nat.div_1_r. replace (d + 1 - 1 - 1) with (d - 1) by lia.
  replace ((d - 1) * 1 + (1 * (2 * m + 1 - 1) + 1) - d) with (m * 2) by lia. rewrite Nat.div_mul by lia.
  replace (2 * m + 1) with (1 + m * 2) by lia. rewrite Nat.div_add by lia. reflexivity.
Qed.
Lemma same_out_one d k : 0 < d -> Nat.odd k = true -> same_out d 1 = pool_out false d k 1 (k / 2).
Proof.
  intros Hd Ho. apply Nat.odd_spec in Ho. destruct Ho as (m & ->). rewrite pool_out_floor. unfold same_out, cdiv.
  rewrite !Nat.div_1_r. replace ((2 * m + 1) / 2) with m; [lia|].
  replace (2 * m + 1) with (1 + m * 2) by lia. rewrite Nat.div_add by lia. reflexivity.
Qed.

Lemma teq4 {A} (t u : tensor A) N C h w : tshape t = [N; C; h; w] -> tshape u = [N; C; h; w] ->
  (forall n c a b, n < N -> c < C -> a < h -> b < w -> tget t [n; c; a; b] = tget u [n; c; a; b]) -> teq t u.
Proof.
  intros H1 H2 H. split; [congruence|]. intros idx V. rewrite H1 in V.
  inversion V as [|n ? r ? Hn V1]; subst. inversion V1 as [|c ? r1 ? Hc V2]; subst. apply valid2 in V2. destruct V2 as (a & b & -> & Ha & Hb).
  auto.
Qed.

Theorem max_pool2d_correct low kh kw stride ph pw ceil x N C h w :
  let '(sh, sw) := dflt stride kh kw in
  tshape x = [N; C; h; w] -> pool_axis h kh sh ph -> pool_axis w kw sw pw ->
  (forall idx, valid (tshape x) idx -> (low <= tget x idx)%R) ->
  (sh = 1 -> sw = 1 -> ph = kh / 2 -> pw = kw / 2 -> ceil = false -> Nat.odd kh = true /\ Nat.odd kw = true) ->
  (ceil = true -> ((h + 2 * ph - kh) mod sh = 0 /\ (w + 2 * pw - kw) mod sw = 0) \/ (ceil_ok h kh sh ph /\ ceil_ok w kw sw pw)) ->
  exists y, max_pool2d low kh kw stride ph pw 1 1 ceil x = Some y /\ teq y (max_pool ceil [kh; kw] [sh; sw] [ph; pw] x).
Proof.
  destruct (dflt stride kh kw) as [sh sw] eqn:Es. intros Hx A1 A2 Hlow Hodd Hceil.
  unfold max_pool2d. rewrite Es. cbn [Nat.eqb andb negb].
  assert (nth 3 (tshape (transpose [0; 2; 3; 1] x)) 0 = C) as -> by (cbn [transpose tshape]; rewrite Hx; reflexivity).
  assert (tshape (max_pool ceil [kh; kw] [sh; sw] [ph; pw] x) = [N; C; pool_out ceil h kh sh ph; pool_out ceil w kw sw pw]) as Hr.
  { unfold max_pool, torch_pool. cbn [tshape]. rewrite Hx. reflexivity. }
  pose proof A1 as (D1 & K1 & S1 & _ & _). pose proof A2 as (D2 & K2 & S2 & _ & _).
  destruct (same_pool kh kw sh sw ph pw ceil) eqn:Esame.
  - unfold same_pool in Esame. rewrite !andb_true_iff, !Nat.eqb_eq, negb_true_iff in Esame.
    destruct Esame as ((((-> & ->) & ->) & ->) & ->). destruct (Hodd eq_refl eq_refl eq_refl eq_refl eq_refl) as [O1 O2].
    eexists. split; [reflexivity|]. eapply teq4; [|exact Hr|].
    + unfold op_same, windowed. cbn [transpose tshape]. rewrite Hx. cbn [sel map nth tl removelast last same_outs app].
      rewrite (same_out_one h kh), (same_out_one w kw) by auto. reflexivity.
    + intros n c a b Hn Hc Ha Hb. cbn [transpose tget]. change (sel [n; c; a; b] (inv_perm [0; 3; 1; 2])) with [n; a; b; c].
      rewrite (op_same_pool _ _ _ _ _ _ _ (kh / 2) (kw / 2) _ _ _ _ _ _ _ _ per_channel_max Hx) by (auto using same_before_one).
      reflexivity.
  - destruct (handle_padding_spec true low x N C h w kh kw sh sw ph pw ceil Hx A1 A2) as (xp & e1 & e2 & E & P & V1 & V2 & F1 & F2 & _).
    { intro Hc. destruct (Hceil Hc); tauto. }
    rewrite E. cbn [obind]. eexists. split; [reflexivity|]. pose proof (proj1 P) as Hxp. eapply teq4; [|exact Hr|].
    + cbn [transpose tshape]. rewrite (op_valid_pool_shape _ _ _ _ _ _ _ _ _ _ Hxp), V1, V2. reflexivity.
    + intros n c a b Hn Hc Ha Hb. cbn [transpose tget]. change (sel [n; c; a; b] (inv_perm [0; 3; 1; 2])) with [n; a; b; c].
      rewrite (op_valid_pool _ _ _ _ _ _ _ _ _ _ _ _ _ _ _ _ _ _ _ _ _ per_channel_max P Hx) by (auto; congruence).
      rewrite (pool_win_max low ceil x N C h w) by auto. reflexivity.
Qed.

(** even kernels with stride 1: torch has one row more than SAME *)
Lemma max_pool2d_even : exists low x kh kw ph pw y, pool_axis 4 kh 1 ph /\ pool_axis 4 kw 1 pw /\ tshape x = [1; 1; 4; 4] /\
  (forall idx, valid (tshape x) idx -> (low <= tget x idx)%R) /\
  max_pool2d low kh kw (Some (1, 1)) ph pw 1 1 false x = Some y /\
  tshape y = [1; 1; 4; 4] /\ tshape (max_pool false [kh; kw] [1; 1] [ph; pw] x) = [1; 1; 5; 5].
Proof.
  exists 0%R, (mkT [1; 1; 4; 4] (fun _ => 1%R)), 2, 2, 1, 1. eexists. unfold pool_axis.
  split; [lia|]. split; [lia|]. split; [reflexivity|]. split; [intros; cbn; lra|]. split; [reflexivity|]. split; reflexivity.
Qed.
(** ceil mode with padding: too many rows *)
Lemma max_pool2d_ceil : exists low x y, pool_axis 6 3 2 1 /\ tshape x = [1; 1; 6; 6] /\
  (forall idx, valid (tshape x) idx -> (low <= tget x idx)%R) /\
  max_pool2d low 3 3 (Some (2, 2)) 1 1 1 1 true x = Some y /\
  tshape y = [1; 1; 5; 5] /\ tshape (max_pool true [3; 3] [2; 2] [1; 1] x) = [1; 1; 4; 4].
Proof.
  exists 0%R, (mkT [1; 1; 6; 6] (fun _ => 1%R)). eexists. unfold pool_axis.
  split; [lia|]. split; [reflexivity|]. split; [intros; cbn; lra|]. split; [reflexivity|]. split; reflexivity.
Qed.

(* ------------------------------------------------------------------ *)
(** * One-dimensional pooling *)

Lemma insert_last (l : list nat) v : insert_at (length l) v l = l ++ [v].
Proof. unfold insert_at. rewrite firstn_all, skipn_all. reflexivity. Qed.
Lemma indices_snoc1 k : indices [k; 1] = map (fun t => t ++ [0]) (indices [k]).
Proof.
  cbn [indices]. generalize (seq 0 k). intro l. induction l as [|i l IH]; [reflexivity|]. cbn in *. now rewrite IH.
Qed.
Lemma reshape_trail (x : tensor R) N C l n c i : tshape x = [N; C; l] -> n < N -> c < C -> i < l ->
  tget (reshape (tshape x ++ [1]) x) [n; c; i; 0] = tget x [n; c; i].
Proof.
  intros Hx Hn Hc Hi. pose proof (reshape_up x 3 [n; c; i]) as E. rewrite Hx in *.
  change (insert_at 3 1 [N; C; l]) with ([N; C; l] ++ [1]) in E. change (insert_at 3 0 [n; c; i]) with [n; c; i; 0] in E.
  apply E. repeat constructor; auto.
Qed.
Lemma pool_win_trail x N C l k s p n c a : tshape x = [N; C; l] -> n < N -> c < C ->
  pool_win (reshape (tshape x ++ [1]) x) [k; 1] [s; 1] [p; 0] n c [a; 0] = pool_win x [k] [s] [p] n c [a].
Proof.
  intros Hx Hn Hc. unfold pool_win. change (tshape (reshape (tshape x ++ [1]) x)) with (tshape x ++ [1]).
  rewrite indices_snoc1, map_map. pose proof (reshape_trail x N C l n c) as E. rewrite Hx in *. cbn [app] in *. apply map_ext_in. intros t Ht.
  apply indices_valid in Ht. apply valid1 in Ht. destruct Ht as (i & -> & Hi). cbn [app skipn ones map]. rewrite tap2.
  change (axis 1 0 (0 * 1 + 0)) with (Some 0). cbn [tap]. unfold axis. rewrite Nat.mul_1_r.
  destruct ((p <=? a * s + i) && (a * s + i - p <? l)) eqn:Eb; [|reflexivity]. cbn [option_map].
  apply andb_prop in Eb. destruct Eb as [_ Eb]. apply Nat.ltb_lt in Eb. rewrite E by auto. reflexivity.
Qed.

(** a two-dimensional result with a last axis of size 1 *)
Lemma teq_flat {A} (t u : tensor A) N C o : tshape t = [N; C; o; 1] -> tshape u = [N; C; o] ->
  (forall n c a, n < N -> c < C -> a < o -> tget t [n; c; a; 0] = tget u [n; c; a]) -> teq (reshape [N; C; o] t) u.
Proof.
  intros H1 H2 H. split; [cbn [reshape tshape]; auto|]. intros idx V. change (tshape (reshape [N; C; o] t)) with [N; C; o] in V.
  rewrite (reshape_down t 3 [N; C; o] idx) by auto. apply valid3 in V. destruct V as (n & c & a & -> & Hn & Hc & Ha).
  change (insert_at 3 0 [n; c; a]) with [n; c; a; 0]. auto.
Qed.

Lemma pool1d_valid {B} F (g : list (option R) -> B) x N C l k s :
  per_channel F g -> tshape x = [N; C; l] -> pool_axis l k s 0 ->
  let y := wrap_nhwc (fun xt => op_valid F (nth 3 (tshape xt) 0) [s; 1] [1; 1] [k; 1] xt) (reshape (tshape x ++ [1]) x) in
  tshape y = [N; C; pool_out false l k s 0; 1] /\
  forall n c a, n < N -> c < C -> a < pool_out false l k s 0 -> tget y [n; c; a; 0] = g (pool_win x [k] [s] [0] n c [a]).
Proof.
  intros HF Hx A y. set (x4 := reshape (tshape x ++ [1]) x) in *. pose proof A as (D & K & S1 & _ & _).
  assert (tshape x4 = [N; C; l; 1]) as Hx4 by (unfold x4; cbn [reshape tshape]; rewrite Hx; reflexivity).
  assert (pool_axis 1 1 1 0) as A1 by (unfold pool_axis; lia).
  pose proof (pad_of_start 0%R x4 N C l 1 Hx4) as P. pose proof (proj1 P) as Hxp.
  pose proof (valid_out_sym _ _ _ _ A) as V1. pose proof (valid_out_sym _ _ _ _ A1) as V2. split.
  - unfold y, wrap_nhwc. cbn [transpose tshape]. rewrite Hx4. cbn [sel map nth].
    rewrite (op_valid_pool_shape _ _ N C (0 + l + 0) (0 + 1 + 0)); [rewrite V1; reflexivity|exact Hxp].
  - intros n c a Hn Hc Ha. unfold y, wrap_nhwc. cbn [transpose tget tshape]. change (sel [n; c; a; 0] (inv_perm [0; 3; 1; 2])) with [n; a; 0; c].
    rewrite Hx4. cbn [sel map nth].
    rewrite (op_valid_pool _ _ _ _ _ _ _ _ _ _ _ _ _ _ _ _ _ n a 0 c HF P Hx4);
      [|lia|lia|lia|lia|destruct A; lia|lia|auto|auto|rewrite V1; auto|rewrite V2; cbn; lia].
    unfold x4. rewrite (pool_win_trail x N C l) by auto. f_equal.
    unfold pool_win. rewrite map_map. apply map_ext_in. intros t Ht. apply indices_valid in Ht. apply valid1 in Ht. destruct Ht as (i & -> & Hi).
    rewrite Hx. cbn [skipn ones map tap Nat.leb andb]. rewrite Nat.mul_1_r, Nat.sub_0_r.
    rewrite <- V1 in Ha. pose proof (valid_out_fit (0 + l + 0) s k a i K S1 ltac:(destruct A; lia) Ha Hi) as L.
    destruct (Nat.ltb_spec (a * s + i) l); [reflexivity|lia].
Qed.

Theorem max_pool1d_correct k stride p ceil x N C l :
  let s := match stride with Some s => s | None => k end in
  tshape x = [N; C; l] -> pool_axis l k s p -> ceil = false ->
  p = 0 \/ (s = 1 /\ p = k / 2 /\ Nat.odd k = true) ->
  let ref := max_pool ceil [k] [s] [p] x in
  exists y, max_pool1d k stride p 1 ceil (tshape ref) x = Some y /\ teq y ref.
Proof.
  intros s Hx A -> Hp ref. unfold max_pool1d. fold s. cbn [Nat.eqb negb].
  pose proof A as (D & K & S1 & _ & _).
  assert (tshape ref = [N; C; pool_out false l k s p]) as Hr by (unfold ref, max_pool, torch_pool; cbn [tshape]; rewrite Hx; reflexivity).
  set (x4 := reshape (tshape x ++ [1]) x).
  assert (tshape x4 = [N; C; l; 1]) as Hx4 by (unfold x4; cbn [reshape tshape]; rewrite Hx; reflexivity).
  assert (pool_axis 1 1 1 0) as A1 by (unfold pool_axis; lia).
  rewrite Hr. destruct (same_pool k 1 s 1 p 0 false) eqn:Esame.
  - unfold same_pool in Esame. rewrite !andb_true_iff, !Nat.eqb_eq in Esame. destruct Esame as ((((Es & _) & Ep) & _) & _).
    assert (Nat.odd k = true) as Ho.
    { destruct Hp as [->|(_ & _ & Ho)]; [|exact Ho]. destruct k as [|[|k]]; [lia|reflexivity|].
      exfalso. change (S (S k)) with (2 + k) in Ep. rewrite <- (Nat.mul_1_l 2) in Ep at 1. rewrite Nat.div_add_l in Ep by lia. lia. }
    rewrite Es, Ep in *. eexists. split; [reflexivity|]. eapply teq_flat; [|exact Hr|].
    + unfold wrap_nhwc, op_same, windowed. cbn [transpose tshape]. rewrite Hx4. cbn [sel map nth tl removelast last same_outs app].
      rewrite (same_out_one l k) by auto. reflexivity.
    + intros n c a Hn Hc Ha. unfold wrap_nhwc. cbn [transpose tget tshape]. change (sel [n; c; a; 0] (inv_perm [0; 3; 1; 2])) with [n; a; 0; c].
      rewrite Hx4. cbn [sel map nth].
      rewrite (op_same_pool _ _ _ _ _ _ _ (k / 2) 0 _ _ _ _ _ _ _ _ per_channel_max Hx4) by (auto using same_before_one).
      unfold x4. rewrite (pool_win_trail x N C l) by auto. unfold ref, max_pool, torch_pool. rewrite Es, Ep. reflexivity.
  - assert (p = 0) as Ep.
    { destruct Hp as [Hp|(E1 & E2 & _)]; [exact Hp|]. exfalso. unfold same_pool in Esame. rewrite E1, E2, !Nat.eqb_refl in Esame. discriminate. }
    destruct (pool1d_valid _ _ x N C l k s per_channel_max Hx) as [Ys Yg]; [rewrite <- Ep; exact A|].
    rewrite Ep in *. cbn [handle_padding_1d Nat.ltb Nat.leb obind]. eexists. split; [reflexivity|].
    eapply teq_flat; [exact Ys|exact Hr|]. intros n c a Hn Hc Ha. unfold x4. rewrite Yg by auto.
    unfold ref, max_pool, torch_pool. rewrite Ep. reflexivity.
Qed.
(** otherwise the channels are padded *)
Lemma max_pool1d_pad : exists x y, pool_axis 5 3 2 1 /\ tshape x = [1; 4; 5] /\
  let ref := max_pool false [3] [2] [1] x in
  max_pool1d 3 (Some 2) 1 1 false (tshape ref) x = Some y /\ tshape y = tshape ref /\ tshape y = [1; 4; 3] /\
  tget y [0; 0; 0] = Some 0%R /\ tget ref [0; 0; 0] = Some 1%R.
Proof.
  exists (mkT [1; 4; 5] (fun _ => 1%R)). eexists. unfold pool_axis. split; [lia|]. split; [reflexivity|]. cbv zeta. split; [reflexivity|].
  split; [reflexivity|]. split; [reflexivity|]. split.
  - transitivity (Some (Rmax 0 (Rmax 0 0))); [cbv -[Rmax IZR]; reflexivity|]. rewrite !(Rmax_left 0 0) by lra. reflexivity.
  - transitivity (Some (Rmax 1 1)); [cbv -[Rmax IZR]; reflexivity|]. rewrite !Rmax_left by lra. reflexivity.
Qed.

(* ------------------------------------------------------------------ *)
(** * Average pooling *)

Lemma per_channel_avg : per_channel avgpool_kernel (fun w => (lsum w val0 / INR (count_some w))%R).
Proof. intros o win. reflexivity. Qed.
Lemma count_fill {A} (v : A) w : count_some (map (fill v) w) = length w.
Proof. unfold count_some. induction w as [|e w IH]; [reflexivity|]. cbn in *. now rewrite IH. Qed.
Lemma sum_fill w : lsum (map (fill 0%R) w) val0 = lsum w val0.
Proof. rewrite lsum_map. apply lsum_ext. intros [v|] _; reflexivity. Qed.
Lemma count_all {A} (l : list (option A)) : (forall o, In o l -> o <> None) -> count_some l = length l.
Proof.
  unfold count_some. induction l as [|e l IH]; [reflexivity|]. intro H. cbn [filter].
  destruct e as [a|]; [|exfalso; apply (H None); simpl; auto]. cbn [is_some length]. rewrite IH; [reflexivity|]. intros; apply H; simpl; auto.
Qed.
Lemma count_pos {A} (l : list (option A)) a : In (Some a) l -> 0 < count_some l.
Proof.
  intro H. unfold count_some. assert (In (Some a) (filter is_some l)) as F by (apply filter_In; auto).
  destruct (filter is_some l); [destruct F|cbn; lia].
Qed.
Lemma indices_length s : length (indices s) = prod s.
Proof.
  induction s as [|d s IH]; [reflexivity|]. cbn [indices prod].
  assert (forall l, length (flat_map (fun i => map (cons i) (indices s)) l) = length l * prod s) as E.
  { induction l as [|i l IHl]; [reflexivity|]. cbn. rewrite app_length, map_length, IH, IHl. reflexivity. }
  rewrite E, seq_length. reflexivity.
Qed.

Lemma padded_taps_full h w k1 k2 s1 s2 p1 p2 a b :
  pool_axis h k1 s1 p1 -> pool_axis w k2 s2 p2 -> a < pool_out false h k1 s1 p1 -> b < pool_out false w k2 s2 p2 ->
  padded_taps [h; w] [k1; k2] [s1; s2] [p1; p2] [a; b] = k1 * k2.
Proof.
  intros A1 A2 Ha Hb. unfold padded_taps. rewrite count_all.
  - rewrite map_length, indices_length. cbn [prod]. lia.
  - intros o Ho. apply in_map_iff in Ho. destruct Ho as (t & <- & Ht). apply indices_valid in Ht. apply valid2 in Ht.
    destruct Ht as (t1 & t2 & -> & T1 & T2). cbn [zip_padded ones map]. rewrite tap2.
    pose proof A1 as (D1 & K1 & S1 & _ & F1). pose proof A2 as (D2 & K2 & S2 & _ & F2).
    rewrite <- valid_out_sym in Ha, Hb by auto.
    pose proof (valid_out_fit (p1 + h + p1) s1 k1 a t1 K1 S1 ltac:(lia) Ha T1). pose proof (valid_out_fit (p2 + w + p2) s2 k2 b t2 K2 S2 ltac:(lia) Hb T2).
    rewrite !axis_in by lia. discriminate.
Qed.

(** the window of the tensor of ones counts the taps in the operand *)
Lemma pool_win_ones x ks stride pad n c pos :
  lsum (pool_win (mkT (tshape x) (fun _ => 1%R)) ks stride pad n c pos) val0 = INR (count_some (pool_win x ks stride pad n c pos)).
Proof.
  unfold pool_win, count_some. cbn [tshape tget]. generalize (indices ks). intro l. induction l as [|t l IH]; [reflexivity|].
  cbn [map filter]. rewrite lsum_cons, IH. destruct (tap _ _ _ _ _ t); cbn [option_map val0 is_some].
  - cbn [length]. rewrite S_INR. ring.
  - ring.
Qed.

Lemma pool_win_length x k1 k2 stride pad n c pos : length (pool_win x [k1; k2] stride pad n c pos) = k1 * k2.
Proof. unfold pool_win. rewrite map_length, indices_length. cbn [prod]. lia. Qed.

Lemma pool_win_count ceil x N C h w k1 k2 s1 s2 p1 p2 n c a b :
  tshape x = [N; C; h; w] -> pool_axis h k1 s1 p1 -> pool_axis w k2 s2 p2 ->
  a < pool_out ceil h k1 s1 p1 -> b < pool_out ceil w k2 s2 p2 ->
  0 < count_some (pool_win x [k1; k2] [s1; s2] [p1; p2] n c [a; b]).
Proof.
  intros Hx A1 A2 Ha Hb.
  destruct (pool_hit _ _ _ _ _ _ A1 Ha) as (t1 & T1 & T1a & T1b). destruct (pool_hit _ _ _ _ _ _ A2 Hb) as (t2 & T2 & T2a & T2b).
  apply count_pos with (a := tget x [n; c; a * s1 + t1 - p1; b * s2 + t2 - p2]).
  unfold pool_win. rewrite Hx. apply in_map_iff. exists [t1; t2]. split; [|apply indices_valid; repeat constructor; auto].
  cbn [skipn ones map]. rewrite tap2. unfold axis.
  destruct (Nat.leb_spec p1 (a * s1 + t1)); [|lia]. destruct (Nat.ltb_spec (a * s1 + t1 - p1) h); [|lia].
  destruct (Nat.leb_spec p2 (b * s2 + t2)); [|lia]. destruct (Nat.ltb_spec (b * s2 + t2 - p2) w); [|lia]. reflexivity.
Qed.

Theorem avg_pool2d_correct kh kw stride ph pw ceil include x N C h w :
  let '(sh, sw) := dflt stride kh kw in
  tshape x = [N; C; h; w] -> pool_axis h kh sh ph -> pool_axis w kw sw pw ->
  (ceil = true -> (h + 2 * ph - kh) mod sh = 0 /\ (w + 2 * pw - kw) mod sw = 0) ->
  exists y, avg_pool2d kh kw stride ph pw ceil include None x = Some y /\
            teq y (avg_pool include None ceil [kh; kw] [sh; sw] [ph; pw] x).
Proof.
  destruct (dflt stride kh kw) as [sh sw] eqn:Es. intros Hx A1 A2 Hceil.
  unfold avg_pool2d. rewrite Es.
  assert (nth 3 (tshape (transpose [0; 2; 3; 1] x)) 0 = C) as -> by (cbn [transpose tshape]; rewrite Hx; reflexivity).
  pose proof A1 as (D1 & K1 & S1 & _ & _). pose proof A2 as (D2 & K2 & S2 & _ & _).
  assert (pool_out ceil h kh sh ph = pool_out false h kh sh ph) as O1.
  { destruct ceil; [|reflexivity]. apply pool_out_div; auto. apply Hceil; auto. }
  assert (pool_out ceil w kw sw pw = pool_out false w kw sw pw) as O2.
  { destruct ceil; [|reflexivity]. apply pool_out_div; auto. apply Hceil; auto. }
  destruct (handle_padding_spec false 0%R x N C h w kh kw sh sw ph pw ceil Hx A1 A2) as (xp & e1 & e2 & E & P & V1 & V2 & F1 & F2 & _).
  { intro Hc. left. auto. }
  rewrite E. cbn [obind]. pose proof (proj1 P) as Hxp. cbv iota in P.
  set (y := op_valid avgpool_kernel C [sh; sw] [1; 1] [kh; kw] xp).
  set (oh := pool_out ceil h kh sh ph) in *. set (ow := pool_out ceil w kw sw pw) in *.
  assert (tshape y = [N; oh; ow; C]) as Hy by (unfold y; rewrite (op_valid_pool_shape _ _ _ _ _ _ _ _ _ _ Hxp), V1, V2; reflexivity).
  assert (forall inc, tshape (avg_pool inc None ceil [kh; kw] [sh; sw] [ph; pw] x) = [N; C; oh; ow]) as Hr.
  { intro inc. unfold avg_pool, torch_pool. cbn [tshape]. rewrite Hx. reflexivity. }
  assert (forall n c a b, n < N -> c < C -> a < oh -> b < ow ->
            tget y [n; a; b; c] = (lsum (pool_win x [kh; kw] [sh; sw] [ph; pw] n c [a; b]) val0 / INR (kh * kw))%R) as Yg.
  { intros n c a b Hn Hc Ha Hb. unfold y.
    rewrite (op_valid_pool _ _ _ _ _ _ _ _ _ _ _ _ _ _ _ _ _ _ _ _ _ per_channel_avg P Hx) by (auto; congruence).
    rewrite sum_fill, count_fill, pool_win_length. reflexivity. }
  assert (forall n c a b, n < N -> c < C -> a < oh -> b < ow -> padded_taps [h; w] [kh; kw] [sh; sw] [ph; pw] [a; b] = kh * kw) as Pt.
  { intros n c a b _ _ Ha Hb. apply padded_taps_full; auto; congruence. }
  destruct include.
  - eexists. split; [reflexivity|]. eapply teq4; [|apply Hr|].
    + cbn [transpose tshape]. rewrite Hy. reflexivity.
    + intros n c a b Hn Hc Ha Hb. cbn [transpose tget]. change (sel [n; c; a; b] (inv_perm [0; 3; 1; 2])) with [n; a; b; c].
      rewrite Yg by auto. unfold avg_pool, torch_pool. cbn [tget]. rewrite Hx. cbn [skipn nth]. rewrite (Pt n c) by auto. reflexivity.
  - set (mask := tmap _ _). assert (tshape (transpose [0; 2; 3; 1] mask) = [N; oh; ow; C]) as Hm.
    { unfold mask, tmap, avg_pool, torch_pool. cbn [transpose tshape]. rewrite Hx. reflexivity. }
    unfold binop. rewrite Hy, Hm, bshape_self. cbn [obind]. eexists. split; [reflexivity|]. eapply teq4; [|apply Hr|].
    + reflexivity.
    + intros n c a b Hn Hc Ha Hb. cbn [transpose tget]. change (sel [n; c; a; b] (inv_perm [0; 3; 1; 2])) with [n; a; b; c].
      rewrite !bidx_self by (repeat constructor; auto). rewrite Yg by auto.
      change (sel [n; a; b; c] (inv_perm [0; 2; 3; 1])) with [n; c; a; b].
      unfold mask, tmap, avg_pool, torch_pool. cbn [tget skipn nth]. rewrite pool_win_ones. cbn [tshape]. rewrite Hx. cbn [skipn].
      rewrite (Pt n c) by auto.
      pose proof (pool_win_count ceil x N C h w kh kw sh sw ph pw n c a b Hx A1 A2 Ha Hb) as Hcnt.
      set (cnt := count_some _) in *. assert (INR cnt <> 0)%R by (apply not_0_INR; lia).
      assert (INR (kh * kw) <> 0)%R by (apply not_0_INR; nia). field. auto.
Qed.

Lemma avg_pool2d_ceil kh kw stride ph pw include override x N C h w :
  let '(sh, sw) := dflt stride kh kw in
  tshape x = [N; C; h; w] -> pool_axis h kh sh ph -> pool_axis w kw sw pw ->
  (h + 2 * ph - kh) mod sh <> 0 \/ (w + 2 * pw - kw) mod sw <> 0 ->
  avg_pool2d kh kw stride ph pw true include override x = None.
Proof.
  destruct (dflt stride kh kw) as [sh sw] eqn:Es. intros Hx A1 A2 Hd. unfold avg_pool2d. rewrite Es.
  destruct (match override with None => _ | Some _ => _ end); [reflexivity|].
  unfold handle_padding. cbn [transpose tshape]. rewrite Hx. cbn [sel map nth]. rewrite !divisible_nat by auto.
  destruct (Nat.eqb_spec ((h + 2 * ph - kh) mod sh) 0), (Nat.eqb_spec ((w + 2 * pw - kw) mod sw) 0); try reflexivity. tauto.
Qed.

(** an accepted divisor divides twice *)
Lemma avg_pool2d_divisor_rejected kh kw stride ph pw ceil include d x :
  (exists y, avg_pool2d kh kw stride ph pw ceil include (Some d) x = Some y) ->
  d = kh /\ kh = kw /\
  avg_pool2d kh kw stride ph pw ceil include (Some d) x = avg_pool2d kh kw stride ph pw ceil include None x.
Proof.
  unfold avg_pool2d. destruct (dflt stride kh kw) as [sh sw]. intros [y Hy].
  destruct (Nat.eqb_spec d kh) as [E1 | E1]; [| discriminate].
  destruct (Nat.eqb_spec kh kw) as [E2 | E2]; [| discriminate].
  repeat split; assumption.
Qed.

Lemma avg_pool2d_divisor : exists x y, tshape x = [1; 1; 2; 2] /\ pool_axis 2 2 2 0 /\
  avg_pool2d 2 2 None 0 0 false true (Some 2) x = Some y /\
  tget y [0; 0; 0; 0] = 1%R /\ tget (avg_pool true (Some 2) false [2; 2] [2; 2] [0; 0] x) [0; 0; 0; 0] = 2%R.
Proof.
  exists (mkT [1; 1; 2; 2] (fun _ => 1%R)). eexists. split; [reflexivity|]. split; [unfold pool_axis; lia|]. split; [reflexivity|].
  split; cbv -[Rplus Rmult Rdiv Rinv IZR]; field.
Qed.

Theorem avg_pool1d_correct k stride x N C l :
  let s := match stride with Some s => s | None => k end in
  tshape x = [N; C; l] -> pool_axis l k s 0 ->
  let ref := avg_pool true None false [k] [s] [0] x in
  exists y, avg_pool1d k stride 0 false true (tshape ref) x = Some y /\ teq y ref.
Proof.
  intros s Hx A ref. unfold avg_pool1d. fold s. cbn [handle_padding_1d Nat.ltb Nat.leb obind negb].
  assert (tshape ref = [N; C; pool_out false l k s 0]) as Hr by (unfold ref, avg_pool, torch_pool; cbn [tshape]; rewrite Hx; reflexivity).
  destruct (pool1d_valid _ _ x N C l k s per_channel_avg Hx A) as [Ys Yg]. rewrite Hr. eexists. split; [reflexivity|].
  eapply teq_flat; [exact Ys|exact Hr|]. intros n c a Hn Hc Ha. rewrite Yg by auto.
  unfold ref, avg_pool, torch_pool. cbn [tget]. rewrite Hx. cbn [skipn nth]. do 2 f_equal.
  unfold pool_win, padded_taps, count_some. rewrite Hx. cbn [skipn zip_padded]. rewrite Nat.mul_0_r, Nat.add_0_r. cbn [map ones].
  generalize (indices [k]). intro L. induction L as [|t L IH]; [reflexivity|]. cbn [map filter].
  destruct (tap [l] [s] [1] [0] [a] t); cbn [option_map is_some length]; auto.
Qed.
Lemma avg_pool1d_pad : exists x y, pool_axis 5 3 2 1 /\ tshape x = [1; 4; 5] /\
  let ref := avg_pool true None false [3] [2] [1] x in
  avg_pool1d 3 (Some 2) 1 false true (tshape ref) x = Some y /\ tshape y = tshape ref /\ tshape y = [1; 4; 3] /\
  tget y [0; 0; 0] = 0%R /\ tget ref [0; 0; 0] = (2 / 3)%R.
Proof.
  exists (mkT [1; 4; 5] (fun _ => 1%R)). eexists. unfold pool_axis. split; [lia|]. split; [reflexivity|]. cbv zeta. split; [reflexivity|].
  split; [reflexivity|]. split; [reflexivity|]. split; cbv -[Rplus Rmult Rdiv Rinv IZR]; field.
Qed.

(* ------------------------------------------------------------------ *)
(** * Adaptive pooling *)

Lemma filter_map {A B} (f : A -> B) p l : filter p (map f l) = map f (filter (fun a => p (f a)) l).
Proof. induction l as [|a l IH]; [reflexivity|]. cbn. destruct (p (f a)); cbn; now rewrite IH. Qed.
Lemma filter_flat {A B} (f : A -> list B) p l : filter p (flat_map f l) = flat_map (fun a => filter p (f a)) l.
Proof. induction l as [|a l IH]; [reflexivity|]. cbn. now rewrite filter_app, IH. Qed.
Lemma filter_none {A} (p : A -> bool) l : (forall a, In a l -> p a = false) -> filter p l = [].
Proof. induction l as [|a l IH]; intro H; [reflexivity|]. cbn. rewrite H by (simpl; auto). apply IH. intros; apply H; simpl; auto. Qed.
Lemma flat_map_ext_in {A B} (f g : A -> list B) l : (forall a, In a l -> f a = g a) -> flat_map f l = flat_map g l.
Proof. induction l as [|a l IH]; intro H; [reflexivity|]. cbn. rewrite H, IH; simpl; auto. intros; apply H; simpl; auto. Qed.
Lemma flat_map_delta {B} n N (f : nat -> list B) : n < N -> (forall i, i <> n -> f i = []) -> flat_map f (seq 0 N) = f n.
Proof.
  intros Hn H. assert (forall m st, st <= n < st + m -> flat_map f (seq st m) = f n) as E; [|apply E; lia].
  assert (forall m st, n < st -> flat_map f (seq st m) = []) as Z.
  { induction m as [|m IH]; intros st L; [reflexivity|]. cbn [seq flat_map]. rewrite H by lia. apply IH. lia. }
  induction m as [|m IH]; intros st L; [lia|]. cbn [seq flat_map]. destruct (Nat.eq_dec st n) as [->|Ne].
  - rewrite Z by lia. apply app_nil_r.
  - rewrite H by auto. apply IH. lia.
Qed.
Lemma filter_head_eq P n N L (Q : list nat -> bool) : n < N -> (forall i r, In r L -> P (i :: r) = (n =? i) && Q r) ->
  filter P (flat_map (fun i => map (cons i) L) (seq 0 N)) = map (cons n) (filter Q L).
Proof.
  intros Hn H. rewrite filter_flat. rewrite (flat_map_delta n N).
  2: exact Hn.
  2: { intros i Hi. apply filter_none. intros r Hr. apply in_map_iff in Hr. destruct Hr as (r' & <- & Hr).
       rewrite H by auto. destruct (Nat.eqb_spec n i); [congruence|reflexivity]. }
  rewrite filter_map. f_equal. apply filter_ext_in. intros r Hr. rewrite H, Nat.eqb_refl by auto. reflexivity.
Qed.
Lemma filter_head_any P N L (Q : list nat -> bool) : (forall i r, In r L -> P (i :: r) = Q r) ->
  filter P (flat_map (fun i => map (cons i) L) (seq 0 N)) = flat_map (fun i => map (cons i) (filter Q L)) (seq 0 N).
Proof.
  intro H. rewrite filter_flat. apply flat_map_ext_in. intros i _. rewrite filter_map. f_equal. apply filter_ext_in. intros r Hr. auto.
Qed.
Lemma agree_12 n c i a b k : agree_off [1; 2] [n; 0; 0; c] [i; a; b; k] = (n =? i) && (c =? k).
Proof. unfold agree_off. cbn. destruct (n =? i); cbn; [|reflexivity]. now rewrite andb_true_r. Qed.
Lemma reduce_cells N h w C n c : n < N -> c < C ->
  filter (agree_off [1; 2] [n; 0; 0; c]) (indices [N; h; w; C]) = map (fun q => n :: q ++ [c]) (indices [h; w]).
Proof.
  intros Hn Hc. change (indices [N; h; w; C]) with (flat_map (fun i => map (cons i) (indices [h; w; C])) (seq 0 N)).
  rewrite (filter_head_eq _ n N _ (fun r => c =? nth 2 r 0)).
  2: exact Hn.
  2: { intros i r Hr. apply indices_valid in Hr. apply valid3 in Hr. destruct Hr as (a & b & k & -> & _). apply agree_12. }
  change (indices [h; w; C]) with (flat_map (fun i => map (cons i) (indices [w; C])) (seq 0 h)).
  rewrite (filter_head_any _ h _ (fun r => c =? nth 1 r 0)) by
    (intros i r Hr; apply indices_valid in Hr; apply valid2 in Hr; destruct Hr as (b & k & -> & _); reflexivity).
  change (indices [w; C]) with (flat_map (fun i => map (cons i) (indices [C])) (seq 0 w)).
  rewrite (filter_head_any _ w _ (fun r => c =? nth 0 r 0)) by
    (intros i r Hr; apply indices_valid in Hr; apply valid1 in Hr; destruct Hr as (k & -> & _); reflexivity).
  change (indices [C]) with (flat_map (fun i => map (cons i) (indices [])) (seq 0 C)).
  rewrite (filter_head_eq _ c C _ (fun _ => true)) by (auto; intros i r Hr; cbn; now rewrite andb_true_r).
  change (map (cons c) (filter (fun _ : list nat => true) (indices []))) with [[c]].
  change (indices [h; w]) with (flat_map (fun i => map (cons i) (indices [w])) (seq 0 h)).
  rewrite !flat_map_concat_map, !concat_map, !map_map. f_equal. apply map_ext. intro i. rewrite !map_map.
  change (indices [w]) with (flat_map (fun i => map (cons i) (indices [])) (seq 0 w)).
  rewrite !flat_map_concat_map, !concat_map, !map_map. f_equal.
Qed.

Lemma seq_shift_add m n : seq m n = map (Nat.add m) (seq 0 n).
Proof.
  revert m. induction n as [|n IH]; intro m; [reflexivity|]. cbn [seq map]. rewrite Nat.add_0_r. f_equal.
  rewrite IH, (IH 1), map_map. apply map_ext. intro i. lia.
Qed.
Lemma ad_range d o i s : 0 < o -> d = o * s -> ad_start d o i = i * s /\ ad_end d o i - ad_start d o i = s.
Proof.
  intros Ho ->. unfold ad_start, ad_end, cdiv.
  replace (i * (o * s)) with (i * s * o) by lia. rewrite Nat.div_mul by lia.
  replace ((S i * (o * s) + o - 1) / o) with (S i * s); [lia|]. symmetry. apply div_unique_le; nia.
Qed.
Lemma ad_cells2 h w oh ow s1 s2 a b : 0 < oh -> 0 < ow -> h = oh * s1 -> w = ow * s2 ->
  ad_cells [h; w] [oh; ow] [a; b] = map (zip_plus [a * s1; b * s2]) (indices [s1; s2]).
Proof.
  intros O1 O2 H1 H2. cbn [ad_cells]. destruct (ad_range h oh a s1 O1 H1) as [-> ->]. destruct (ad_range w ow b s2 O2 H2) as [-> ->].
  rewrite (seq_shift_add (a * s1)), (seq_shift_add (b * s2)). cbn [indices].
  rewrite !flat_map_concat_map, !concat_map, !map_map. f_equal. apply map_ext. intro i.
  rewrite !map_map. rewrite !concat_map, !map_map. reflexivity.
Qed.

(** the reduction and the pooling kernel agree *)
Definition agrees {B} (g : list (option R) -> B) (red : list R -> B) : Prop := forall l, g (map Some l) = red l.
Lemma agrees_mean : agrees (fun w => (lsum w val0 / INR (count_some w))%R) mean.
Proof.
  intro l. unfold mean. rewrite lsum_map. rewrite count_all, map_length; [reflexivity|].
  intros o Ho. apply in_map_iff in Ho. destruct Ho as (v & <- & _). discriminate.
Qed.
Lemma agrees_max : agrees (fold_right omax None) lmax.
Proof. intro l. unfold lmax. induction l as [|v l IH]; [reflexivity|]. cbn [map fold_right]. now rewrite IH. Qed.

Theorem adaptive2d_correct {B} red kernel (g : list (option R) -> B) oh ow x N C h w :
  per_channel kernel g -> agrees g red -> tshape x = [N; C; h; w] -> 0 < oh -> 0 < ow -> 0 < h -> 0 < w ->
  h mod oh = 0 -> w mod ow = 0 ->
  exists y, adaptive2d red kernel oh ow x = Some y /\ teq y (adaptive red [oh; ow] x).
Proof.
  intros HF Hg Hx O1 O2 Hh Hw M1 M2. unfold adaptive2d. rewrite Hx. cbn [nth]. rewrite M1, M2, !Nat.eqb_refl. cbn [andb negb].
  apply Nat.mod_divides in M1; [|lia]. apply Nat.mod_divides in M2; [|lia]. destruct M1 as (s1 & E1). destruct M2 as (s2 & E2).
  assert (h / oh = s1) as D1 by (rewrite E1, Nat.mul_comm, Nat.div_mul; lia).
  assert (w / ow = s2) as D2 by (rewrite E2, Nat.mul_comm, Nat.div_mul; lia). rewrite D1, D2.
  assert (h - (oh - 1) * s1 = s1) as -> by nia. assert (w - (ow - 1) * s2 = s2) as -> by nia.
  assert (0 < s1 /\ 0 < s2) as [P1 P2] by nia.
  assert (tshape (adaptive red [oh; ow] x) = [N; C; oh; ow]) as Hr by (unfold adaptive; cbn [tshape]; rewrite Hx; reflexivity).
  eexists. split; [reflexivity|]. unfold wrap_nhwc.
  assert (tshape (transpose [0; 2; 3; 1] x) = [N; h; w; C]) as Hxt by (cbn [transpose tshape]; rewrite Hx; reflexivity).
  assert (valid_out h s1 1 s1 = oh) as V1 by (unfold valid_out; rewrite (div_unique_le _ _ (oh - 1)); nia).
  assert (valid_out w s2 1 s2 = ow) as V2 by (unfold valid_out; rewrite (div_unique_le _ _ (ow - 1)); nia).
  destruct ((oh =? 1) && (ow =? 1)) eqn:Eo.
  - apply andb_prop in Eo. destruct Eo as [Eo1 Eo2]. apply Nat.eqb_eq in Eo1, Eo2. clear V1 V2. subst oh ow.
    assert (h = s1 /\ w = s2) as [-> ->] by lia.
    eapply teq4; [|exact Hr|].
    + unfold reduce. cbn [transpose tshape]. rewrite Hx. reflexivity.
    + intros n c a b Hn Hc Ha Hb. assert (a = 0 /\ b = 0) as [-> ->] by lia.
      cbn [transpose tget]. change (sel [n; c; 0; 0] (inv_perm [0; 3; 1; 2])) with [n; 0; 0; c].
      unfold reduce. cbn [tget]. rewrite Hxt, reduce_cells, map_map by auto.
      unfold adaptive. cbn [tget]. rewrite Hx. cbn [nth skipn]. rewrite (ad_cells2 s1 s2 1 1 s1 s2) by lia. rewrite map_map.
      f_equal. apply map_ext_in. intros q Hq. apply indices_valid in Hq. apply valid2 in Hq. destruct Hq as (i & j & -> & _). reflexivity.
  - rewrite Hxt. cbn [nth]. eapply teq4; [|exact Hr|].
    + change (sel (tshape (op_valid kernel C [s1; s2] [1; 1] [s1; s2] (transpose [0; 2; 3; 1] x))) [0; 3; 1; 2] = [N; C; oh; ow]).
      rewrite (op_valid_pool_shape _ _ N C h w _ _ _ _ Hxt), V1, V2. reflexivity.
    + intros n c a b Hn Hc Ha Hb. cbn [transpose tget]. change (sel [n; c; a; b] (inv_perm [0; 3; 1; 2])) with [n; a; b; c].
      pose proof (pad_of_start 0%R x N C h w Hx) as P.
      rewrite (op_valid_pool _ _ _ _ _ _ _ _ _ _ _ _ _ _ _ _ _ _ _ _ _ HF P Hx);
        [|lia|lia|lia|lia|nia|nia|auto|auto|cbn [Nat.add]; rewrite Nat.add_0_r, V1; auto|cbn [Nat.add]; rewrite Nat.add_0_r, V2; auto].
      unfold adaptive. cbn [tget]. rewrite Hx. cbn [nth skipn]. rewrite (ad_cells2 h w oh ow s1 s2) by auto. rewrite map_map.
      rewrite <- Hg. f_equal. rewrite map_map. unfold pool_win. rewrite Hx, map_map. apply map_ext_in. intros t Ht.
      apply indices_valid in Ht. apply valid2 in Ht. destruct Ht as (i & j & -> & Hi & Hj). cbn [skipn ones map]. rewrite tap2.
      rewrite !axis_in by nia. reflexivity.
Qed.

Lemma ad_cells_trail l o a : ad_cells [l; 1] [o; 1] [a; 0] = map (fun q => q ++ [0]) (ad_cells [l] [o] [a]).
Proof.
  cbn [ad_cells]. change (seq (ad_start 1 1 0) (ad_end 1 1 0 - ad_start 1 1 0)) with [0]. cbn [flat_map map app].
  rewrite !flat_map_concat_map, !concat_map, !map_map. reflexivity.
Qed.
Theorem adaptive1d_correct {B} red kernel (g : list (option R) -> B) o x N C l :
  per_channel kernel g -> agrees g red -> tshape x = [N; C; l] -> 0 < o -> 0 < l -> l mod o = 0 ->
  let ref := adaptive red [o] x in
  exists y, adaptive1d red kernel o (tshape ref) x = Some y /\ teq y ref.
Proof.
  intros HF Hg Hx Ho Hl M ref. unfold adaptive1d. set (x4 := reshape (tshape x ++ [1]) x).
  assert (tshape x4 = [N; C; l; 1]) as Hx4 by (unfold x4; cbn [reshape tshape]; rewrite Hx; reflexivity).
  destruct (adaptive2d_correct red kernel g o 1 x4 N C l 1 HF Hg Hx4 Ho Nat.lt_0_1 Hl Nat.lt_0_1 M eq_refl) as (y & E & Ty).
  rewrite E. cbn [obind]. eexists. split; [reflexivity|].
  assert (tshape ref = [N; C; o]) as Hr by (unfold ref, adaptive; cbn [tshape]; rewrite Hx; reflexivity). rewrite Hr.
  assert (tshape y = [N; C; o; 1]) as Hy by (destruct Ty as [Ts _]; rewrite Ts; unfold adaptive; cbn [tshape]; rewrite Hx4; reflexivity).
  eapply teq_flat; [exact Hy|exact Hr|]. intros n c a Hn Hc Ha. destruct Ty as [_ Tg].
  rewrite Tg by (rewrite Hy; repeat constructor; auto). unfold ref, adaptive. cbn [tget]. rewrite Hx4, Hx. cbn [nth skipn].
  rewrite ad_cells_trail, map_map. f_equal. apply map_ext_in. intros q Hq.
  cbn [ad_cells] in Hq. apply in_flat_map in Hq. destruct Hq as (i & Hi & [<-|[]]). apply in_seq in Hi. cbn [app]. unfold x4.
  apply (reshape_trail x N C l); auto.
  apply Nat.mod_divides in M; [|lia]. destruct M as (s & Es). destruct (ad_range l o a s Ho Es) as [R1 R2]. rewrite R2, R1 in Hi. nia.
Qed.
Lemma adaptive2d_rejects {B} red kernel oh ow x N C h w : tshape x = [N; C; h; w] -> h mod oh <> 0 \/ w mod ow <> 0 ->
  adaptive2d (B := B) red kernel oh ow x = None.
Proof.
  intros Hx H. unfold adaptive2d. rewrite Hx. cbn [nth].
  destruct (Nat.eqb_spec (h mod oh) 0), (Nat.eqb_spec (w mod ow) 0); try reflexivity. tauto.
Qed.
Definition adaptive_avg2d_correct oh ow x N C h w := adaptive2d_correct mean avgpool_kernel _ oh ow x N C h w per_channel_avg agrees_mean.
Definition adaptive_max2d_correct oh ow x N C h w := adaptive2d_correct lmax maxpool_kernel _ oh ow x N C h w per_channel_max agrees_max.
Definition adaptive_avg1d_correct o x N C l := adaptive1d_correct mean avgpool_kernel _ o x N C l per_channel_avg agrees_mean.
Definition adaptive_max1d_correct o x N C l := adaptive1d_correct lmax maxpool_kernel _ o x N C l per_channel_max agrees_max.
