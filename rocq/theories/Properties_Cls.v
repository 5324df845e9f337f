(** Layers that are equalized together. *)
From Coq Require Import ZArith List Arith Bool Lia.
From Verif Require Import ClsModel ClsSpec ClsProofs.
Import ListNotations.

(** Every group that is found consists of two layers, the second of which reads the first through scalable nodes only, and no other
    node reads the first or the nodes between.  No group is found twice. *)
Theorem C152_groups : forall fuel g, NoDup (cls_set fuel g) /\ forall p, In p (cls_set fuel g) -> pair_ok g p.
Proof. exact cls_ok. Qed.
Print Assumptions C152_groups.
(** a convolution with activation, two convolutions and an output *)
Definition ex_lg : lgraph := mkLG (fun n => match n with 1 => LSup 11 | 2 => LScal | 3 => LSup 12 | 4 => LSup 13 | _ => LOther end)
  (fun n => match n with 0 => [1] | 1 => [2] | 2 => [3] | 3 => [4] | 4 => [5] | _ => [] end) (fun n => match n with 1 => [0] | 2 => [1] | 3 => [2] | 4 => [3] | 5 => [4] | _ => [] end) [1; 2; 3; 4; 5].
(** as above, but the activation is read twice: only the pair after it is found *)
Definition ex_lg2 : lgraph := mkLG (lk ex_lg)
  (fun n => match n with 0 => [1] | 1 => [2] | 2 => [3; 5] | 3 => [4] | 4 => [5] | _ => [] end) (fun n => match n with 1 => [0] | 2 => [1] | 3 => [2] | 4 => [3] | 5 => [2; 4] | _ => [] end) [1; 2; 3; 4; 5].
Example C152_groups_example : cls_set 7 ex_lg = [[(1, 11); (3, 12)]; [(3, 12); (4, 13)]] /\ cls_set 7 ex_lg2 = [[(3, 12); (4, 13)]] /\ only_through ex_lg 1 [2] 3.
Proof. split; [reflexivity|]. split; [reflexivity|]. apply (ot_step ex_lg 1 [] 2 3); [now apply ot_one|reflexivity|reflexivity]. Qed.

(** A layer is the first of at most one group. *)
Theorem C152_first_once :
  forall fuel g p p' c m r m' r', In p (cls_set fuel g) -> In p' (cls_set fuel g) -> p = (c, m) :: r -> p' = (c, m') :: r' -> p = p'.
Proof. exact first_once. Qed.
Print Assumptions C152_first_once.
Example C152_first_once_example : In [(1, 11); (3, 12)] (cls_set 7 ex_lg) /\ In [(3, 12); (4, 13)] (cls_set 7 ex_lg).
Proof. split; vm_compute; auto. Qed.

(** The groups come in the order of the layers: a layer is not the second of a group after it has been the first of one. *)
Theorem C152_order :
  forall fuel g l1 a m b k l2 x mx y my, cls_set fuel g = l1 ++ [(a, m); (b, k)] :: l2 -> In [(x, mx); (y, my)] l2 -> y <> a.
Proof. exact cls_order. Qed.
Print Assumptions C152_order.
Example C152_order_example : cls_set 7 ex_lg = [] ++ [(1, 11); (3, 12)] :: [[(3, 12); (4, 13)]].
Proof. reflexivity. Qed.

(** The search ends: more steps than nodes find nothing more. *)
Theorem C152_search_ends :
  forall g all fuel fuel', (forall n x, In n all -> In x (nx g n) -> In x all) -> (forall n, In n (fwd g) -> In n all) ->
  length all < fuel -> length all < fuel' -> cls_set fuel g = cls_set fuel' g.
Proof. exact fuel_ok. Qed.
Print Assumptions C152_search_ends.
Example C152_search_ends_example :
  (forall n x, In n (seq 0 6) -> In x (nx ex_lg2 n) -> In x (seq 0 6)) /\ (forall n, In n (fwd ex_lg2) -> In n (seq 0 6)) /\ cls_set 2 ex_lg <> cls_set 7 ex_lg.
Proof.
  split; [intros n x H; cbn in H; repeat (destruct H as [<-|H]; [cbn; tauto|]); destruct H|]. split; [cbn; tauto|]. vm_compute. discriminate.
Qed.

(** In a graph where one node follows the other from the input to the output the groups are exactly the pairs of layers with only
    scalable nodes between. *)
Theorem C152_chain_partial : forall g n fuel p, chain g n -> n < fuel -> (In p (cls_set fuel g) <-> pair_ok g p).
Proof. exact chain_ok. Qed.
Print Assumptions C152_chain_partial.
Example C152_chain_example : chain ex_lg 5 /\ pair_ok ex_lg [(1, 11); (3, 12)].
Proof.
  split; [|exists 1, 11, 3, 12, [2]; repeat split; apply (ot_step ex_lg 1 [] 2 3); [now apply ot_one|reflexivity|reflexivity]].
  split; [reflexivity|]. split; [reflexivity|]. split; [intros i H; do 5 (destruct i as [|i]; [reflexivity|]); lia|].
  split; [intros i H; do 5 (destruct i as [|i]; [lia|]); reflexivity|reflexivity].
Qed.

(** Let scaling the output of the first layer be undone at the input of the second, let the scalable nodes commute with the scaling
    and let each of the two modules be used once.  Then in the equalized graph exactly the first layer and the nodes between have
    scaled values; all others, so all outputs, are as before. *)
Theorem C152_keeps_partial :
  forall {V} (den fo : nat -> list V -> V) (sc un : V -> V) fuel g v c1 m1 c2 m2,
  l_wf g -> (forall y, un (sc y) = y) -> (forall x y, lk g x = LScal -> fo x [sc y] = sc (fo x [y])) -> own_module g c1 m1 -> own_module g c2 m2 ->
  In [(c1, m1); (c2, m2)] (cls_set fuel g) -> l_computes den fo g v ->
  exists l v', only_through g c1 l c2 /\ l_computes (equalized sc un m1 m2 den) fo g v' /\
    (forall x, x = c1 \/ In x l -> v' x = sc (v x)) /\ (forall x, ~ (x = c1 \/ In x l) -> v' x = v x).
Proof. exact @equalize_ok. Qed.
Print Assumptions C152_keeps_partial.
Definition ex_lden (m : nat) (l : list Z) : Z := (nth 0 l 0 + Z.of_nat m)%Z.
Definition ex_lfo (n : nat) (l : list Z) : Z := match n with 0 => 1%Z | 2 => Z.max 0 (nth 0 l 0)%Z | _ => nth 0 l 0%Z end.
Definition ex_lv (n : nat) : Z := match n with 0 => 1%Z | 1 => 12%Z | 2 => 12%Z | 3 => 24%Z | 4 => 37%Z | 5 => 37%Z | _ => 0%Z end.
Example C152_keeps_example :
  l_wf ex_lg /\ (forall y, (2 * y) / 2 = y)%Z /\ (forall x y, lk ex_lg x = LScal -> ex_lfo x [2 * y] = 2 * ex_lfo x [y])%Z /\ own_module ex_lg 1 11 /\ own_module ex_lg 3 12 /\
  In [(1, 11); (3, 12)] (cls_set 7 ex_lg) /\ l_computes ex_lden ex_lfo ex_lg ex_lv.
Proof.
  split; [l_wf_tac 6|]. split; [intros y; rewrite Z.mul_comm; apply Z.div_mul; lia|].
  split; [intros x y K; destruct x as [|[|[|[|[|x]]]]]; try discriminate K; cbn [ex_lfo nth]; lia|].
  split; [intros n K; do 5 (destruct n as [|n]; [first [discriminate K|reflexivity]|]); discriminate K|].
  split; [intros n K; do 5 (destruct n as [|n]; [first [discriminate K|reflexivity]|]); discriminate K|].
  split; [vm_compute; auto|]. intros n. do 6 (destruct n as [|n]; [reflexivity|]). reflexivity.
Qed.

(** Not every pair is found: where two branches meet, the pair that ends the second branch is missed, however long the search. *)
Theorem C152_branch_refuted : exists g p, l_wf g /\ pair_ok g p /\ (forall c m, In (c, m) p -> own_module g c m) /\ forall fuel, ~ In p (cls_set fuel g).
Proof. exact branch_lemma. Qed.
Print Assumptions C152_branch_refuted.

(** A module that is used at two nodes is equalized at both: the output changes. *)
Theorem C152_shared_refuted :
  exists (den fo : nat -> list Z -> Z) (sc un : Z -> Z) g v c1 m1 c2 m2 n,
  l_wf g /\ (forall y, un (sc y) = y) /\ (forall x y, lk g x = LScal -> fo x [sc y] = sc (fo x [y])) /\ In [(c1, m1); (c2, m2)] (cls_set (S (length (fwd g))) g) /\ l_computes den fo g v /\
  nx g n = [] /\ forall v', l_computes (equalized sc un m1 m2 den) fo g v' -> v' n <> v n.
Proof. exact shared_lemma. Qed.
Print Assumptions C152_shared_refuted.

(** A convolution that is read by a linear layer makes a group as well, though the linear layer works on the last axis and not on the
    channels.  With the scales that make the ranges of the two weights equal the output changes. *)
Theorem C152_axis_refuted :
  exists g (den den' fo : nat -> list mat -> mat) v (w1 w2 s : Z * Z) n,
  l_wf g /\ In [(1, 1); (2, 2)] (cls_set (S (length (fwd g))) g) /\ own_module g 1 1 /\ own_module g 2 2 /\ (fst s * fst s * fst w2 = fst w1 /\ snd s * snd s * snd w2 = snd w1)%Z /\
  (forall x, den 1 [x] = conv_rows w1 x) /\ (forall x, den 2 [x] = lin_cols w2 x) /\
  (forall x, conv_rows s (den' 1 [x]) = conv_rows w1 x) /\ (forall x, den' 2 [x] = lin_cols (fst s * fst w2, snd s * snd w2)%Z x) /\
  l_computes den fo g v /\ nx g n = [] /\ forall v', l_computes den' fo g v' -> v' n <> v n.
Proof. exact axis_lemma. Qed.
Print Assumptions C152_axis_refuted.
