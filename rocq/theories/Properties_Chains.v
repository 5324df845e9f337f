(** Property theorems: collapsing chains of layout operators (C01-C06, C25, C57). *)
From Coq Require Import List Arith Lia Permutation Bool.
From Verif Require Import Tensor ChainModel ChainProofs ReshapeProofs LowerProofs EdgeProofs.
Import ListNotations.

(** A concrete tensor for the examples: its elements are its row-major positions. *)
Definition iota (s : list nat) : tensor nat := mkT s (ravel s).

(** ** C01 *)
Theorem C01_transpose_chain_preserved :
  forall (A : Type) (t : tensor A) (perms : list (list nat)),
    perms <> [] -> Forall (is_perm (length (tshape t))) perms ->
    exists r, fuse_simple_transpose perms = Some r /\
      teq (fold_left (fun u p => transpose p u) perms t)
          (match r with Removed => t | Single p => transpose p t end).
Proof. exact @transpose_chain_correct. Qed.
Print Assumptions C01_transpose_chain_preserved.

Example C01_example :
  let perms := [[1;2;0]; [0;2;1]; [2;0;1]] in
  perms <> [] /\ Forall (is_perm (length (tshape (iota [2;3;4])))) perms /\
  fuse_simple_transpose perms = Some (Single [2;1;0]) /\
  fuse_simple_transpose [[1;2;0]; [2;0;1]] = Some Removed.
Proof.
  repeat split; try discriminate.
  repeat constructor; apply is_perm_intro; auto; simpl;
    repeat constructor; simpl; intuition lia.
Qed.

(** ** C02: false as it stands, see the witness; true when a gather remains, or when all
    index vectors are permutations of the axis. *)
Theorem C02_gather_chain_refuted :
  exists (t : tensor nat) (ixs : list (list nat)) r,
    gathers_ok (nth 0 (tshape t) 0) ixs /\ fuse_simple_gather ixs = Some r /\
    ~ teq (run_gathers 0 ixs t) (match r with Removed => t | Single p => gather 0 p t end).
Proof.
  exists (iota [3]), [[1;2]; [0;1]], Removed. split; [|split].
  - repeat split; repeat constructor; simpl; lia.
  - reflexivity.
  - intros [H _]. discriminate H.
Qed.
Print Assumptions C02_gather_chain_refuted.

Theorem C02_gather_chain_partial :
  forall (A : Type) (axis : nat) (ixs : list (list nat)) (t : tensor A),
    ixs <> [] -> axis < length (tshape t) -> gathers_ok (nth axis (tshape t) 0) ixs ->
    exists r, fuse_simple_gather ixs = Some r /\
      ((r <> Removed \/ Forall (is_perm (nth axis (tshape t) 0)) ixs) ->
       teq (fold_left (fun u ix => gather axis ix u) ixs t)
           (match r with Removed => t | Single p => gather axis p t end)).
Proof. exact @gather_chain_partial. Qed.
Print Assumptions C02_gather_chain_partial.

Example C02_example :
  gathers_ok (nth 1 (tshape (iota [2;3;2])) 0) [[2;2;0]; [1;2]] /\
  fuse_simple_gather [[2;2;0]; [1;2]] = Some (Single [2;0]).
Proof. split; [|reflexivity]. repeat split; repeat constructor; simpl; lia. Qed.

(** ** C03 *)
Theorem C03_slice_chain_preserved :
  forall (A : Type) (t : tensor A) (nodes : list slice_node),
    nodes <> [] -> slices_ok t nodes ->
    exists n, fuse_simple_slice nodes = Some n /\
      (forall s z, n = NSlice s z -> node_ok (tshape t) n) /\
      teq (fold_left (fun u n => run_node n u) nodes t) (run_node n t).
Proof. exact @slice_chain_correct. Qed.
Print Assumptions C03_slice_chain_preserved.

Example C03_example :
  let nodes := [NStrided [1;0] [9;4] [2;1]; NSlice [1;1] [3;2]; NStrided [0;0] [3;2] [2;1]] in
  slices_ok (iota [10;4]) nodes /\
  fuse_simple_slice nodes = Some (NStrided [3;1] [9;3] [4;1]).
Proof.
  split; [|reflexivity].
  cbn; repeat split; auto; try intros k Hk;
    destruct k as [|[|k]]; cbn; try lia; cbn in *; lia.
Qed.

(** ** C04 *)
Theorem C04_simple_reshape_classified :
  forall a b : list nat,
    ((exists m, is_simple_reshape a b = Some m) <->
     filter (fun d => negb (d =? 1)) a = filter (fun d => negb (d =? 1)) b) /\
    (forall m, is_simple_reshape a b = Some m ->
       axis_pairing a b m /\
       (forall idx, valid a idx ->
          valid b (remap_index m 0 (length b) 0 idx) /\
          forall A (t : tensor A), tshape t = a ->
            tget (reshape b t) (remap_index m 0 (length b) 0 idx) = tget t idx)).
Proof. exact simple_reshape_correct. Qed.
Print Assumptions C04_simple_reshape_classified.

Example C04_example :
  is_simple_reshape [1;3;1;4] [3;1;4;1;1] = Some [(1,0);(2,1);(3,2)] /\
  is_simple_reshape [2;6] [6;2] = None.
Proof. split; reflexivity. Qed.

(** ** C05 *)
Theorem C05_reshape_groups_partition :
  forall s1 s2 : list nat,
    Forall (fun d => 0 < d) s1 -> Forall (fun d => 0 < d) s2 -> prod s1 = prod s2 ->
    (s1 = [] <-> s2 = []) ->
    exists ml mr nl nr, reshape_mapping s1 s2 = Some (ml, mr, nl, nr) /\
      concat ml = seq 0 (length s1) /\ concat mr = seq 0 (length s2) /\
      Forall2 (fun g h => g <> [] /\ h <> [] /\ prod (sel s1 g) = prod (sel s2 h)) ml mr /\
      concat nl = filter (fun k => negb (nth k s1 0 =? 1)) (seq 0 (length s1)) /\
      concat nr = filter (fun k => negb (nth k s2 0 =? 1)) (seq 0 (length s2)) /\
      Forall2 (fun g h => g <> [] /\ h <> [] /\ prod (sel s1 g) = prod (sel s2 h)) nl nr.
Proof. exact reshape_mapping_correct. Qed.
Print Assumptions C05_reshape_groups_partition.

Example C05_example :
  reshape_mapping [2;6;1;5;1] [3;4;5] =
    Some ([[0;1]; [2;3;4]], [[0;1]; [2]], [[0;1]; [3]], [[0;1]; [2]]).
Proof. reflexivity. Qed.

(** The side condition is needed: a scalar against a one-element vector raises. *)
Example C05_scalar_fails : prod [] = prod [1] /\ reshape_mapping [] [1] = None.
Proof. split; reflexivity. Qed.

(** ** C06: false as it stands; exact characterisation and the domain where it holds. *)
Theorem C06_lower_transpose_refuted :
  exists (t : tensor nat) (perm ns np : list nat) (u : tensor nat),
    is_perm (length (tshape t)) perm /\ Forall (fun d => 2 <= d) (tshape t) /\
    lower_transpose (tshape t) perm = Some (ns, np) /\ length ns <= 4 /\
    lowered (tshape t) perm t = Some u /\ ~ teq u (transpose perm t).
Proof.
  exists (iota [2;3;4;5;6]), [1;2;3;4;0], [120;6], [1;0].
  eexists. split; [|split; [|split; [|split; [|split]]]].
  - apply is_perm_intro; auto; simpl; repeat constructor; simpl; intuition lia.
  - simpl; repeat constructor; lia.
  - reflexivity.
  - simpl; lia.
  - reflexivity.
  - intros [_ H]. specialize (H [0;0;0;1;0]).
    assert (V : valid [3;4;5;6;2] [0;0;0;1;0]) by (repeat constructor; lia).
    specialize (H V). vm_compute in H. discriminate H.
Qed.
Print Assumptions C06_lower_transpose_refuted.

(** What the rewrite computes on every shape without unit axes: the transpose by the inverse
    permutation, relabelled with the right shape. *)
Theorem C06_lower_transpose_inverse_partial :
  forall (A : Type) (t : tensor A) (q : list nat),
    tshape t <> [] -> Forall (fun d => 2 <= d) (tshape t) -> is_perm (length (tshape t)) q ->
    exists u, lowered (tshape t) q t = Some u /\
      teq u (reshape (sel (tshape t) q) (transpose (inv_perm q) t)).
Proof. exact @lower_is_inverse. Qed.
Print Assumptions C06_lower_transpose_inverse_partial.

Theorem C06_lower_transpose_partial :
  forall (A : Type) (t : tensor A) (q : list nat),
    tshape t <> [] -> Forall (fun d => 2 <= d) (tshape t) -> is_perm (length (tshape t)) q ->
    (forall k, k < length q -> nth (nth k q 0) q 0 = k) ->
    exists u, lowered (tshape t) q t = Some u /\ teq u (transpose q t).
Proof. exact @lower_involutive. Qed.
Print Assumptions C06_lower_transpose_partial.

Example C06_example :
  is_perm 5 [3;4;2;0;1] /\ (forall k, k < 5 -> nth (nth k [3;4;2;0;1] 0) [3;4;2;0;1] 0 = k) /\
  lower_transpose [2;3;4;5;6] [3;4;2;0;1] = Some ([6;4;30], [2;1;0]).
Proof.
  split; [|split].
  - apply is_perm_intro; auto; simpl; repeat constructor; simpl; intuition lia.
  - intros [|[|[|[|[|k]]]]] Hk; simpl; lia.
  - reflexivity.
Qed.

(** ** C25 *)
Theorem C25_edges_merged_maximally :
  forall (rank : nat -> nat) (E : list (nat * nat)),
    NoDup (map fst E) -> NoDup (map snd E) -> (forall u v, In (u, v) E -> rank u < rank v) ->
    exists R, fuse_connected_edges (length E) (map (fun e => [fst e; snd e]) E) = Some R /\
      Forall (fun s => 2 <= length s) R /\ Permutation (flat_map path_edges R) E /\
      Forall (fun s => ~ In (hd 0 s) (map snd E) /\ ~ In (last s 0) (map fst E)) R.
Proof. exact fuse_connected_edges_correct. Qed.
Print Assumptions C25_edges_merged_maximally.

Example C25_example :
  let E := [(3,4); (1,2); (7,8); (2,3); (8,9)] in
  NoDup (map fst E) /\ NoDup (map snd E) /\ (forall u v, In (u, v) E -> u < v) /\
  fuse_connected_edges (length E) (map (fun e => [fst e; snd e]) E) = Some [[1;2;3;4]; [7;8;9]].
Proof.
  simpl. repeat split; try (repeat constructor; simpl; intuition lia).
  intros u v H; repeat (destruct H as [H|H]; [inversion H; lia|]). destruct H.
Qed.

(** ** C57 *)
Theorem C57_reshape_chain_preserved :
  forall (A : Type) (shapes : list (list nat)) (t : tensor A),
    shapes <> [] -> Forall (fun s => prod s = prod (tshape t)) shapes ->
    exists r, fuse_simple_reshape (tshape t) shapes = Some r /\
      teq (fold_left (fun u s => reshape s u) shapes t)
          (match r with Removed => t | Single s => reshape s t end).
Proof. exact @reshape_chain_correct. Qed.
Print Assumptions C57_reshape_chain_preserved.

Example C57_example :
  Forall (fun s => prod s = prod (tshape (iota [2;3;4]))) [[6;4]; [24]; [4;6]] /\
  fuse_simple_reshape [2;3;4] [[6;4]; [24]; [4;6]] = Some (Single [4;6]) /\
  fuse_simple_reshape [2;3;4] [[6;4]; [2;3;4]] = Some Removed.
Proof. repeat split; repeat constructor. Qed.
