(** C76-C78: indexing, gather, scatter and index_put are lowered faithfully, and where they are not. *)
From Coq Require Import List Arith Bool Reals Lra Lia ZArith.
From Verif Require Import Tensor ConvSpec LayoutSpec FuseModel MoveSpec IndexSpec AtenIndexModel AtenIndexProofs.
Import ListNotations.

(** C76: [x[ix1, ix2, ...]] with nonnegative index tensors, each of which is a tail of the common shape up to leading
    ones; an index tensor that is not constant has rank 1. *)
Theorem C76_index_partial : forall {A} (dyn : list bool) (ixs : list (tensor Z)) (b : list nat) (x : tensor A),
  ixs <> [] -> bshapes (map tshape ixs) = Some b -> 0 < prod b ->
  Forall (fun ix : tensor Z => exists k t lead, tshape ix = repeat 1 k ++ t /\ b = lead ++ t) ixs ->
  Forall2 (fun (d : bool) (ix : tensor Z) => d = true -> length (tshape ix) = 1) dyn ixs ->
  picks_ok nonneg (tshape x) ixs ->
  exists y, aten_index_multi dyn ixs (tshape (torch_index ixs b x)) x = Some y /\ teq y (torch_index ixs b x).
Proof. exact (@index_multi_ok). Qed.
Print Assumptions C76_index_partial.

Definition ex_x : tensor nat := mkT [3; 4; 2] (fun i => 100 * nth 0 i 0 + 10 * nth 1 i 0 + nth 2 i 0).
Definition ex_ix1 : tensor Z := mkT [2; 3] (fun i => Z.of_nat ((nth 0 i 0 + nth 1 i 0) mod 3)).
Definition ex_ix2 : tensor Z := mkT [3] (fun i => Z.of_nat (3 - nth 0 i 0)).
Example C76_index_example : bshapes [tshape ex_ix1; tshape ex_ix2] = Some [2; 3] /\ picks_ok nonneg (tshape ex_x) [ex_ix1; ex_ix2] /\
  exists y, aten_index_multi [false; true] [ex_ix1; ex_ix2] [2; 3; 2] ex_x = Some y /\
    map (tget y) (indices [2; 3; 2]) = [30; 31; 120; 121; 210; 211; 130; 131; 220; 221; 10; 11].
Proof.
  split; [reflexivity|]. split.
  - cbn. split; [|split; [|exact I]]; intros j V; apply indices_valid in V; cbn in V; unfold nonneg;
      repeat (destruct V as [<-|V]; [cbn; lia|]); destruct V.
  - eexists; split; [vm_compute; reflexivity|reflexivity].
Qed.

(** index tensors of other broadcasting shapes are read in the wrong order *)
Theorem C76_index_broadcast_refuted : exists (ixs : list (tensor Z)) (b : list nat) (x : tensor nat),
  bshapes (map tshape ixs) = Some b /\ picks_ok nonneg (tshape x) ixs /\
  exists y, aten_index_multi [false; false] ixs (tshape (torch_index ixs b x)) x = Some y /\ ~ teq y (torch_index ixs b x).
Proof.
  exists [mkT [2; 2] (fun i => Z.of_nat (nth 1 i 0)); mkT [2; 1] (fun i => Z.of_nat (nth 0 i 0))], [2; 2],
    (mkT [2; 2] (fun i => 10 * nth 0 i 0 + nth 1 i 0)).
  split; [reflexivity|]. split.
  - cbn. split; [|split; [|exact I]]; intros j V; apply indices_valid in V; cbn in V; unfold nonneg;
      repeat (destruct V as [<-|V]; [cbn; lia|]); destruct V.
  - eexists; split; [vm_compute; reflexivity|]. intros [_ H]. specialize (H [0; 1] ltac:(repeat constructor)). vm_compute in H. discriminate.
Qed.
Print Assumptions C76_index_broadcast_refuted.

(** negative constants are emitted as they are, which GATHER_ND rejects *)
Theorem C76_index_negative_refuted : exists (ixs : list (tensor Z)) (b : list nat) (x : tensor nat),
  bshapes (map tshape ixs) = Some b /\ picks_ok in_range (tshape x) ixs /\
  aten_index_multi [false; false] ixs (tshape (torch_index ixs b x)) x = None.
Proof.
  exists [mkT [2] (fun i => Z.of_nat (nth 0 i 0)); mkT [2] (fun i => (Z.of_nat (nth 0 i 0%nat) - 1)%Z)], [2],
    (mkT [2; 2] (fun i => 10 * nth 0 i 0 + nth 1 i 0)).
  split; [reflexivity|]. split; [|vm_compute; reflexivity].
  cbn. split; [|split; [|exact I]]; intros j V; apply indices_valid in V; cbn in V; unfold in_range;
    repeat (destruct V as [<-|V]; [cbn; lia|]); destruct V.
Qed.
Print Assumptions C76_index_negative_refuted.

(** index tensors of rank 2 that are not constant are gathered from along axis 0 only *)
Theorem C76_index_dynamic_refuted : exists (ixs : list (tensor Z)) (b : list nat) (x : tensor nat),
  bshapes (map tshape ixs) = Some b /\ Forall (fun ix : tensor Z => tshape ix = b) ixs /\ picks_ok nonneg (tshape x) ixs /\
  aten_index_multi [true; true] ixs (tshape (torch_index ixs b x)) x = None.
Proof.
  exists [mkT [1; 2] (fun i => Z.of_nat (nth 1 i 0)); mkT [1; 2] (fun i => Z.of_nat (nth 1 i 0))], [1; 2],
    (mkT [2; 2] (fun i => 10 * nth 0 i 0 + nth 1 i 0)).
  split; [reflexivity|]. split; [repeat constructor|]. split; [|vm_compute; reflexivity].
  cbn. split; [|split; [|exact I]]; intros j V; apply indices_valid in V; cbn in V; unfold nonneg;
    repeat (destruct V as [<-|V]; [cbn; lia|]); destruct V.
Qed.
Print Assumptions C76_index_dynamic_refuted.

(** one index tensor of any rank at any axis; constants may be negative *)
Theorem C76_index_at : forall {A} (const : bool) (ax : nat) (ix : tensor Z) (x : tensor A), ax < length (tshape x) ->
  (forall j, valid (tshape ix) j -> (if const then in_range else nonneg) (nth ax (tshape x) 0) (tget ix j)) ->
  exists y, aten_index_single const ax ix x = Some y /\ teq y (torch_index_at ax ix x).
Proof. exact (@index_single_ok). Qed.
Print Assumptions C76_index_at.
Example C76_index_at_example :
  exists y, aten_index_single true 1 (mkT [2; 2] (fun i => (Z.of_nat (nth 1 i 0%nat) - 2 - Z.of_nat (nth 0 i 0%nat))%Z)) ex_x = Some y /\
    tshape y = [3; 2; 2; 2] /\ tget y [2; 1; 0; 1] = 211.
Proof. eexists; split; [vm_compute; reflexivity|]. split; reflexivity. Qed.

(** [index_select] along an axis that may be counted from the end *)
Theorem C76_index_select : forall {A} (const : bool) (dim : Z) (ix : tensor Z) (x : tensor A),
  let n := length (tshape x) in let ax := Z.to_nat (dim mod Z.of_nat n) in
  (- Z.of_nat n <= dim < Z.of_nat n)%Z ->
  (forall j, valid (tshape ix) j -> (if const then in_range else nonneg) (nth ax (tshape x) 0) (tget ix j)) ->
  exists y, aten_index_select const dim ix x = Some y /\ teq y (torch_index_at ax ix x).
Proof. exact (@index_select_ok). Qed.
Print Assumptions C76_index_select.
Example C76_index_select_example :
  exists y, aten_index_select true (-2) (mkT [2] (fun i => (- 1 - Z.of_nat (nth 0 i 0%nat))%Z)) ex_x = Some y /\ tget y [2; 1; 1] = 221.
Proof. eexists; split; [vm_compute; reflexivity|reflexivity]. Qed.

(** C77: [torch.gather].  When the index is not constant, the conversion sees one index tensor and the model runs with
    any other of the same shape. *)
Theorem C77_gather : forall {A} (const : bool) (dim : Z) (traced index : tensor nat) (x : tensor A),
  let n := length (tshape x) in let ax := Z.to_nat (dim mod Z.of_nat n) in
  (- Z.of_nat n <= dim < Z.of_nat n)%Z -> gather_ok ax traced (tshape x) -> tshape index = tshape traced ->
  (const = true -> forall j, valid (tshape traced) j -> tget index j = tget traced j) ->
  teq (aten_gather const dim traced index x) (torch_gather ax index x).
Proof. exact (@gather_full_ok). Qed.
Print Assumptions C77_gather.
Example C77_gather_example :
  let traced := mkT [2; 3] (fun _ => 0) in let index := mkT [2; 3] (fun i => (2 * nth 0 i 0 + nth 1 i 0) mod 4) in
  let x := mkT [3; 4] (fun i => 10 * nth 0 i 0 + nth 1 i 0) in
  gather_ok 1 traced (tshape x) /\ map (tget (aten_gather false (-1) traced index x)) (indices [2; 3]) = [0; 1; 2; 12; 13; 10].
Proof.
  split; [|reflexivity]. repeat split; cbn; try lia. intros [|[|k]] H N; cbn; lia.
Qed.

(** [torch.scatter] into zeros, when no two elements go to the same place *)
Theorem C77_scatter_partial : forall (const : bool) (dim : Z) (traced index : tensor nat) (value : R + tensor R) (sh : list nat),
  let n := length sh in let ax := Z.to_nat (dim mod Z.of_nat n) in
  (- Z.of_nat n <= dim < Z.of_nat n)%Z -> gather_ok ax traced sh -> tshape index = tshape traced ->
  (const = true -> forall j, valid (tshape traced) j -> tget index j = tget traced j) ->
  (forall i j, valid (tshape index) i -> valid (tshape index) j -> upd i ax (tget index i) = upd j ax (tget index j) -> i = j) ->
  is_put (mkT sh (fun _ => 0%R)) (scatter_src value (tshape index)) (fun j => upd j ax (tget index j))
         (aten_scatter const dim traced index value sh).
Proof. exact scatter_ok. Qed.
Print Assumptions C77_scatter_partial.
Example C77_scatter_example :
  let index := mkT [2; 2] (fun i => 2 * nth 1 i 0 + nth 0 i 0) in
  gather_ok 1 index [2; 4] /\
  (forall i j, valid [2; 2] i -> valid [2; 2] j -> upd i 1 (tget index i) = upd j 1 (tget index j) -> i = j) /\
  tget (aten_scatter true 1 index index (inr (mkT [3; 3] (fun i => INR (3 * nth 0 i 0 + nth 1 i 0)))) [2; 4]) [1; 3] = 4%R.
Proof.
  split; [|split].
  - repeat split; cbn; try lia.
    + intros [|[|k]] H N; cbn; lia.
    + intros idx V. apply indices_valid in V. cbn in V. repeat (destruct V as [<-|V]; [cbn; lia|]); destruct V.
  - intros i j Vi Vj. apply indices_valid in Vi, Vj. cbn in Vi, Vj.
    repeat (destruct Vi as [<-|Vi]; [repeat (destruct Vj as [<-|Vj]; [cbn; congruence|]); destruct Vj|]); destruct Vi.
  - cbv -[Rplus Rmult IZR INR]. cbn [INR]. lra.
Qed.

(** SCATTER_ND adds up what goes to the same place *)
Theorem C77_scatter_refuted : exists (index : tensor nat) (value : R) (sh : list nat),
  gather_ok 0 index sh /\
  ~ is_put (mkT sh (fun _ => 0%R)) (scatter_src (inl value) (tshape index)) (fun j => upd j 0 (tget index j))
           (aten_scatter true 0 index index (inl value) sh).
Proof.
  exists (mkT [2] (fun _ => 0)), 1%R, [2]. split.
  - repeat split; cbn; try lia.
  - intros [_ H]. destruct (H [0] ltac:(repeat constructor)) as [_ K].
    destruct K as (j & _ & _ & E). { exists [0]. split; [repeat constructor|reflexivity]. }
    cbv -[Rplus Rmult IZR] in E. lra.
Qed.
Print Assumptions C77_scatter_refuted.

(** C78: [index_put] of values of rank at most 1 that are not constant, when no two elements go to the same place *)
Theorem C78_index_put_partial : forall (dyn : list bool) (ixs : list (tensor Z)) (b : list nat) (xconst : bool) (val x : tensor R),
  ixs <> [] -> bshapes (map tshape ixs) = Some b -> 0 < prod b ->
  Forall (fun ix : tensor Z => exists k t lead, tshape ix = repeat 1 k ++ t /\ b = lead ++ t) ixs ->
  Forall2 (fun (d : bool) (ix : tensor Z) => d = true -> length (tshape ix) = 1) dyn ixs ->
  picks_ok nonneg (tshape x) ixs ->
  let bp := b ++ skipn (length ixs) (tshape x) in
  length (tshape val) <= 1 -> expand_ok (tshape val) bp ->
  (forall i j, valid bp i -> valid bp j -> target (tshape x) ixs b i = target (tshape x) ixs b j -> i = j) ->
  exists y, aten_index_put dyn ixs xconst false val x = Some y /\ is_put x (expand bp val) (target (tshape x) ixs b) y.
Proof. exact index_put_ok. Qed.
Print Assumptions C78_index_put_partial.

Definition put_ix : tensor Z := mkT [2] (fun i => Z.of_nat (2 * nth 0 i 0)).
Definition put_x : tensor R := mkT [3; 2] (fun i => INR (10 * nth 0 i 0 + nth 1 i 0)).
Definition put_val : tensor R := mkT [2] (fun i => INR (100 + nth 0 i 0)).
Example C78_index_put_example : bshapes [tshape put_ix] = Some [2] /\ picks_ok nonneg (tshape put_x) [put_ix] /\
  expand_ok (tshape put_val) [2; 2] /\
  (forall i j, valid [2; 2] i -> valid [2; 2] j -> target (tshape put_x) [put_ix] [2] i = target (tshape put_x) [put_ix] [2] j -> i = j) /\
  exists y, aten_index_put [true] [put_ix] true false put_val put_x = Some y /\ tget y [2; 1] = 101%R /\ tget y [1; 1] = 11%R.
Proof.
  split; [reflexivity|]. split; [|split; [reflexivity|split]].
  - cbn. split; [|exact I]; intros j V; apply indices_valid in V; cbn in V; unfold nonneg;
      repeat (destruct V as [<-|V]; [cbn; lia|]); destruct V.
  - intros i j Vi Vj. apply indices_valid in Vi, Vj. cbn in Vi, Vj.
    repeat (destruct Vi as [<-|Vi]; [repeat (destruct Vj as [<-|Vj]; [vm_compute; congruence|]); destruct Vj|]); destruct Vi.
  - destruct (aten_index_put [true] [put_ix] true false put_val put_x) as [y|] eqn:E; [|exfalso; vm_compute in E; discriminate].
    exists y. split; [reflexivity|]. cbv -[Rplus Rmult Rminus IZR INR] in E. injection E as <-. cbv -[Rplus Rmult Rminus IZR INR].
    rewrite !INR_IZR_INZ. cbn. split; lra.
Qed.

(** when two elements go to the same place, the difference to the old value is added twice *)
Theorem C78_duplicate_refuted : exists (ix : tensor Z) (val x : tensor R),
  picks_ok nonneg (tshape x) [ix] /\ expand_ok (tshape val) (tshape ix) /\
  exists y, aten_index_put [false] [ix] false false val x = Some y /\
    ~ is_put x (expand (tshape ix) val) (target (tshape x) [ix] (tshape ix)) y.
Proof.
  exists (mkT [2] (fun _ => 0%Z)), (mkT [1] (fun _ => 5%R)), (mkT [2] (fun _ => 1%R)). split; [|split; [reflexivity|]].
  - cbn. split; [|exact I]. intros j _. unfold nonneg. lia.
  - destruct (aten_index_put _ _ _ _ _ _) as [y|] eqn:E; [|exfalso; vm_compute in E; discriminate].
    exists y. split; [reflexivity|]. intros [_ H]. destruct (H [0] ltac:(repeat constructor)) as [_ K].
    destruct K as (j & _ & _ & Q). { exists [0]. split; [repeat constructor|reflexivity]. }
    cbv -[Rplus Rmult Rminus IZR INR] in E. injection E as <-. cbv -[Rplus Rmult Rminus IZR] in Q. lra.
Qed.
Print Assumptions C78_duplicate_refuted.

(** a constant value is not written at all when the tensor is not constant *)
Theorem C78_constant_refuted : exists (ix : tensor Z) (val x : tensor R),
  picks_ok nonneg (tshape x) [ix] /\ tshape val = tshape ix /\
  (forall i j, valid (tshape ix) i -> valid (tshape ix) j ->
     target (tshape x) [ix] (tshape ix) i = target (tshape x) [ix] (tshape ix) j -> i = j) /\
  exists y, aten_index_put [false] [ix] false true val x = Some y /\ teq y x /\
    ~ is_put x (expand (tshape ix) val) (target (tshape x) [ix] (tshape ix)) y.
Proof.
  exists (mkT [2] (fun i => Z.of_nat (nth 0 i 0))), (mkT [2] (fun _ => 5%R)), (mkT [3] (fun _ => 1%R)). split; [|split; [reflexivity|split]].
  - cbn. split; [|exact I]; intros j V; apply indices_valid in V; cbn in V; unfold nonneg;
      repeat (destruct V as [<-|V]; [cbn; lia|]); destruct V.
  - intros i j Vi Vj. apply indices_valid in Vi, Vj. cbn in Vi, Vj.
    repeat (destruct Vi as [<-|Vi]; [repeat (destruct Vj as [<-|Vj]; [vm_compute; congruence|]); destruct Vj|]); destruct Vi.
  - destruct (aten_index_put _ _ _ _ _ _) as [y|] eqn:E; [|exfalso; vm_compute in E; discriminate].
    cbv -[Rplus Rmult Rminus IZR INR] in E. injection E as <-. eexists. split; [reflexivity|]. split.
    + split; [reflexivity|]. intros idx V. apply indices_valid in V. cbn in V.
      repeat (destruct V as [<-|V]; [cbv -[Rplus Rmult Rminus IZR]; lra|]); destruct V.
    + intros [_ H]. destruct (H [0] ltac:(repeat constructor)) as [_ K].
      destruct K as (j & _ & _ & Q). { exists [0]. split; [repeat constructor|reflexivity]. }
      cbv -[Rplus Rmult Rminus IZR] in Q. lra.
Qed.
Print Assumptions C78_constant_refuted.

(** values of rank 2 get a TILE whose multiples have the wrong number of entries *)
Theorem C78_rank2_refuted : exists (ix : tensor Z) (val x : tensor R),
  picks_ok nonneg (tshape x) [ix] /\ expand_ok (tshape val) (tshape ix ++ skipn 1 (tshape x)) /\
  aten_index_put [false] [ix] false false val x = None.
Proof.
  exists put_ix, (mkT [2; 2] (fun _ => 0%R)), put_x. split; [|split; reflexivity].
  cbn. split; [|exact I]; intros j V; apply indices_valid in V; cbn in V; unfold nonneg;
    repeat (destruct V as [<-|V]; [cbn; lia|]); destruct V.
Qed.
Print Assumptions C78_rank2_refuted.
