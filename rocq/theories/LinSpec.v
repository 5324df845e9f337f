(** Matrix products, softmax and axis permutations of torch and of TFLite (specification side: documented semantics,
    no converter code). *)
From Coq Require Import List Arith Bool Reals ZArith Lia.
From Verif Require Import Tensor ConvSpec LayoutSpec MoveSpec.
Import ListNotations.
Local Open Scope R_scope.

(** * torch *)

(** leading axes and the sizes of the last two *)
Definition batch_of (s : list nat) : list nat := firstn (length s - 2) s.
Definition rows_of (s : list nat) : nat := nth (length s - 2) s 0%nat.
Definition cols_of (s : list nat) : nat := nth (length s - 1) s 0%nat.
(** [matmul] of operands with at least two axes; the leading axes are broadcast *)
Definition torch_matmul (x w : tensor R) : option (tensor R) :=
  let sx := tshape x in let sw := tshape w in
  if (2 <=? length sx)%nat && (2 <=? length sw)%nat && (cols_of sx =? rows_of sw)%nat then
    match bshape (batch_of sx) (batch_of sw) with
    | Some b =>
        Some (mkT (b ++ [rows_of sx; cols_of sw]) (fun idx =>
          let m := length b in
          let pos := firstn m idx in
          lsum (seq 0 (cols_of sx)) (fun k =>
            tget x (bidx (batch_of sx) pos ++ [nth m idx 0%nat; k]) * tget w (bidx (batch_of sw) pos ++ [k; nth (S m) idx 0%nat]))))
    | None => None
    end
  else None.
(** [matmul] with a vector: the vector gets a second axis that is dropped afterwards *)
Definition torch_matvec (x v : tensor R) : tensor R :=
  mkT (removelast (tshape x)) (fun idx => lsum (seq 0 (last (tshape x) 0%nat)) (fun k => tget x (idx ++ [k]) * tget v [k])).
(** [linear]: weight [out; in], optional bias *)
Definition torch_linear (x w : tensor R) (b : option (tensor R)) : tensor R :=
  mkT (removelast (tshape x) ++ [nth 0 (tshape w) 0%nat]) (fun idx =>
    let j := last idx 0%nat in
    lsum (seq 0 (last (tshape x) 0%nat)) (fun k => tget x (removelast idx ++ [k]) * tget w [j; k]) +
    match b with Some b => tget b [j] | None => 0 end).
(** [addmm]: [beta * s + alpha * (x @ w)]; [s] is broadcast *)
Definition torch_addmm (beta alpha : R) (s x w : tensor R) : tensor R :=
  mkT [nth 0 (tshape x) 0%nat; nth 1 (tshape w) 0%nat] (fun idx =>
    beta * tget s (bidx (tshape s) idx) +
    alpha * lsum (seq 0 (nth 1 (tshape x) 0%nat)) (fun k => tget x [nth 0 idx 0%nat; k] * tget w [k; nth 1 idx 0%nat])).
(** [baddbmm] and [addbmm], operands [b; n; k] and [b; k; p] *)
Definition torch_baddbmm (beta alpha : R) (s x w : tensor R) : tensor R :=
  mkT [nth 0 (tshape x) 0%nat; nth 1 (tshape x) 0%nat; nth 2 (tshape w) 0%nat] (fun idx =>
    beta * tget s (bidx (tshape s) idx) +
    alpha * lsum (seq 0 (nth 2 (tshape x) 0%nat)) (fun k =>
      tget x [nth 0 idx 0%nat; nth 1 idx 0%nat; k] * tget w [nth 0 idx 0%nat; k; nth 2 idx 0%nat])).
Definition torch_addbmm (beta alpha : R) (s x w : tensor R) : tensor R :=
  mkT [nth 1 (tshape x) 0%nat; nth 2 (tshape w) 0%nat] (fun idx =>
    beta * tget s (bidx (tshape s) idx) +
    alpha * lsum (seq 0 (nth 0 (tshape x) 0%nat)) (fun q => lsum (seq 0 (nth 2 (tshape x) 0%nat)) (fun k =>
      tget x [q; nth 0 idx 0%nat; k] * tget w [q; k; nth 1 idx 0%nat]))).

(** [softmax] and [log_softmax] along an axis *)
Definition torch_softmax (ax : nat) (x : tensor R) : tensor R :=
  mkT (tshape x) (fun idx => exp (tget x idx) / lsum (seq 0 (nth ax (tshape x) 0%nat)) (fun i => exp (tget x (upd idx ax i)))).
Definition torch_log_softmax (ax : nat) (x : tensor R) : tensor R :=
  mkT (tshape x) (fun idx => tget x idx - ln (lsum (seq 0 (nth ax (tshape x) 0%nat)) (fun i => exp (tget x (upd idx ax i))))).

(** [permute]: axis [i] of the result is axis [dims[i]] of the operand, counted from the end when negative *)
Definition is_permute {A} (dims : list Z) (x y : tensor A) : Prop :=
  let pick (l : list nat) := map (fun d => nth (axis_of (length (tshape x)) d) l 0%nat) dims in
  tshape y = pick (tshape x) /\ forall j, valid (tshape x) j -> tget y (pick j) = tget x j.
Definition dims_ok (n : nat) (dims : list Z) : Prop :=
  Forall (axis_ok n) dims /\ NoDup (map (axis_of n) dims) /\ length dims = n.
(** [transpose] of two axes *)
Definition swap_at (a b : nat) (l : list nat) : list nat := upd (upd l a (nth b l 0%nat)) b (nth a l 0%nat).
Definition torch_transpose {A} (a b : nat) (x : tensor A) : tensor A :=
  mkT (swap_at a b (tshape x)) (fun idx => tget x (swap_at a b idx)).
(** [select]: the slice at an index of an axis, without the axis *)
Definition torch_select {A} (ax i : nat) (x : tensor A) : tensor A :=
  mkT (remove_at ax (tshape x)) (fun idx => tget x (insert_at ax i idx)).
(** [embedding] *)
Definition torch_embedding {A} (w : tensor A) (ix : tensor nat) : tensor A :=
  mkT (tshape ix ++ [nth 1 (tshape w) 0%nat]) (fun idx => tget w [tget ix (removelast idx); last idx 0%nat]).

(** * TFLite *)

(** FULLY_CONNECTED: weight [out; in]; the bias has one element per output; without [keep_num_dims] the operand is seen
    as a matrix *)
Definition fully_connected (keep : bool) (x w b : tensor R) : option (tensor R) :=
  let n := nth 0 (tshape w) 0%nat in let k := nth 1 (tshape w) 0%nat in
  let bias j := tget b (unravel (tshape b) j) in
  if (length (tshape w) =? 2)%nat && (prod (tshape b) =? n)%nat && (prod (tshape x) mod k =? 0)%nat then
    if keep then (if (last (tshape x) 0 =? k)%nat then Some (fc x w bias) else None)
    else Some (fc (reshape [prod (tshape x) / k; k]%nat x) w bias)
  else None.
(** BATCH_MATMUL without adjoints takes two to five axes and broadcasts the leading ones *)
Definition batch_matmul (x w : tensor R) : option (tensor R) :=
  if (length (tshape x) <=? 5)%nat && (length (tshape w) <=? 5)%nat then torch_matmul x w else None.
(** SOFTMAX and LOG_SOFTMAX work along the last axis *)
Definition softmax_op (x : tensor R) : tensor R :=
  mkT (tshape x) (fun idx => exp (tget x idx) / lsum (seq 0 (last (tshape x) 0%nat)) (fun i => exp (tget x (removelast idx ++ [i])))).
Definition log_softmax_op (x : tensor R) : tensor R :=
  mkT (tshape x) (fun idx => tget x idx - ln (lsum (seq 0 (last (tshape x) 0%nat)) (fun i => exp (tget x (removelast idx ++ [i]))))).
(** TRANSPOSE refuses a permutation with entries outside of the range [0, rank) *)
Definition transpose_op {A} (perm : list Z) (x : tensor A) : option (tensor A) :=
  if forallb (fun d => (0 <=? d) && (d <? Z.of_nat (length (tshape x))))%Z perm then Some (transpose (map Z.to_nat perm) x) else None.
