(** Model of [elementwise_op_transpose_passthrough_pass] on one node
    ([tinynn/converter/operators/optimize.py] 1794-2124).

    The pass picks a permutation [perm] among the transposes around the node, puts
    [TRANSPOSE(argsort(perm))] in front of every operand, rewrites the axis arguments of the
    node, and puts [TRANSPOSE(perm)] behind it.  Which node and which candidate is picked
    (counting transposes, hints) does not matter for the result and is not modelled: the
    theorems hold for every candidate.  Axis arguments are non-negative ([torch/aten.py]
    normalises them). *)
From Coq Require Import List Arith Bool ZArith.
From Verif Require Import Tensor ChainModel.
Import ListNotations.

(** [np.argsort(perm_arr)] (optimize.py 1961-1962). *)
Definition pt_inv (perm : list nat) : list nat := argsort perm.

(** [np.where(inv == axis)[0][0]] (optimize.py 2045, 2049, 2053, 2058, 2106); [None]: IndexError. *)
Fixpoint np_where (v : nat) (l : list nat) : option nat :=
  match l with
  | [] => None
  | x :: l' => if x =? v then Some 0 else option_map S (np_where v l')
  end.
(** new axis of CONCATENATION, GATHER, UNPACK, SPLIT, SPLIT_V (optimize.py 2043-2061). *)
Definition pt_axis (perm : list nat) (ax : nat) : option nat := np_where ax (pt_inv perm).

(** [table[inv_perm_arr]]: rows of PAD, PADV2, MIRROR_PAD, TILE, SLICE, STRIDED_SLICE operands
    (optimize.py 2062-2070, 2081-2089); [None]: IndexError. *)
Fixpoint take_all {D} (table : list D) (ks : list nat) : option (list D) :=
  match ks with
  | [] => Some []
  | k :: ks' => match nth_error table k, take_all table ks' with
                | Some d, Some r => Some (d :: r)
                | _, _ => None
                end
  end.
Definition pt_table {D} (perm : list nat) (table : list D) : option (list D) := take_all table (pt_inv perm).

(** new axes of SUM, MEAN, REDUCE_MIN, REDUCE_MAX, REDUCE_PROD (optimize.py 2090-2110).  The node
    is only considered when operand and result have the same rank (3900-3922), that is with
    kept axes; ARG_MIN and ARG_MAX always drop the axis and never qualify. *)
Fixpoint pt_axes (perm axes : list nat) : option (list nat) :=
  match axes with
  | [] => Some []
  | a :: axes' => match np_where a (pt_inv perm), pt_axes perm axes' with
                  | Some k, Some r => Some (k :: r)
                  | _, _ => None
                  end
  end.

(** Entries different from [axis], those above it decremented (optimize.py 1965-1966, 1973-1974). *)
Definition drop_axis (axis : nat) (p : list nat) : list nat :=
  map (fun k => if axis <? k then k - 1 else k) (filter (fun k => negb (k =? axis)) p).
(** Candidate of a neighbouring transpose for PACK / UNPACK: the axis is inserted
    (optimize.py 1857-1860, 1911-1914). *)
Definition insert_axis (axis : nat) (p : list nat) : list nat :=
  let p' := map (fun i => if i <? axis then i else i + 1) p in firstn axis p' ++ axis :: skipn axis p'.

(** Permutation behind an UNPACK node (optimize.py 1964-1968). *)
Definition unpack_post (perm : list nat) (axis : nat) : list nat := argsort (drop_axis axis (pt_inv perm)).
(** Permutation in front of the operands of a PACK node, and its new axis
    (optimize.py 1969-1976, 2047-2050); behind the node [perm] is used. *)
Definition pack_pre (perm : list nat) (axis : nat) : list nat := argsort (drop_axis axis perm).
Definition pack_axis (perm : list nat) (axis : nat) : option nat := np_where axis (pt_inv perm).

(** Declared shape of an output nobody reads: [orig_shape[inv_perm_arr]] (optimize.py 2019-2023). *)
Definition unused_shape (perm oshape : list nat) : option (list nat) := take_all oshape (pt_inv perm).

(** Operand of a binary operator: leading axes of size 1 are added when the rank differs from the
    permutation (optimize.py 1992-2007); [np.transpose] raises when the sizes still differ. *)
Definition pt_operand {A} (perm : list nat) (t : tensor A) : option (tensor A) :=
  let n := length perm in
  let t' := if length (tshape t) =? n then t
            else reshape (repeat 1 (n - length (tshape t)) ++ tshape t) t in
  if length (tshape t') =? n then Some (transpose (pt_inv perm) t') else None.

(** Which operands of ADD, SUB, MUL, DIV and SQUARED_DIFFERENCE get a transpose
    ([op_input_indices], optimize.py 4361-4380). *)
Definition is_one (s : list nat) : bool := match s with [d] => d =? 1 | _ => false end.
Definition pt_binary {A B} (perm : list nat) (x : tensor A) (y : tensor B) : option (tensor A * tensor B) :=
  if is_one (tshape y) then match pt_operand perm x with Some x' => Some (x', y) | None => None end
  else if is_one (tshape x) then match pt_operand perm y with Some y' => Some (x, y') | None => None end
  else match pt_operand perm x, pt_operand perm y with Some x', Some y' => Some (x', y') | _, _ => None end.

(** The weight of a PRELU node (optimize.py 2071-2080): the [assert] and the new weight. *)
Definition pt_prelu_weight {A} (perm : list nat) (w : tensor A) : option (tensor A) :=
  if length (tshape w) =? 1 then Some w
  else if length (tshape w) + 1 =? length (pt_inv perm)
       then Some (transpose (argsort (argsort (tl (pt_inv perm)))) w)
       else None.

(* ------------------------------------------------------------------ *)
(** * Removal of operators that do nothing
    ([remove_noop_pass], optimize.py 1175-1185, with [is_ending_with_noop_edge], 4012-4064) *)

(** The operators the test looks at, with their constant operands. *)
Inductive nnode :=
| NReshape (out : list nat)
| NTranspose (perm : list nat)
| NPad (pads : list (Z * Z))          (* PAD, PADV2: amounts as given to torch *)
| NMirrorPad (pads : list (nat * nat))
| NTile (m : list nat)
| NSlice (begin size : list nat)
| NStridedSlice (s e st : list nat)
| NConcat (ax : nat) (nin : nat)
| NGather (ax : nat) (ix : list nat)
| NCast (src dst : nat).

Fixpoint list_eqb_nat (a b : list nat) : bool :=
  match a, b with
  | [], [] => true
  | x :: a', y :: b' => (x =? y) && list_eqb_nat a' b'
  | _, _ => false
  end.
(** [(np.diff(a) == 1).all()] (optimize.py 4033, 4057) *)
Fixpoint diff_ones (l : list nat) : bool :=
  match l with
  | a :: (b :: _) as l' => (b =? a + 1) && diff_ones l'
  | _ => true
  end.
(** The node tests of optimize.py 4026-4063; [ish], [osh]: recorded shapes of the first operand and
    the result.  The conditions on the neighbours (4016-4025) only restrict where it is applied. *)
Definition is_noop (nd : nnode) (ish osh : list nat) : bool :=
  match nd with
  | NReshape _ => list_eqb_nat ish osh
  | NTranspose perm => diff_ones perm
  | NPad _ | NMirrorPad _ => list_eqb_nat ish osh
  | NTile _ => list_eqb_nat ish osh
  | NSlice _ _ | NStridedSlice _ _ _ => list_eqb_nat ish osh
  | NConcat _ nin => (nin =? 1) && list_eqb_nat ish osh
  | NGather _ ix => list_eqb_nat ish osh && diff_ones ix
  | NCast a b => a =? b
  end.
