(** Model of how the pruner follows the channels of a layer through the graph: the tensors of the trace are filled
    with the numbers of the channels, the operators are run on them, and the numbers that arrive at the other layers
    are recorded ([fill_tensor_by_dim_changes], [calc_dim_changes], [calc_dim_constraint], [update_i] and
    [dim_change_forward], tinynn/graph/modifier.py), and of [SplitModifier.apply_mask].

    Simplified: one path from one center, so every node is visited once and every tensor that is not on the path
    holds -1 ([reset_tensors], 3262-3267); the numbers are integers instead of floats; a python set is the list of its
    elements, a dict the list of its items; [None] is an exception of Python. *)
From Coq Require Import List Arith Bool ZArith.
From Verif Require Import Tensor PruneModel.
Import ListNotations.
Local Open Scope nat_scope.

(** The indices of a tensor, and those with index [k] on axis [d] ([arr.take(i, axis=dim)], 252). *)
Definition indices (s : list nat) : list (list nat) := map (unravel s) (seq 0 (prod s)).
Definition slice_of (s : list nat) (d k : nat) : list (list nat) := filter (fun i => nth d i 0 =? k) (indices s).

(** [fill_tensor_by_dim_changes] without [values] (3411-3429): every axis of [dims] adds its index. *)
Definition fill (s dims : list nat) : tensor Z :=
  mkT s (fun i => fold_right (fun d a => (Z.of_nat (nth d i 0%nat) + a)%Z) 0%Z dims).

(** [calc_dim_changes] (282-299), after the operator was run: the axes whose slices have different sums. *)
Definition slice_sum (t : tensor Z) (d k : nat) : Z :=
  fold_right Z.add 0%Z (map (tget t) (slice_of (tshape t) d k)).
Definition changed (t : tensor Z) (d : nat) : bool :=
  1 <? length (nodup Z.eq_dec (map (slice_sum t d) (seq 0 (nth d (tshape t) 0)))).
Definition dim_changes (t : tensor Z) : list nat := filter (changed t) (seq 0 (length (tshape t))).

(** [calc_dim_constraint] (242-260) *)
Definition dim_constraint (t : tensor Z) (d : nat) : list pset :=
  map (fun k => nodup Z.eq_dec (map (tget t) (slice_of (tshape t) d k))) (seq 0 (nth d (tshape t) 0)).
Definition dim_constraints (t : tensor Z) (dims : list nat) : list (nat * list pset) :=
  map (fun d => (d, dim_constraint t d)) dims.

(** [dim_transform] of [update_i] (421-465): from the numbers in a tensor to sets of channels of the center; 442-453: a set none of whose
    elements is a key stays *)
Definition transform := list (Z * pset).
Fixpoint zget (k : Z) (m : transform) : option pset :=
  match m with [] => None | (a, v) :: r => if (k =? a)%Z then Some v else zget k r end.
Definition redirect (tr : transform) (s : pset) : pset :=
  match flat_map (fun c => match zget c tr with Some v => v | None => [] end) s with [] => s | n => n end.

(** The arguments of [dim_change_forward] (823): [tensor], [dim_changes_i], [dim_transform], [tensor_constraint]. *)
Record track := mkTrack {
  tk_t : tensor Z;
  tk_dims : list nat;
  tk_tr : option transform;
  tk_con : option (list (nat * list pset)) }.

(** [update_i] (421-465): what is recorded at a node and returned *)
Definition update_i (st : track) : list (nat * list pset) :=
  match tk_con st with
  | Some c => c
  | None =>
    map (fun e => (fst e, map (redirect (match tk_tr st with Some tr => tr | None => [] end)) (snd e)))
      (dim_constraints (tk_t st) (tk_dims st))
  end.

(** 1095-1098, 1125-1128, 1783-1786, 2424-2427: the transform of a tensor that is filled again; [constraints_i] of
    the first axis, [None] where the axis was not recorded *)
Definition transform_of (con : list (nat * list pset)) (d : nat) : option transform :=
  match dget d con with Some l => Some (combine (map Z.of_nat (seq 0 (length l))) l) | None => None end.
Definition refill (out dims : list nat) (con : list (nat * list pset)) (keep : option (list (nat * list pset))) :
  option track :=
  match dims with
  | [] => None
  | d :: _ => option_map (fun tr => mkTrack (fill out dims) dims (Some tr) keep) (transform_of con d)
  end.

(** [tensor_o.copy_(tensor)] (848) broadcasts: whether the shapes allow it, and the index of [tensor] for an index of
    [tensor_o] *)
Definition bcast_ok (s out : list nat) : bool :=
  (length s <=? length out) &&
  forallb (fun e => (fst e =? 1) || (fst e =? snd e)) (combine s (skipn (length out - length s) out)).
Definition bidx (s i : list nat) : list nat :=
  map (fun e => if fst e =? 1 then 0 else snd e) (combine s (skipn (length i - length s) i)).
(** 858-865: [tensor_o] has more axes and one element on the first; the entries of [tensor_constraint] move *)
Definition shift_con (dims : list nat) (con : list (nat * list pset)) : list (nat * list pset) :=
  fold_left (fun c d => match dget d c with
                        | Some v => (S d, v) :: filter (fun e => negb (fst e =? d) && negb (fst e =? S d)) c
                        | None => c
                        end) dims con.

(** The nodes of a path, with the shape of their output; the classes of tinynn/graph/modifier.py that override
    [dim_change_forward] and the default. *)
Inductive pnode :=
| NSame (out : list nat)                       (* [Modifier.dim_change_forward], 823-875 *)
| NIndex (f : tensor Z -> tensor Z)            (* [ReIndexModifier], 1264-1277; [f] is the operator *)
| NPad (out : list nat)                        (* [PaddingModifier], 1080-1100 *)
| NPool (out : list nat)                       (* [PoolingModifier], 1104-1130 *)
| NDepth (out : list nat)                      (* [ConvChannelModifier] of a depthwise convolution, 2400-2433 *)
| NLinear (dim_c : nat) (out : list nat)       (* [LinearChannelModifier], 1767-1789 *)
| NCat (dim : nat) (front back : list (list nat)) (* [CatModifier], 1472-1512; shapes of the other inputs *).

(** [torch.cat], run by [calc_dim_changes] (1499), of the tensor with other tensors that hold -1; the sum of the sizes
    of inputs on an axis is [offset] (1473-1479) *)
Definition axis_sum (dim : nat) (l : list (list nat)) : nat := fold_right (fun s a => nth dim s 0 + a) 0 l.
Definition cat_labels (dim : nat) (front back : list (list nat)) (t : tensor Z) : tensor Z :=
  let o := axis_sum dim front in
  let n := nth dim (tshape t) 0 in
  mkT (upd (tshape t) dim (o + n + axis_sum dim back))
    (fun i => let k := nth dim i 0 in
       if (o <=? k) && (k <? o + n) then tget t (upd i dim (k - o)) else (-1)%Z).

(** [dim_changes_i.remove(...)] (1774-1775, 2402-2406), [origin_ch.remove(idx)] (1326) *)
Fixpoint remove1 (x : nat) (l : list nat) : list nat :=
  match l with [] => [] | y :: t => if y =? x then t else y :: remove1 x t end.

(** One node: the arguments for the next node ([Some None]: the node passes nothing on; [None]: it raises).  For
    [NCat] only the case that the changed axes contain the axis of the concatenation (the other, 1483-1497, writes
    into the other inputs). *)
Definition pstep (n : pnode) (st : track) : option (option track) :=
  let con := update_i st in
  let t := tk_t st in
  let dims := tk_dims st in
  match n with
  | NSame out =>
      if negb (bcast_ok (tshape t) out) then None
      else if (length (tshape t) <? length out) && (hd 0 out =? 1)
      then Some (Some (mkTrack (mkT out (fun i => tget t (bidx (tshape t) i))) (map S dims) (tk_tr st)
                         (Some (shift_con dims con))))
      else Some (Some (mkTrack (mkT out (fun i => tget t (bidx (tshape t) i))) dims (tk_tr st) (Some con)))
  | NIndex f =>
      match dim_changes (f t) with
      | [] => Some None
      | ds => Some (Some (mkTrack (f t) ds (tk_tr st) None))
      end
  | NPad out => option_map Some (refill out dims con None)
  | NPool out => match dims with [1] => option_map Some (refill out dims con None) | _ => None end
  | NDepth out =>
      let ds := remove1 3 (remove1 2 dims) in
      let c := update_i (mkTrack t ds (tk_tr st) (tk_con st)) in
      match ds with [] => Some None | _ => option_map Some (refill out ds c (Some c)) end
  | NLinear dim_c out =>
      match remove1 dim_c dims with [] => Some None | ds => option_map Some (refill out ds con None) end
  | NCat dim front back =>
      if existsb (Nat.eqb dim) dims then
        let o := axis_sum (hd 0 dims) front in
        let t' := cat_labels dim front back t in
        let tr' := match tk_tr st with
                   | Some tr => Some (if o =? 0 then tr else map (fun e => ((fst e + Z.of_nat o)%Z, snd e)) tr)
                   | None => None
                   end in
        Some (Some (mkTrack t' (dim_changes t') tr' None))
      else None
  end.
(** [m.dim_change_forward(...)] of the next modifier at the end of each (875, 1277, 1100, 1130, 2430-2433, 1789, 1512) *)
Fixpoint ptrack (ns : list pnode) (st : track) : option (option track) :=
  match ns with
  | [] => Some (Some st)
  | n :: r => match pstep n st with Some (Some st') => ptrack r st' | x => x end
  end.

(** [change_dimension] of a center with output shape [s] and channel axis [c] (1753-1765, 2384-2398) *)
Definition pstart (s : list nat) (c : nat) : track :=
  mkTrack (fill s [c]) [c] None (Some (dim_constraints (fill s [c]) [c])).

(** * [SplitModifier] *)

(** [split_dict] (1288-1297).  The outputs are given by their sizes on the axis and their values, the next nodes by
    name and the values of their inputs: [torch.equal] compares values. *)
Fixpoint dput {B} (k : nat) (v : B) (d : list (nat * B)) : list (nat * B) :=
  match d with
  | [] => [(k, v)]
  | (k', v') :: r => if k =? k' then (k', v) :: r else (k', v') :: dput k v r
  end.
Fixpoint split_dict (start : nat) (outs : list (nat * nat)) (next : list (nat * list nat)) (d : list (nat * (nat * nat)))
  : list (nat * (nat * nat)) :=
  match outs with
  | [] => d
  | (size, v) :: r =>
    split_dict (start + size) r next
      (fold_left (fun d n => fold_left (fun d v' => if v =? v' then dput (fst n) (start, start + size) d else d) (snd n) d)
         next d)
  end.
(** 1321-1328: the sizes of the parts without the removed channels *)
Definition kept_in (remove : list nat) (se : nat * nat) : nat :=
  length (fold_left (fun l i => remove1 i l) remove (seq (fst se) (snd se - fst se))).
(** [apply_mask] with a list of sizes (1318-1336) *)
Fixpoint min_each (ch new : list nat) : option (list nat) :=
  match ch, new with
  | [], _ => Some []
  | a :: r, b :: n => option_map (cons (Nat.min a b)) (min_each r n)
  | _ :: _, [] => None
  end.
Definition split_list (ch : list nat) (outs : list (nat * nat)) (next : list (nat * list nat)) (remove : list nat)
  : option (list nat) :=
  min_each ch (map (fun e => kept_in remove (snd e)) (split_dict 0 outs next [])).
(** [apply_mask] with one size (1337-1339) *)
Definition split_size (ot_channel remove : list nat) : nat :=
  hd 0 ot_channel - length remove / length ot_channel.
