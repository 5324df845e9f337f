(** Model of [elementwise_reshape_transpose_passthrough_pass]
    ([tinynn/converter/operators/optimize.py] 1317-1593: moving transposes across a RESHAPE) and of
    [elementwise_op_reshape_passthrough_pass] (2127-2566: moving reshapes across another node), each
    on one node.

    Not modelled, because the theorems hold for every choice: which node is picked and whether
    moving pays off (counting nodes, direction hints, 1442-1463, 2282-2299). *)
From Coq Require Import List Arith Bool ZArith Lia.
From Verif Require Import Tensor ChainModel PassModel LayoutSpec FuseModel.
Import ListNotations.

(* ------------------------------------------------------------------ *)
(** * Moving transposes across a RESHAPE *)

(** [mode] of the node: [MUp] groups on the left, [MDown] groups on the right, [MBad] is ['?']. *)
Inductive rmode := MNone | MUp | MDown | MBad.
(** optimize.py 1344-1362: the loop over the groups of [reshape_mapping]; the second component is
    [need_chain].  The comparison [r_val != l_val] is between axis numbers. *)
Fixpoint rt_scan (gs : list (list nat * list nat)) (mode : rmode) (chain : bool) : rmode * bool :=
  match gs with
  | [] => (mode, chain)
  | (g, h) :: gs' =>
      if (1 <? length g) && (length h =? 1) then
        match mode with MNone | MUp => rt_scan gs' MUp chain | _ => (MBad, chain) end
      else if (1 <? length h) && (length g =? 1) then
        match mode with MNone | MDown => rt_scan gs' MDown chain | _ => (MBad, chain) end
      else if (1 <? length h) && (1 <? length g) then
        if negb (length h =? length g) || negb (list_eqb h g) then (MBad, chain)
        else rt_scan gs' mode true
      else rt_scan gs' mode chain
  end.
(** optimize.py 1340-1342, 1364-1365; [None]: the node is left alone (a scalar, or '?') or
    [reshape_mapping] raises. *)
Definition rt_groups (l r : list nat) : option (list (list nat * list nat)) :=
  match l, r with
  | [], _ | _, [] => None
  | _, _ => match reshape_mapping l r with
            | Some (ml, mr, _, _) => Some (combine ml mr)
            | None => None
            end
  end.
Definition rt_mode (l r : list nat) : option rmode :=
  obind (rt_groups l r) (fun gs =>
    match fst (rt_scan gs MNone false) with
    | MNone => Some MDown
    | MBad => None
    | m => Some m
    end).
Definition both_many (p : list nat * list nat) : bool := (1 <? length (fst p)) && (1 <? length (snd p)).
(** optimize.py 1385-1404: groups with several axes on both sides are taken apart. *)
Definition rt_expand (chain : bool) (gs : list (list nat * list nat)) : list (list nat * list nat) :=
  if chain then flat_map (fun p => if both_many p then combine (map (fun k => [k]) (fst p)) (map (fun k => [k]) (snd p)) else [p]) gs
  else gs.
Definition rt_checks (chain : bool) (mode : rmode) (gs : list (list nat * list nat)) : list (list nat) :=
  if chain then map (match mode with MDown => fst | _ => snd end) (filter both_many gs) else [].
(** optimize.py 1468-1480: the positions of such a group must be consecutive in the permutation. *)
Definition normalized (c : list nat) : list Z := map (fun x => (Z.of_nat x - Z.of_nat (hd 0%nat c))%Z) c.
Definition zlist_eqb (a b : list Z) : bool := (length a =? length b) && forallb (fun p => Z.eqb (fst p) (snd p)) (combine a b).
Definition rt_consecutive (mode : rmode) (perm c : list nat) : bool :=
  let target := sel (match mode with MDown => perm | _ => argsort perm end) c in
  zlist_eqb (normalized c) (normalized target).
(** [dict(zip([x[0] for x in keys], values))[x]] (optimize.py 1500-1501, 1506-1507): the last pair with
    the key counts; [None]: KeyError. *)
Fixpoint group_of (gs : list (list nat * list nat)) (x : nat) : option (list nat) :=
  match gs with
  | [] => None
  | (k, v) :: gs' => match group_of gs' x with
                     | Some w => Some w
                     | None => if hd 0 k =? x then Some v else None
                     end
  end.
Fixpoint chain_groups (gs : list (list nat * list nat)) (xs : list nat) : option (list nat) :=
  match xs with
  | [] => Some []
  | x :: xs' => obind (group_of gs x) (fun v => obind (chain_groups gs xs') (fun w => Some (v ++ w)))
  end.
(** optimize.py 1498-1512, 1552-1556: permutation in front of the node, its new shape, permutation
    behind it.  [perm] is the candidate: in mode [MDown] of a transpose in front of the node, in mode
    [MUp] of one behind it. *)
Definition rt_plan (l r perm : list nat) : option (list nat * list nat * list nat) :=
  obind (rt_groups l r) (fun gs =>
  obind (rt_mode l r) (fun mode =>
    let chain := snd (rt_scan gs MNone false) in
    if forallb (rt_consecutive mode perm) (rt_checks chain mode gs) then
      let gs' := rt_expand chain gs in
      match mode with
      | MDown =>
          let inv := argsort perm in
          obind (chain_groups gs' inv) (fun inv_post => Some (inv, sel r inv_post, argsort inv_post))
      | _ =>
          obind (chain_groups (map (fun p => (snd p, fst p)) gs') perm) (fun inv =>
            let post := argsort perm in Some (inv, sel r (argsort post), post))
      end
    else None)).

(* ------------------------------------------------------------------ *)
(** * Moving reshapes across another node *)

(** Shapes with the marker -1 (the axis the node works on) are written with the marker 0; real
    dimensions are positive. *)
Inductive nkind := KPack | KUnpack | KOther.

(** [rev_mapping[d]] / [mapping[d]]; axes are paired at most once. *)
Fixpoint lookup (m : list (nat * nat)) (x : nat) : option nat :=
  match m with
  | [] => None
  | (a, b) :: m' => if a =? x then Some b else lookup m' x
  end.
Definition flipped (m : list (nat * nat)) : list (nat * nat) := map (fun p => (snd p, fst p)) m.

(** optimize.py 2165-2175, 2229-2239: where the packing axis goes; [None]: -1. *)
Definition new_position (m : list (nat * nat)) (d : nat) : option nat :=
  match lookup m d with
  | Some x => Some x
  | None =>
      match (if d =? 0 then None else lookup m (d - 1)) with
      | Some x => Some (x + 1)
      | None => match lookup m (d + 1) with
                | Some (S x) => Some x
                | _ => None
                end
      end
  end.
(** optimize.py 2154-2212: the candidate of a reshape [a -> b] in front of the node, [d] the axis of
    the node ([op_input_dims]).  [None]: no candidate. *)
Definition cand_prev (kind : nkind) (d : option nat) (a b : list nat) : option (list nat * list nat) :=
  obind (is_simple_reshape a b) (fun m =>
    match d with
    | None => Some (a, b)
    | Some d =>
        match kind with
        | KPack => Some (match new_position (flipped m) d with Some x => insert_at x 0 a | None => a end, insert_at d 0 b)
        | _ => obind (lookup (flipped m) d) (fun x => Some (upd a x 0, upd b d 0))
        end
    end).
(** optimize.py 2214-2272: the candidate of a reshape [a -> b] behind the node. *)
Definition cand_next (kind : nkind) (d : option nat) (a b : list nat) : option (list nat * list nat) :=
  obind (is_simple_reshape a b) (fun m =>
    match d with
    | None => Some (b, a)
    | Some d =>
        match kind with
        | KUnpack => Some (match new_position m d with Some x => insert_at x 0 b | None => b end, insert_at d 0 a)
        | _ => obind (lookup m d) (fun x => Some (upd b x 0, upd a d 0))
        end
    end).

(** The dictionary [is_simple_reshape] fills, also when it ends with [False] (optimize.py 4544-4582). *)
Fixpoint scan_pairs (a : list nat) : list nat -> nat -> nat -> list (nat * nat) :=
  match a with
  | [] => fun _ _ _ => []
  | x :: a' =>
      fix scan (b : list nat) (i j : nat) {struct b} :=
        match b with
        | [] => []
        | y :: b' =>
            if x =? y then (i, j) :: scan_pairs a' b' (S i) (S j)
            else if x =? 1 then scan_pairs a' b (S i) j
            else if y =? 1 then scan b' i (S j)
            else []
        end
  end.
Definition simple_pairs (a b : list nat) : list (nat * nat) :=
  if list_eqb a b then map (fun i => (i, i)) (seq 0 (length a)) else scan_pairs a b 0 0.

(** optimize.py 2333-2345: the shape an operand of shape [s] gets; [None]: IndexError. *)
Fixpoint fill (m : list (nat * nat)) (s out : list nat) : option (list nat) :=
  match m with
  | [] => Some out
  | (x, y) :: m' => match nth_error s y with Some v => fill m' s (upd out x v) | None => None end
  end.
Definition align (prev next s : list nat) : option (list nat) :=
  if prod s =? prod prev then Some prev
  else fill (simple_pairs prev next)
            (if length s <? length next then repeat 1 (length next - length s) ++ s else s)
            (repeat 1 (length prev)).
(** [np.reshape] with a shape without -1; [None]: ValueError. *)
Definition np_reshape {A} (s : list nat) (t : tensor A) : option (tensor A) :=
  if prod s =? prod (tshape t) then Some (reshape s t) else None.
Definition unmarked (s : list nat) : list nat := filter (fun k => negb (k =? 0)) s.
(** optimize.py 2323-2360: an operand of the node; of PACK without the marker (2329-2331). *)
Definition rp_operand {A} (kind : nkind) (prev next : list nat) (t : tensor A) : option (tensor A) :=
  let prev := match kind with KPack => unmarked prev | _ => prev end in
  obind (align prev next (tshape t)) (fun s => np_reshape s t).
(** optimize.py 2363-2383: the recorded shape of an output of shape [s]; a marker is inferred
    (np.reshape), for UNPACK removed.  [None]: ValueError. *)
Definition rp_recorded (kind : nkind) (prev s : list nat) : option (list nat) :=
  let prev := match kind with KUnpack => unmarked prev | _ => prev end in
  match np_where 0 prev with
  | None => if prod prev =? prod s then Some prev else None
  | Some x => let rest := prod (unmarked prev) in
              if rest * (prod s / rest) =? prod s then Some (upd prev x (prod s / rest)) else None
  end.

(** [prev_shape.index(-1)], [next_shape.index(-1)] (optimize.py 2405-2509); [None]: ValueError. *)
Definition rp_axis (prev : list nat) : option nat := np_where 0 prev.
(** a vector that is [d] except at [k] *)
Definition put {D} (d : D) (n k : nat) (v : D) : list D := map (fun j => if j =? k then v else d) (seq 0 n).
(** rows of PAD, PADV2, MIRROR_PAD (optimize.py 2415-2422), begins of SLICE and STRIDED_SLICE
    (2435-2441, 2453-2456), strides (2503-2505), multiples of TILE (2510-2517): [d] except on the axis.
    Starts and ends computed at run time (2457-2481, 2485-2501) are assembled to the same vector. *)
Definition rp_row {D} (d : D) (prev next : list nat) (old : list D) : option (list D) :=
  obind (np_where 0 prev) (fun k => obind (np_where 0 next) (fun o => obind (nth_error old o) (fun v =>
    Some (put d (length prev) k v)))).
(** sizes of SLICE (2443-2445), ends of STRIDED_SLICE (2483-2484): [prev_shape] except on the axis *)
Definition rp_extent (prev next old : list nat) : option (list nat) :=
  obind (np_where 0 prev) (fun k => obind (np_where 0 next) (fun o => obind (nth_error old o) (fun v =>
    Some (upd prev k v)))).
(** the weight of PRELU (optimize.py 2423-2434); [new_shape[-1]] is the last entry. *)
Definition rp_prelu_weight {A} (prev next : list nat) (w : tensor A) : option (tensor A) :=
  if length (tshape w) =? 1 then Some w
  else obind (np_where 0 prev) (fun k => obind (np_where 0 next) (fun o =>
         obind (nth_error (tshape w) (match o with 0 => length (tshape w) - 1 | S o' => o' end)) (fun v =>
           let n := length prev - 1 in
           if n =? 0 then None
           else np_reshape (put 1 n (match k with 0 => n - 1 | S k' => k' end) v) w))).

(** [op_input_dims] (optimize.py 4315-4358): the only axis that counts, if there is exactly one. *)
Definition only_axis (l : list nat) : option nat := match l with [k] => Some k | _ => None end.
Definition dims_pad (pads : list (nat * nat)) : option nat :=
  only_axis (filter (fun k => negb (fst (nth k pads (0, 0)) + snd (nth k pads (0, 0)) =? 0)) (seq 0 (length pads))).
Definition dims_shape (ish osh : list nat) : option nat :=
  only_axis (filter (fun k => negb (nth k osh 0 =? nth k ish 0)) (seq 0 (length ish))).
Definition dims_prelu (w : list nat) : option nat :=
  option_map S (only_axis (filter (fun k => negb (nth k w 0 =? 1)) (seq 0 (length w)))).
Definition dims_reduce (axes : list nat) : option nat := only_axis axes.

(** The operands of a broadcasting node: [op_input_indices] (optimize.py 4361-4380; [whole]: MINIMUM and
    MAXIMUM, whose operands are both moved), then each one as above; the result has no marker. *)
Definition rp_binary {A B} (whole : bool) (prev next oshape : list nat) (x : tensor A) (y : tensor B) : option (tensor A * tensor B) :=
  obind (rp_recorded KOther prev oshape) (fun _ =>
  if negb whole && is_one (tshape y) then obind (rp_operand KOther prev next x) (fun x' => Some (x', y))
  else if negb whole && is_one (tshape x) then obind (rp_operand KOther prev next y) (fun y' => Some (x, y'))
  else obind (rp_operand KOther prev next x) (fun x' => obind (rp_operand KOther prev next y) (fun y' => Some (x', y')))).

(** The candidates of a node whose (moved) operands have the shapes [ins] and whose outputs have the
    shapes [outs] (optimize.py 2146-2212, 2214-2272): every reshape in front of it or behind it. *)
Definition offered (kind : nkind) (d : option nat) (ins outs : list (list nat)) (prev next : list nat) : Prop :=
  (exists a b, In b ins /\ cand_prev kind d a b = Some (prev, next)) \/
  (exists a b, In a outs /\ cand_next kind d a b = Some (prev, next)).

(** [cand_shapes], [cand_next_shapes] (optimize.py 2196-2197, 2205-2206, 2256-2257, 2265-2266): a dictionary that
    counts, in the order of first insertion. *)
Fixpoint bump (k : list nat) (d : list (list nat * nat)) : list (list nat * nat) :=
  match d with
  | [] => [(k, 1)]
  | (k', c) :: d' => if list_eqb k' k then (k', S c) :: d' else (k', c) :: bump k d'
  end.
Definition tally (l : list (list nat)) : list (list nat * nat) := fold_left (fun d k => bump k d) l [].
(** [max(d.items(), key=lambda x: x[1])] (optimize.py 2320-2321): the first of the most frequent ones. *)
Fixpoint most (d : list (list nat * nat)) : option (list nat * nat) :=
  match d with
  | [] => None
  | (k, c) :: d' => match most d' with Some (k', c') => if c <? c' then Some (k', c') else Some (k, c) | None => Some (k, c) end
  end.
(** optimize.py 2274-2286, 2320-2321: the two shapes are chosen separately, when both are equally frequent. *)
Definition rp_select (cands : list (list nat * list nat)) : option (list nat * list nat) :=
  match most (tally (map fst cands)), most (tally (map snd cands)) with
  | Some (p, c), Some (n, c') => if c =? c' then Some (p, n) else None
  | _, _ => None
  end.
