(** Model of the converter passes that collapse chains of layout operators.
    Source: /repo/tinynn/converter/operators/optimize.py *)
From Coq Require Import List Arith Bool.
From Verif Require Import Tensor.
Import ListNotations.

(* ------------------------------------------------------------------ *)
(** ** Transposes and gathers *)

(** optimize.py 4461-4470 [fuse_transpose_perms]: the loop over the nodes of the
    sequence; the argument is the list of constant [inputs[1].tensor] values.
    [cur_perm[next_perm]] is numpy fancy indexing, i.e. [sel].
    Simplified: index values are natural numbers (the passes only see
    non-negative constants); out-of-range positions, a numpy IndexError, are
    excluded by the hypotheses of the theorems. *)
Definition fuse_transpose_perms (perms : list (list nat)) : option (list nat) :=
  fold_left (fun cur nxt => match cur with
                            | None => Some nxt
                            | Some c => Some (sel c nxt)
                            end) perms None.

(** numpy [np.sort] on a small integer array (used by optimize.py 770, 808). *)
Fixpoint insert_sorted (x : nat) (l : list nat) : list nat :=
  match l with
  | [] => [x]
  | y :: l' => if x <=? y then x :: l else y :: insert_sorted x l'
  end.
Fixpoint np_sort (l : list nat) : list nat :=
  match l with
  | [] => []
  | x :: l' => insert_sorted x (np_sort l')
  end.
Fixpoint list_eqb (l m : list nat) : bool :=
  match l, m with
  | [], [] => true
  | x :: l', y :: m' => (x =? y) && list_eqb l' m'
  | _, _ => false
  end.

(** What a pass leaves of a chain of operators: nothing, or one operator with a
    new constant argument, put in the place of the first node. *)
Inductive leftover (A : Type) := Removed | Single (arg : A).
Arguments Removed {A}.
Arguments Single {A} _.

(** optimize.py 757-771 [fuse_simple_transpose_pass._remove_first_pred] and
    773-783 [_remove_first_action]; the surrounding [elinimate_sequences]
    (4647-4815) deletes all nodes but the first, and the first as well when the
    predicate returned [True].  The 'direction' hints carry no value.  [None] is
    the unreachable case of an empty sequence. *)
Definition fuse_simple_transpose (perms : list (list nat)) : option (leftover (list nat)) :=
  match fuse_transpose_perms perms with
  | None => None
  | Some p => Some (if list_eqb p (np_sort p) then Removed else Single p)
  end.

(** optimize.py 795-809 [fuse_simple_gather_pass._remove_first_pred] and 811-821;
    textually the same decision as for transposes. The edge filter
    (4136-4147) makes all gathers of the chain use the same axis. *)
Definition fuse_simple_gather (ixs : list (list nat)) : option (leftover (list nat)) :=
  match fuse_transpose_perms ixs with
  | None => None
  | Some p => Some (if list_eqb p (np_sort p) then Removed else Single p)
  end.

(* ------------------------------------------------------------------ *)
(** ** Reshapes *)

(** optimize.py 913-927 [fuse_simple_reshape_pass._remove_first_pred] with the
    action 929-941: only the last shape of the chain is looked at. *)
Definition fuse_simple_reshape (orig : list nat) (shapes : list (list nat))
  : option (leftover (list nat)) :=
  match rev shapes with
  | [] => None
  | new_shape :: _ => Some (if list_eqb new_shape orig then Removed else Single new_shape)
  end.

(* ------------------------------------------------------------------ *)
(** ** Slices *)

(** One node of a slice chain: SLICE(start, size) or STRIDED_SLICE(start, end, strides). *)
Inductive slice_node :=
| NSlice (start size : list nat)
| NStrided (start end_ strides : list nat).

Fixpoint map2 {A B C} (f : A -> B -> C) (l : list A) (m : list B) : list C :=
  match l, m with
  | x :: l', y :: m' => f x y :: map2 f l' m'
  | _, _ => []
  end.
Definition vadd := map2 Nat.add.
Definition vmul := map2 Nat.mul.
Definition vmin := map2 Nat.min.
Definition vsub := map2 Nat.sub.

Definition node_start (n : slice_node) := match n with NSlice s _ => s | NStrided s _ _ => s end.

(** optimize.py 4431-4458 [fuse_slices], one iteration of the loop; the state is
    (cur_start, cur_end, cur_strides), [cur_end = None] before the first node.
    Simplified: entries are naturals (the converter normalises them,
    torch/aten.py 1965-1984); the in-place update [cur_start += ...] also writes
    into the first node's constant, which the pass replaces by the same value. *)
Definition fuse_slices_step
  (st : option (list nat * list nat * list nat)) (n : slice_node)
  : option (list nat * list nat * list nat) :=
  let next_start := node_start n in
  let ones := map (fun _ => 1) next_start in
  let zeros := map (fun _ => 0) next_start in
  let cur_strides := match st with None => ones | Some (_, _, t) => t end in
  let cur_start := match st with None => zeros | Some (s, _, _) => s end in
  let '(next_end, next_strides) :=
    match n with
    | NSlice s size => (vadd cur_start (vmul (vadd s size) cur_strides), ones)
    | NStrided s e t => (vadd cur_start (vmul e cur_strides), t)
    end in
  match st with
  | None => Some (next_start, next_end, next_strides)
  | Some (_, cur_end, _) =>
      Some (vadd cur_start (vmul next_start cur_strides),
            vmin cur_end next_end,
            vmul cur_strides next_strides)
  end.
Definition fuse_slices (nodes : list slice_node) : option (list nat * list nat * list nat) :=
  fold_left fuse_slices_step nodes None.

(** optimize.py 954-1004 [fuse_simple_slice_pass]: which operator replaces the chain. *)
Definition fuse_simple_slice (nodes : list slice_node) : option slice_node :=
  match fuse_slices nodes with
  | None => None
  | Some (start, end_, stride) =>
      Some (if forallb (fun x => x =? 1) stride
            then NSlice start (vsub end_ start)
            else NStrided start end_ stride)
  end.

(* ------------------------------------------------------------------ *)
(** ** Shape comparison *)

(** optimize.py 4544-4582 [is_simple_reshape], the [while True] loop as
    recursion on the two remaining suffixes; [i], [j] are the positions, used only
    for the mapping, which is returned as a list of pairs.  [None] is [return False]. *)
Fixpoint simple_scan (a : list nat) : list nat -> nat -> nat -> option (list (nat * nat)) :=
  match a with
  | [] =>
      fix scan0 (b : list nat) (i j : nat) {struct b} :=
        match b with
        | [] => Some []
        | y :: b' => if y =? 1 then scan0 b' i (S j) else None
        end
  | x :: a' =>
      fix scan (b : list nat) (i j : nat) {struct b} :=
        match b with
        | [] => if x =? 1 then simple_scan a' [] (S i) j else None
        | y :: b' =>
            if x =? y then option_map (cons (i, j)) (simple_scan a' b' (S i) (S j))
            else if x =? 1 then simple_scan a' b (S i) j
            else if y =? 1 then scan b' i (S j)
            else None
        end
  end.
Definition is_simple_reshape (orig new : list nat) : option (list (nat * nat)) :=
  if list_eqb orig new then Some (map (fun i => (i, i)) (seq 0 (length orig)))
  else simple_scan orig new 0 0.

(** optimize.py 4585-4644 [reshape_mapping]: the first loop.  State of the loop:
    positions [i], [j]; accumulated products; starts of the current groups; sign;
    the groups found so far in reverse order.  [sign]: None / 'l' / 'r'.
    Fuel counts iterations; every iteration advances [i] or [j].
    Result [None]: an AssertionError (4625, 4629) or [mapping_l[-1]] on an empty
    list (IndexError), or fuel exhausted. *)
Inductive sgn := SNone | SL | SR.
Definition append_last (g : list (list nat)) (i : nat) : option (list (list nat)) :=
  match g with
  | [] => None
  | x :: g' => Some ((x ++ [i]) :: g')
  end.
Definition range (a b : nat) : list nat := seq a (b - a).

Fixpoint rm_loop (fuel : nat) (s1 s2 : list nat) (i j acc_l start_l acc_r start_r : nat)
  (ml mr : list (list nat)) (sign : sgn) : option (list (list nat) * list (list nat)) :=
  match fuel with
  | 0 => None
  | S fuel' =>
      if (i <? length s1) || (j <? length s2) then
        if (i <? length s1) && (j <? length s2) then
          if (start_l =? i) && (start_r =? j) && (nth i s1 0 =? nth j s2 0) then
            rm_loop fuel' s1 s2 (S i) (S j) 1 (S i) 1 (S j) ([i] :: ml) ([j] :: mr) SNone
          else
            let acc_l := match sign with SR => acc_l | _ => nth i s1 0 * acc_l end in
            let acc_r := match sign with SL => acc_r | _ => nth j s2 0 * acc_r end in
            if acc_l =? acc_r then
              rm_loop fuel' s1 s2 (S i) (S j) 1 (S i) 1 (S j)
                      (range start_l (i + 1) :: ml) (range start_r (j + 1) :: mr) SNone
            else if acc_l <? acc_r then
              rm_loop fuel' s1 s2 (S i) j acc_l start_l acc_r start_r ml mr SL
            else
              rm_loop fuel' s1 s2 i (S j) acc_l start_l acc_r start_r ml mr SR
        else if i <? length s1 then
          if nth i s1 0 =? 1 then
            match append_last ml i with
            | None => None
            | Some ml' => rm_loop fuel' s1 s2 (S i) j acc_l start_l acc_r start_r ml' mr sign
            end
          else None
        else
          if nth j s2 0 =? 1 then
            match append_last mr j with
            | None => None
            | Some mr' => rm_loop fuel' s1 s2 i (S j) acc_l start_l acc_r start_r ml mr' sign
            end
          else None
      else Some (rev ml, rev mr)
  end.

(** optimize.py 4634-4643: drop unit dimensions from the groups. *)
Definition non_one (s : list nat) (g : list nat) : list nat :=
  filter (fun i => negb (nth i s 0 =? 1)) g.
Definition non_one_groups (s1 s2 : list nat) (ml mr : list (list nat))
  : list (list nat) * list (list nat) :=
  split (filter (fun '(a, b) => match a, b with [], _ => false | _, [] => false | _, _ => true end)
                (map (fun '(a, b) => (non_one s1 a, non_one s2 b)) (combine ml mr))).

Definition reshape_mapping (s1 s2 : list nat)
  : option (list (list nat) * list (list nat) * list (list nat) * list (list nat)) :=
  match rm_loop (S (length s1 + length s2)) s1 s2 0 0 1 0 1 0 [] [] SNone with
  | None => None
  | Some (ml, mr) =>
      let '(nl, nr) := non_one_groups s1 s2 ml mr in
      Some (ml, mr, nl, nr)
  end.

(* ------------------------------------------------------------------ *)
(** ** Lowering the rank of a transpose *)

(** optimize.py 2695-2717 [lower_transpose_dim_pass]: the loop over
    [zip(input_shape, perm)].  State: last_perm, cum_dim, and the reversed lists. *)
Fixpoint lower_loop (dps : list (nat * nat)) (last_perm cum_dim : nat)
  (new_shape new_perm : list nat) : list nat * list nat :=
  match dps with
  | [] => (rev (cum_dim :: new_shape), rev (last_perm :: new_perm))
  | (d, p) :: rest =>
      if (p =? S last_perm) || (d =? 1) || (cum_dim =? 1)
      then lower_loop rest p (cum_dim * d) new_shape new_perm
      else lower_loop rest p d (cum_dim :: new_shape) (last_perm :: new_perm)
  end.
(** optimize.py 2719 [np.argsort(new_perm)]: position of the k-th smallest; the
    entries are distinct positions of a permutation. *)
Definition argsort (l : list nat) : list nat :=
  map (fun v => find_pos v l) (np_sort l).
Definition lower_transpose (shape perm : list nat) : option (list nat * list nat) :=
  match combine shape perm with
  | [] => None
  | (d, p) :: rest =>
      let '(ns, np) := lower_loop rest p d [] [] in
      Some (ns, argsort np)
  end.
(** optimize.py 2725-2737: the three operators put in place of the transpose. *)
Definition lowered {A} (shape perm : list nat) (t : tensor A) : option (tensor A) :=
  match lower_transpose shape perm with
  | None => None
  | Some (ns, np) => Some (reshape (sel shape perm) (transpose np (reshape ns t)))
  end.

(* ------------------------------------------------------------------ *)
(** ** Merging fusable edges into sequences *)

(** python dict built by [{n[0]: i for i, n in enumerate(l)}]: later entries win. *)
Fixpoint last_index (key : list nat -> option nat) (k : nat) (l : list (list nat)) (i : nat)
  : option nat :=
  match l with
  | [] => None
  | s :: l' =>
      match last_index key k l' (S i) with
      | Some r => Some r
      | None => match key s with
                | Some h => if h =? k then Some i else None
                | None => None
                end
      end
  end.
Definition seq_head (s : list nat) : option nat := match s with [] => None | x :: _ => Some x end.
Definition seq_last (s : list nat) : option nat := seq_head (rev s).
Definition opt_is (o : option nat) (k : nat) : bool := match o with Some h => h =? k | None => false end.

(** [seq[0] in connectables]: the vertex is a key of [heads] and of [tails]. *)
Definition connectable (l : list (list nat)) (v : nat) : bool :=
  existsb (fun s => opt_is (seq_head s) v) l && existsb (fun s => opt_is (seq_last s) v) l.

(** optimize.py 4525-4537: what one round appends for one sequence. *)
Definition fce_one (l : list (list nat)) (s : list nat) : list (list nat) :=
  match seq_head s, seq_last s with
  | Some h, Some t =>
      if connectable l h then
        match last_index seq_last h l 0 with
        | Some ti =>
            match seq_head (nth ti l []) with
            | Some h' => if connectable l h' then [s] else []
            | None => []
            end
        | None => []
        end
      else if connectable l t then
        match last_index seq_head t l 0 with
        | Some hi => [s ++ tl (nth hi l [])]
        | None => []
        end
      else [s]
  | _, _ => []
  end.
(** optimize.py 4518-4541 [fuse_connected_edges]: the [while True] loop with fuel;
    [None] only when the fuel runs out. *)
Fixpoint fuse_connected_edges (fuel : nat) (l : list (list nat)) : option (list (list nat)) :=
  if existsb (fun s => match seq_head s with Some h => connectable l h | None => false end) l
  then match fuel with
       | 0 => None
       | S f => fuse_connected_edges f (flat_map (fce_one l) l)
       end
  else Some l.
