(** Model of the list and set algorithms of the channel pruner.
    Source: /repo/tinynn/graph/modifier.py *)
From Coq Require Import List Arith Bool ZArith QArith Permutation.
Import ListNotations.
Local Open Scope nat_scope.

(* ------------------------------------------------------------------ *)
(** ** Python sets of integers *)

(** A python [set] is a list of its elements in iteration order; only
    membership is used by the theorems.  Elements are integers; the code also
    stores them as floats with integral values ([-1.0]). *)
Definition pset := list Z.
Definition mem (x : Z) (s : pset) : bool := existsb (Z.eqb x) s.
(** [a | b], [a & b], [a - b], [a == b] *)
Definition union (a b : pset) : pset := a ++ filter (fun x => negb (mem x a)) b.
Definition inter (a b : pset) : pset := filter (fun x => mem x b) a.
Definition diff (a b : pset) : pset := filter (fun x => negb (mem x b)) a.
Definition set_eqb (a b : pset) : bool :=
  forallb (fun x => mem x b) a && forallb (fun x => mem x a) b.
Definition nonempty {A} (l : list A) : bool :=
  match l with [] => false | _ => true end.

(** [list.remove(x)]: drops the first element equal to [x]. *)
Fixpoint remove_first (s : pset) (l : list pset) : list pset :=
  match l with
  | [] => []
  | t :: l' => if set_eqb s t then l' else t :: remove_first s l'
  end.

(** [l[i] = v] *)
Fixpoint lset {A} (i : nat) (v : A) (l : list A) : list A :=
  match l, i with
  | [], _ => []
  | _ :: l', 0 => v :: l'
  | x :: l', S i' => x :: lset i' v l'
  end.

(* ------------------------------------------------------------------ *)
(** ** merge_constraint, modifier.py 194-239 *)

(** 196-204: the first [{-1.0}] and all empty sets are dropped. *)
Definition clean (cs : list pset) : list pset :=
  filter nonempty (remove_first [(-1)%Z] cs).

(** 209-210: [value_mapping[value] = value_mapping.get(value, []); ...append(idx)];
    a python dict keeps insertion order. *)
Fixpoint vm_add (v : Z) (i : nat) (m : list (Z * list nat)) : list (Z * list nat) :=
  match m with
  | [] => [(v, [i])]
  | (w, l) :: r => if Z.eqb v w then (w, l ++ [i]) :: r else (w, l) :: vm_add v i r
  end.
(** 207-210 *)
Definition build_map (cs : list pset) : list (Z * list nat) :=
  fold_left (fun m p => fold_left (fun m v => vm_add v (fst p) m) (snd p) m)
            (combine (seq 0 (length cs)) cs) [].

(** State of the main loop: [constraint], [reindex_list], [homology_idx]. *)
Record mcst := mkMC { mc_c : list pset; mc_re : list nat; mc_ho : list (list nat) }.

(** 222-234, body of [for i in idx_need_merge] *)
Definition mc_step (target : nat) (st : mcst) (i : nat) : mcst :=
  let src := nth i (mc_re st) 0 in
  if src =? target then st
  else
    let js := nth src (mc_ho st) [] in
    mkMC (lset target (union (nth target (mc_c st) []) (nth src (mc_c st) [])) (mc_c st))
         (fold_left (fun re j => lset j target re) js (mc_re st))
         (lset src [] (lset target (nth target (mc_ho st) [] ++ js) (mc_ho st))).

(** 217-234, body of [for value, idx_need_merge in value_mapping.items()] *)
Definition mc_value (st : mcst) (e : Z * list nat) : mcst :=
  match snd e with
  | [] => st
  | [_] => st
  | i0 :: _ => fold_left (mc_step (nth i0 (mc_re st) 0)) (snd e) st
  end.

(** [sorted(list(set(l)))] *)
Fixpoint ins (x : nat) (l : list nat) : list nat :=
  match l with
  | [] => [x]
  | y :: l' => if x <=? y then x :: l else y :: ins x l'
  end.
Definition sorted_set (l : list nat) : list nat :=
  fold_right ins [] (nodup Nat.eq_dec l).

(** 194-239 *)
Definition merge_constraint (cs0 : list pset) : list pset :=
  let cs := clean cs0 in
  let n := length cs in
  let st0 := mkMC cs (seq 0 n) (map (fun i => [i]) (seq 0 n)) in
  let st := fold_left mc_value (build_map cs) st0 in
  map (fun i => nth i (mc_c st) []) (sorted_set (mc_re st)).

(* ------------------------------------------------------------------ *)
(** ** merge_group, modifier.py 157-191 *)

(** 164-173: the first later set that meets [a] *)
Definition first_meeting (a : pset) (rest : list pset) : option pset :=
  find (fun b => nonempty (inter a b)) rest.

(** 160-179: the [while len(group) > 0] loop; [None] is fuel exhaustion. *)
Fixpoint mg_loop (fuel : nat) (group new_group : list pset) : option (list pset) :=
  match fuel with
  | 0 => None
  | S f =>
    match group with
    | [] => Some new_group
    | a :: rest =>
      match first_meeting a rest with
      | Some b =>
        let k := inter a b in
        let m := diff a k in
        let n := diff b k in
        let g1 := remove_first a group in
        let g2 := remove_first b g1 in
        mg_loop f (g2 ++ filter nonempty [m; n; k]) new_group
      | None => mg_loop f (remove_first a group) (new_group ++ [a])
      end
    end
  end.

(** 181-188: [for i ...: for gj in group[i+1:]: if gi == gj ...: new_group.remove(gi); break].
    Simplified: [gi is not gj] always holds, the elements of the list are distinct objects. *)
Fixpoint mg_dedup (group new_group : list pset) : list pset :=
  match group with
  | [] => new_group
  | gi :: rest =>
    mg_dedup rest (if existsb (set_eqb gi) rest then remove_first gi new_group else new_group)
  end.

(** 157-190 up to [group.sort()], whose order between incomparable sets is an
    implementation detail: the theorems hold for every permutation of the result. *)
Definition merge_group_fuel (g : list pset) : nat :=
  S (length g + 2 * length (concat g)).
Definition merge_group (g : list pset) : option (list pset) :=
  match mg_loop (merge_group_fuel g) g [] with
  | None => None
  | Some ng => Some (mg_dedup ng ng)
  end.

(* ------------------------------------------------------------------ *)
(** ** get_smallest_k, modifier.py 18-24 *)

Section Smallest.
  (** Importance values: any type with a boolean order; python floats without
      NaN satisfy the hypotheses (total, transitive) used by the theorem. *)
  Context {A : Type} (leb : A -> A -> bool).

  (** [sorted(idx_lst, key=lambda x: x[1])] is stable: insertion from the right
      in front of the first element whose key is not smaller. *)
  Fixpoint kinsert (x : nat * A) (l : list (nat * A)) : list (nat * A) :=
    match l with
    | [] => [x]
    | y :: l' => if leb (snd x) (snd y) then x :: l else y :: kinsert x l'
    end.
  Definition ksort (l : list (nat * A)) : list (nat * A) := fold_right kinsert [] l.

  (** 19-24; [k] is a non-negative integer. *)
  Definition get_smallest_k (lst : list A) (k offset : nat) : list nat :=
    let idx_lst := combine (seq 0 (length lst)) lst in
    let sorted_lst_k := firstn k (ksort idx_lst) in
    fold_right ins [] (map (fun p => fst p + offset) sorted_lst_k).
End Smallest.

(* ------------------------------------------------------------------ *)
(** ** divide_subgraph, modifier.py 3282-3327 *)

(** One modifier: the keys of [dim_changes_info.centers] and
    [get_input_centers()] (557-561).  Center names are abstracted to numbers
    ordered like the names. *)
Record modif := mkM { m_centers : list nat; m_inputs : list nat }.

(** python dicts with center names as keys *)
Fixpoint dget {B} (k : nat) (d : list (nat * B)) : option B :=
  match d with
  | [] => None
  | (k', v) :: r => if k =? k' then Some v else dget k r
  end.
Fixpoint dset {B} (k : nat) (v : B) (d : list (nat * B)) : list (nat * B) :=
  match d with
  | [] => [(k, v)]
  | (k', w) :: r => if k =? k' then (k', v) :: r else (k', w) :: dset k v r
  end.
Definition ddel {B} (k : nat) (d : list (nat * B)) : list (nat * B) :=
  filter (fun e => negb (k =? fst e)) d.
(** union of sets of modifiers, a modifier being identified by its position *)
Definition nunion (a b : list nat) : list nat :=
  a ++ filter (fun x => negb (existsb (Nat.eqb x) a)) b.

(** 3287-3292 *)
Definition ds_init (ms : list modif) : list (nat * list nat) :=
  fold_left (fun sg im =>
      fold_left (fun sg c => dset c (nunion (match dget c sg with Some s => s | None => [] end) [fst im]) sg)
                (m_centers (snd im)) sg)
    (combine (seq 0 (length ms)) ms) [].

(** 3304-3305: [while main_center not in sub_graphs and main_center in center_mapping] *)
Fixpoint ds_main (fuel : nat) (sg : list (nat * list nat)) (cm : list (nat * nat)) (c : nat) : option nat :=
  match fuel with
  | 0 => None
  | S f => match dget c sg with
           | Some _ => Some c
           | None => match dget c cm with
                     | None => Some c
                     | Some d => ds_main f sg cm d
                     end
           end
  end.
(** 3318-3319: [while redirect_center not in sub_graphs: redirect_center = center_mapping[...]];
    a missing key raises, here [None]. *)
Fixpoint ds_redirect (fuel : nat) (sg : list (nat * list nat)) (cm : list (nat * nat)) (c : nat) : option nat :=
  match fuel with
  | 0 => None
  | S f => match dget c sg with
           | Some _ => Some c
           | None => match dget c cm with
                     | None => None
                     | Some d => ds_redirect f sg cm d
                     end
           end
  end.

(** [sub_graphs[main].update(sub_graphs[r]); del sub_graphs[r]; center_mapping[r] = main] *)
Definition ds_absorb (main r : nat) (sg : list (nat * list nat)) (cm : list (nat * nat)) :
  option (list (nat * list nat) * list (nat * nat)) :=
  match dget main sg, dget r sg with
  | Some sm, Some sr => Some (ddel r (dset main (nunion sm sr) sg), dset r main cm)
  | _, _ => None
  end.

(** 3307-3324, one [redundant_center] *)
Definition ds_red (fuel main : nat) (st : option (list (nat * list nat) * list (nat * nat))) (r : nat) :=
  match st with
  | None => None
  | Some (sg, cm) =>
    if r =? main then Some (sg, cm)
    else match dget r sg with
         | Some _ => ds_absorb main r sg cm
         | None => match ds_redirect fuel sg cm r with
                   | None => None
                   | Some d => if d =? main then Some (sg, cm) else ds_absorb main d sg cm
                   end
         end
  end.

(** 3295-3324, one modifier *)
Definition ds_mod (fuel : nat) (st : option (list (nat * list nat) * list (nat * nat))) (m : modif) :=
  match st with
  | None => None
  | Some (sg, cm) =>
    match sorted_set (m_inputs m) with
    | [] => Some (sg, cm)
    | [_] => Some (sg, cm)
    | c0 :: rest =>
      match ds_main fuel sg cm c0 with
      | None => None
      | Some main => fold_left (ds_red fuel main) rest (Some (sg, cm))
      end
    end
  end.

(** 3282-3327: the groups, keyed by the surviving center. *)
Definition divide_subgraph (ms : list modif) : option (list (nat * list nat)) :=
  let sg0 := ds_init ms in
  match fold_left (ds_mod (S (length sg0))) ms (Some (sg0, [])) with
  | None => None
  | Some (sg, _) => Some sg
  end.

(* ------------------------------------------------------------------ *)
(** ** Recurrent layers, modifier.py 1837-1845 *)

(** 1837-1839 *)
Definition tile_indices_with_gate_size (indices : list nat) (gate_size offset : nat) : list nat :=
  concat (map (fun g => map (fun i => offset * g + i) indices) (seq 0 gate_size)).
(** 1841-1845; [i - offset] may be negative in python (a negative index counts
    from the end), so the second component holds integers. *)
Definition split_indices_with_directions (indices : list nat) (offset num_directions : nat) :
  list nat * list Z :=
  let split_pos := length indices / num_directions in
  (firstn split_pos indices,
   map (fun i => (Z.of_nat i - Z.of_nat offset)%Z) (skipn split_pos indices)).

(* ------------------------------------------------------------------ *)
(** ** Balanced removal over groups, modifier.py 2838-2885
    ([calc_prune_idx_by_center_importance], the loop over [leaf_group] for the
    first center of a subgraph). *)

(** One group: the sizes of its constraints in the order of
    [sorted(valid_importance, key=...)].  Simplified: float sparsity is a
    rational number; constraints are given by their sizes (which constraint is
    taken does not depend on anything else); the branch 2861-2872 for a center
    already pruned through another leaf is not entered for the first leaf. *)
(** 2855-2881: [while current_sparsity < sparsity]; returns the number of
    removed indices. *)
Fixpoint pg_take (sp total delta cur : Q) (pruned : nat) (cons : list nat) : nat :=
  match cons with
  | [] => pruned
  | c :: cons' =>
    if Qle_bool sp cur then pruned
    else pg_take sp total delta
           ((inject_Z (Z.of_nat (pruned + c)) + delta) / total)%Q (pruned + c) cons'
  end.
(** 2838-2885: the carried [leaf_delta_idx] *)
Fixpoint pg_groups (sp delta : Q) (groups : list (list nat)) : list nat :=
  match groups with
  | [] => []
  | g :: gs =>
    match g with
    | [] => 0 :: pg_groups sp delta gs
    | _ =>
      let total := inject_Z (Z.of_nat (list_sum g)) in
      let p := pg_take sp total delta 0 0 g in
      p :: pg_groups sp (delta + (inject_Z (Z.of_nat p) - total * sp))%Q gs
    end
  end.
Definition prune_groups (sp : Q) (groups : list (list nat)) : list nat := pg_groups sp 0 groups.

(** The consumer of a grouped layer: [ConvChannelModifier.modify_input] 2325-2333,
    group [i] gets the [i]-th slice of [len(remove_idx) // group] entries. *)
Definition group_remove_slice (remove_idx : list nat) (group width i : nat) : list Z :=
  let n := length remove_idx / group in
  map (fun idx => (Z.of_nat idx - Z.of_nat (width * i))%Z)
      (firstn n (skipn (n * i) remove_idx)).

(** ** The [multiple] option, modifier.py 2700-2704 *)
(** [lst[:-remainder]]; [lst[:-0]] is [lst[:0]]. *)
Definition drop_remainder {A} (lst : list A) (multiple : nat) : list A :=
  let remainder := length lst mod multiple in
  if remainder =? 0 then [] else firstn (length lst - remainder) lst.

(* ------------------------------------------------------------------ *)
(** ** complementary_list, modifier.py 14-15:
       [list(set(a).difference(set(b)))]

    The order of the result is the iteration order of a CPython [set] of small
    non-negative integers ([hash(i) = i]): open addressing in a table whose
    size is a power of two (CPython Objects/setobject.c: [set_add_entry],
    [set_table_resize], [set_insert_clean], [set_difference]); this library
    behaviour is part of the trusted base. *)

(** free slot among [i .. i+k] *)
Fixpoint first_free (t : list (option nat)) (k i : nat) : option nat :=
  match nth i t None with
  | None => Some i
  | Some _ => match k with 0 => None | S k' => first_free t k' (S i) end
  end.
(** probe sequence: LINEAR_PROBES = 9, PERTURB_SHIFT = 5 *)
Fixpoint set_slot (fuel : nat) (t : list (option nat)) (i perturb : nat) : option nat :=
  match fuel with
  | 0 => None
  | S f =>
    match first_free t (if S (i + 9) <=? length t then 9 else 0) i with
    | Some j => Some j
    | None => let p := perturb / 32 in set_slot f t ((i * 5 + 1 + p) mod length t) p
    end
  end.
Definition tbl_insert (t : list (option nat)) (h : nat) : option (list (option nat)) :=
  match set_slot (S (length t + h)) t (h mod length t) h with
  | None => None
  | Some j => Some (lset j (Some h) t)
  end.
(** elements in iteration order *)
Definition tbl_iter (t : list (option nat)) : list nat :=
  concat (map (fun o => match o with Some x => [x] | None => [] end) t).
Definition tbl_fill (size : nat) (l : list nat) : option (list (option nat)) :=
  fold_left (fun o h => match o with None => None | Some t => tbl_insert t h end)
            l (Some (repeat None size)).
(** [newsize = 8; while newsize <= minused: newsize <<= 1] *)
Fixpoint newsize (fuel s minused : nat) : nat :=
  match fuel with
  | 0 => s
  | S f => if s <=? minused then newsize f (2 * s) minused else s
  end.
Definition tbl_resize (t : list (option nat)) (minused : nat) : option (list (option nat)) :=
  tbl_fill (newsize (S minused) 8 minused) (tbl_iter t).
(** adding an absent key; [fill*5 < mask*3] or resize to [used*4] *)
Definition set_add (o : option (list (option nat))) (h : nat) : option (list (option nat)) :=
  match o with
  | None => None
  | Some t =>
    match tbl_insert t h with
    | None => None
    | Some t' =>
      let used := length (tbl_iter t') in
      if used * 5 <? (length t' - 1) * 3 then Some t'
      else tbl_resize t' (used * 4)
    end
  end.
(** Simplified: the growth factor is 4; CPython uses 2 above 50000 elements. *)
Definition set_of (l : list nat) : option (list (option nat)) :=
  fold_left set_add l (Some (repeat None 8)).
Definition nmem (x : nat) (l : list nat) : bool := existsb (Nat.eqb x) l.

(** [a] is always [range(n)] at the call sites (1150, 1181, 1681, 1695, 1975,
    2052-2080, 2307, 2331, 2345, 2359, 2465, 2474).  [set_difference] copies the
    left set and discards when [len(a) >> 2 > len(b)] (the copy is presized for
    [2*len(a)] entries), otherwise it adds the survivors to an empty set. *)
Definition complementary_list (n : nat) (b : list nat) : option (list nat) :=
  match set_of (seq 0 n) with
  | None => None
  | Some sa =>
    if length (nodup Nat.eq_dec b) <? length (tbl_iter sa) / 4 then
      match tbl_fill (if n * 5 <? 21 then 8 else newsize (S (2 * n)) 8 (2 * n)) (tbl_iter sa) with
      | None => None
      | Some c => Some (filter (fun x => negb (nmem x b)) (tbl_iter c))
      end
    else
      match fold_left set_add (filter (fun x => negb (nmem x b)) (tbl_iter sa)) (Some (repeat None 8)) with
      | None => None
      | Some t => Some (tbl_iter t)
      end
  end.

(* ------------------------------------------------------------------ *)
(** ** Constant sizes of reshape and view, modifier.py 1412-1455 *)

From Coq Require Import SpecFloat.
(** python floats are IEEE binary64; [int / int] and [int * float] with
    integers below 2^53 are correctly rounded operations *)
Definition fof (n : nat) : spec_float := binary_normalize 53 1024 (Z.of_nat n) 0 false.
(** [int(x)] for a non-negative float *)
Definition ftrunc (x : spec_float) : nat :=
  match x with
  | S754_finite false m e => Z.to_nat (if (0 <=? e)%Z then Zpos m * 2 ^ e else Zpos m / 2 ^ (- e))%Z
  | _ => 0
  end.
(** 809: [sparsity = len(pruned_idx) / shape] *)
Definition fsparsity (pruned n : nat) : spec_float := SFdiv 53 1024 (fof pruned) (fof n).
(** 1432: [reshape] *)
Definition reshape_new_size (out pruned n : nat) : nat :=
  ftrunc (SFmul 53 1024 (fof out) (fsparsity pruned n)).
(** 1447-1449: [view] *)
Definition view_new_size (out pruned n : nat) : nat :=
  out - ftrunc (SFmul 53 1024 (fof out) (fsparsity pruned n)).
