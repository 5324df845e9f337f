(** Model of the computation of the channels that a subgraph removes
    ([SubGraph.calc_prune_idx] and [calc_prune_idx_by_center_importance], tinynn/graph/modifier.py 2734-3185).

    A center is a layer whose output channels are chosen, a leaf a layer whose input channels follow.  Names are
    numbers.  Simplified: floats (importance, sparsity) are rational numbers; a python set is the list of its elements;
    [None] is an exception of Python (KeyError, IndexError, AssertionError). *)
From Coq Require Import List Arith Bool ZArith QArith.
From Verif Require Import PruneModel FuseModel.
Import ListNotations.
Local Open Scope nat_scope.

(** [constraints_i[dim][center]]: one list per recorded tensor, entry [i] is the set of the center's indices that meet
    index [i] of the leaf; [-1] stands for "no index" (modifier.py 421-465) *)
Definition rows := list (list pset).
(** A leaf: [constraints_i] by dimension and center, the keys of [dim_changes_info.centers], [groups_i]. *)
Record leafm := mkLeaf {
  lf_name : nat;
  lf_dims : list (nat * list (nat * rows));
  lf_centers : list nat;
  lf_groups : list pset }.
(** [modifiers_dict], [leaf], and [groups_o] of the [dependent_centers] (in the order of iteration over that set) *)
Record subgraph := mkSG { sg_mods : list nat; sg_leaves : list leafm; sg_dep_groups : list (nat * list pset) }.

Definition nmemb (x : nat) (l : list nat) : bool := existsb (Nat.eqb x) l.
Definition dgetd {B} (d : B) (k : nat) (m : list (nat * B)) : B := match dget k m with Some v => v | None => d end.
Definition subset (a b : pset) : bool := forallb (fun x => mem x b) a.
Definition in_sets (s : pset) (l : list pset) : bool := existsb (set_eqb s) l.
(** [len(s)] of a set given by a list that may repeat elements *)
Definition card (s : pset) : nat := length (nodup Z.eq_dec s).

(** One leaf with its single dimension, restricted to the centers of the subgraph
    (2923-2939, 2964-2967; [is_real_leaf] 2756-2763). *)
Record pleaf := mkPL { pl_name : nat; pl_rows : list (nat * rows); pl_real : bool; pl_groups : list pset }.
Definition prep_leaf (mods : list nat) (lf : leafm) : option pleaf :=
  match lf_dims lf with
  | [(_, d)] => Some (mkPL (lf_name lf) (filter (fun e => nmemb (fst e) mods) d)
                           (forallb (fun c => nmemb c mods) (lf_centers lf)) (lf_groups lf))
  | _ => None
  end.
Fixpoint omap {A B} (f : A -> option B) (l : list A) : option (list B) :=
  match l with
  | [] => Some []
  | x :: r => obind (f x) (fun y => obind (omap f r) (fun ys => Some (y :: ys)))
  end.
Fixpoint ofold {A B} (f : A -> B -> option A) (l : list B) (a : A) : option A :=
  match l with
  | [] => Some a
  | x :: r => obind (f a x) (ofold f r)
  end.

(** 2931-2937: [center_constraint[center_name] += constraint] for every leaf; a recorded center has at least one tensor. *)
Definition init_constraint (ls : list pleaf) : list (nat * list pset) :=
  fold_left (fun cc l => fold_left (fun cc e => dset (fst e) (dgetd [] (fst e) cc ++ concat (snd e)) cc) (pl_rows l) cc) ls [].
(** 2939-2942 *)
Definition merged_constraint (ls : list pleaf) : list (nat * list pset) :=
  map (fun e => (fst e, merge_constraint (snd e))) (init_constraint ls).

(** 2951-2985: the dictionaries [leaf_to_center[c]] and [center_to_leaf[c]] of a leaf, as lookups; the key [-1.0] is
    deleted from the second. *)
Definition width (r : rows) : nat := list_max (map (@length pset) r).
Definition l2c (r : rows) (i : Z) : option pset :=
  if (0 <=? i)%Z && (i <? Z.of_nat (width r))%Z then
    Some (fold_left (fun acc row => union acc (nth (Z.to_nat i) row [])) r [])
  else None.
Definition c2l (r : rows) (j : Z) : option pset :=
  if Z.eqb j (-1) then None
  else match filter (fun i => existsb (fun row => mem j (nth (Z.to_nat i) row [])) r)
                    (map Z.of_nat (seq 0 (width r))) with
       | [] => None
       | l => Some l
       end.
(** [for idx in s: if idx in center_to_leaf[c]: result.update(center_to_leaf[c][idx])] (2768-2772, 2789-2791, 2999-3002) *)
Definition to_leaf (r : rows) (s : pset) : pset :=
  fold_left (fun acc j => match c2l r j with Some t => union acc t | None => acc end) s [].
(** [constraint_mapping(s, leaf_to_center[c])] (2589-2594, 3017-3018): every index has to be a key *)
Definition to_center (r : rows) (s : pset) : option pset :=
  ofold (fun acc i => obind (l2c r i) (fun t => Some (union acc t))) s [].
Definition drop_none (s : pset) : pset := filter (fun x => negb (Z.eqb x (-1))) s.

(** 2987-3029: one leaf of the aggregation of the constraints *)
Definition add_new (l : list pset) (s : pset) : list pset := if in_sets s l then l else l ++ [s].
Definition leaf_sets (l : pleaf) (cc : list (nat * list pset)) : list pset :=
  fold_left (fun acc e =>
      match dget (fst e) (pl_rows l) with
      | Some r => fold_left (fun acc s => add_new acc (to_leaf r s)) (snd e) acc
      | None => acc
      end) cc [].
Definition back_sets (r : rows) (ls : list pset) : option (list pset) :=
  ofold (fun acc s => obind (to_center r s) (fun t => Some (add_new acc (drop_none t)))) ls [].
Definition agg_center (ls : list pset) (cc : list (nat * list pset)) (e : nat * rows) : option (list (nat * list pset)) :=
  obind (dget (fst e) cc) (fun old => obind (back_sets (snd e) ls) (fun t =>
    Some (dset (fst e) (merge_constraint (old ++ t)) cc))).
Definition agg_leaf (cc : list (nat * list pset)) (l : pleaf) : option (list (nat * list pset)) :=
  ofold (agg_center (merge_constraint (leaf_sets l cc))) (pl_rows l) cc.
(** [self.center_constraint] after 3029 *)
Definition center_constraints (ls : list pleaf) : option (list (nat * list pset)) :=
  ofold agg_leaf ls (merged_constraint ls).

(** 2944-2947 *)
Definition init_group (g : list (nat * list pset)) : list (nat * list pset) :=
  fold_left (fun d e => if nonempty (snd e) then dset (fst e) (snd e) d else d) g [].
(** 3038-3049, 3077-3091: the groups of a leaf.  [group.sort()] compares disjoint sets, for which [<] is false, so the
    order of the non-empty sets stays; an empty set in the list has no effect. *)
Definition leaf_group (l : pleaf) (cg : list (nat * list pset)) : option (list pset) :=
  merge_group (concat (map (fun e => match dget (fst e) (pl_rows l) with
                                     | Some r => map (to_leaf r) (snd e)
                                     | None => [] end) cg) ++ pl_groups l).
(** 3051-3063: [if leaf_idxes in leaf_to_center[center_name]] *)
Definition to_center_present (r : rows) (s : pset) : pset :=
  fold_left (fun acc i => match l2c r i with Some t => union acc t | None => acc end) s [].
(** 3065-3068 *)
Definition agg_group (gs : list pset) (cg : list (nat * list pset)) (e : nat * rows) : option (list (nat * list pset)) :=
  obind (merge_group (dgetd [] (fst e) cg ++ filter nonempty (map (fun s => drop_none (to_center_present (snd e) s)) gs)))
        (fun g => Some (dset (fst e) g cg)).
(** 3031-3068 *)
Definition center_groups (g : list (nat * list pset)) (ls : list pleaf) : option (list (nat * list pset)) :=
  ofold (fun cg l => obind (leaf_group l cg) (fun gs => ofold (agg_group gs) (pl_rows l) cg)) ls (init_group g).

(** 3099-3111: the centers by the number of their indices ([sorted] is stable) *)
Fixpoint ins_center (x : nat * nat) (l : list (nat * nat)) : list (nat * nat) :=
  match l with
  | [] => [x]
  | y :: r => if fst x <=? fst y then x :: l else y :: ins_center x r
  end.
Definition center_list (cc : list (nat * list pset)) : list nat :=
  map snd (fold_right ins_center [] (map (fun e => (card (concat (snd e)), fst e)) cc)).

(** [importance[center][idx]] with an index or a negative index *)
Definition imp_at (imp : list Q) (i : Z) : option Q :=
  nth_error imp (Z.to_nat (if (i <? 0)%Z then (i + Z.of_nat (length imp))%Z else i)).
Definition imp_sum (imp : list Q) (s : pset) : option Q :=
  ofold (fun acc i => if (i <? - Z.of_nat (length imp))%Z then None
                      else obind (imp_at imp i) (fun q => Some (acc + q)%Q)) s 0%Q.
(** 3113-3148: [center_to_center[c][j]]; computed here when it is used *)
Definition dep_centers (ls : list pleaf) (c : nat) (j : Z) : option (list (nat * pset)) :=
  ofold (fun acc l =>
      match dget c (pl_rows l) with
      | None => Some acc
      | Some r =>
        match c2l r j with
        | None => Some acc
        | Some idxs =>
          ofold (fun acc i => ofold (fun acc e =>
              if fst e =? c then Some acc
              else obind (l2c (snd e) i) (fun t =>
                     if set_eqb t [(-1)%Z] then Some acc
                     else Some (dset (fst e) (union (dgetd [] (fst e) acc) t) acc)))
            (pl_rows l) acc) idxs acc
        end
      end) ls [].
(** 2814-2832: the importance of one constraint of a leaf *)
Definition constraint_importance (ls : list pleaf) (cc : list (nat * list pset)) (imp : nat -> list Q)
    (l : pleaf) (s : pset) : option Q :=
  ofold (fun acc i => ofold (fun acc e =>
      obind (l2c (snd e) i) (fun t =>
        if set_eqb t [(-1)%Z] then Some acc
        else if existsb (fun j => Z.of_nat (length (imp (fst e))) <=? j)%Z t then None
        else obind (imp_sum (imp (fst e)) t) (fun q =>
          ofold (fun acc j =>
              if existsb (mem j) (dgetd [] (fst e) cc) then
                obind (dep_centers ls (fst e) j) (fun deps =>
                  ofold (fun acc d => obind (imp_sum (imp (fst d)) (snd d)) (fun q => Some (acc + q)%Q)) deps acc)
              else None) t (acc + q)%Q)))
    (pl_rows l) acc) s 0%Q.

(** [sorted(valid_importance, key=lambda x: x[1])] *)
Fixpoint ins_imp (x : pset * Q) (l : list (pset * Q)) : list (pset * Q) :=
  match l with
  | [] => [x]
  | y :: r => if Qle_bool (snd x) (snd y) then x :: l else y :: ins_imp x r
  end.
Definition sort_imp (l : list (pset * Q)) : list (pset * Q) := fold_right ins_imp [] l.

(** 2853-2881: [while current_sparsity < sparsity]; [busy] is [Some (constraints, pruned indices)] when the center
    already has pruned indices.  Returns the constraints that are taken. *)
Fixpoint take_constraints (sp total delta cur : Q) (busy : option (nat * nat)) (r : rows) (taken : pset)
    (l : list (pset * Q)) : option (list pset) :=
  match l with
  | [] => Some []
  | (s, _) :: l' =>
    if Qle_bool sp cur then Some []
    else
      obind (match busy with
             | None => Some false
             | Some (ncons, npruned) =>
               obind (to_center r s) (fun t =>
                 Some (negb (Qle_bool (inject_Z (Z.of_nat (npruned + card taken + card t)) / inject_Z (Z.of_nat ncons)) sp)))
             end) (fun stop =>
        if stop then Some []
        else obind (take_constraints sp total delta
                      ((inject_Z (Z.of_nat (card taken + card s)) + delta) / total)%Q busy r (union taken s) l')
                   (fun t => Some (s :: t)))
  end.

(** The dictionaries of 2737-2740 *)
Record pstate := mkPS {
  ps_delta : list (nat * Q);
  ps_leaf : list (nat * list pset);
  ps_center : list (nat * pset);
  ps_calc : list (nat * pset) }.

(** 2836-2885: one group of a leaf; carries [leaf_delta_idx] and the taken constraints *)
Definition prune_group (sp : Q) (busy : option (nat * nat)) (r : rows) (li : list (pset * Q))
    (st : option Q * list pset) (group : pset) : option (option Q * list pset) :=
  let valid := filter (fun e => nonempty (inter (fst e) group)) li in
  if forallb (fun e => subset (fst e) group) valid then
    match valid with
    | [] => Some st
    | _ =>
      let total := inject_Z (Z.of_nat (list_sum (map (fun e => card (fst e)) valid))) in
      let delta := match fst st with Some q => q | None => 0%Q end in
      obind (take_constraints sp total delta 0%Q busy r [] (sort_imp valid)) (fun t =>
        Some (Some (delta + (inject_Z (Z.of_nat (card (concat t))) - total * sp))%Q, snd st ++ t))
    end
  else None.

(** 2775-2801: what the centers already say about a leaf: constraints that are decided, decided to be removed, open *)
Definition survey (cc : list (nat * list pset)) (st : pstate) (l : pleaf) : list pset * list pset * list pset :=
  fold_left (fun acc e =>
      match dget (fst e) (pl_rows l) with
      | None => acc
      | Some r =>
        fold_left (fun acc s =>
            let '(calc, pruned, open) := acc in
            let t := to_leaf r s in
            if subset s (dgetd [] (fst e) (ps_calc st)) then
              (calc ++ [t], (if nonempty t && subset s (dgetd [] (fst e) (ps_center st)) then pruned ++ [t] else pruned), open)
            else (calc, pruned, if nonempty t then open ++ [t] else open)) (snd e) acc
      end) cc ([], [], []).
(** 2889-2904: the constraints of the leaf are passed to one of its centers *)
Definition sync_center (calc pruned : list pset) (st : pstate) (e : nat * rows) : option pstate :=
  obind (omap (to_center (snd e)) calc) (fun cs =>
  obind (omap (to_center (snd e)) pruned) (fun ps =>
    Some (mkPS (ps_delta st) (ps_leaf st)
      (dset (fst e) (fold_left union (filter (fun t => negb (set_eqb t [(-1)%Z])) ps) (dgetd [] (fst e) (ps_center st))) (ps_center st))
      (dset (fst e) (fold_left union cs (dgetd [] (fst e) (ps_calc st))) (ps_calc st))))).

(** 2750-2904: one leaf in the turn of one center.  [need] is [constraint_need_prune]. *)
Definition visit (ls : list pleaf) (cc : list (nat * list pset)) (lg : nat -> list pset) (imp : nat -> list Q)
    (sparsity : nat -> Q) (c : nat) (need : list pset) (st : pstate) (l : pleaf) : option pstate :=
  match dget c (pl_rows l) with
  | None => Some st
  | Some r =>
    if negb (pl_real l) then Some st
    else
      let needl := map (to_leaf r) need in
      let '(calc0, pruned0, open0) := survey cc st l in
      match open0 with
      | [] => Some (mkPS (ps_delta st) (dset (pl_name l) pruned0 (ps_leaf st)) (ps_center st) (ps_calc st))
      | _ =>
        let calc := merge_constraint calc0 in
        let open := filter (fun s => in_sets s needl && negb (in_sets s calc)) (merge_constraint open0) in
        obind (omap (fun s => obind (constraint_importance ls cc imp l s) (fun q => Some (s, q))) open) (fun li =>
        let busy := match dget c (ps_center st) with
                    | Some p => Some (length (dgetd [] c cc), card p)
                    | None => None end in
        obind (ofold (prune_group (sparsity c) busy r li) (lg (pl_name l)) (dget (pl_name l) (ps_delta st), [])) (fun g =>
        let pruned := pruned0 ++ snd g in
        let st1 := mkPS (match fst g with Some q => dset (pl_name l) q (ps_delta st) | None => ps_delta st end)
                        (dset (pl_name l) pruned (ps_leaf st)) (ps_center st) (ps_calc st) in
        ofold (sync_center (calc ++ snd g ++ open) pruned) (pl_rows l) st1))
      end
  end.
(** 2742-2904: the turn of one center *)
Definition turn (ls : list pleaf) (cc : list (nat * list pset)) (lg : nat -> list pset) (imp : nat -> list Q)
    (sparsity : nat -> Q) (st : pstate) (c : nat) : option pstate :=
  let need := filter (fun s => negb (subset s (dgetd [] c (ps_calc st)))) (dgetd [] c cc) in
  ofold (visit ls cc lg imp sparsity c need) ls st.
Definition by_center_importance (ls : list pleaf) (cc : list (nat * list pset)) (lg : nat -> list pset)
    (imp : nat -> list Q) (sparsity : nat -> Q) : option pstate :=
  ofold (turn ls cc lg imp sparsity) (center_list cc) (mkPS [] [] [] []).

(** [calc_prune_idx] with an importance (2908-3185): [pruned_idx_o] of the centers and [pruned_idx_i] of the leaves, as
    sets (the code sorts them).  Nothing is removed when some leaf is not pruned in exactly one dimension (2925-2927). *)
Definition calc_prune_idx (sg : subgraph) (imp : nat -> list Q) (sparsity : nat -> Q) :
    option (list (nat * pset) * list (nat * pset)) :=
  match omap (prep_leaf (sg_mods sg)) (sg_leaves sg) with
  | None => Some ([], [])
  | Some ls =>
    obind (center_constraints ls) (fun cc =>
    obind (center_groups (sg_dep_groups sg) ls) (fun cg =>
    obind (omap (fun l => obind (leaf_group l cg) (fun g => Some (pl_name l, g))) ls) (fun lgs =>
    obind (by_center_importance ls cc (fun n => dgetd [] n lgs) imp sparsity) (fun st =>
      Some (map (fun e => (fst e, drop_none (snd e))) (ps_center st),
            map (fun e => (fst e, drop_none (concat (snd e)))) (ps_leaf st))))))
  end.

(** [Modifier.get_pruned_idx] (791-812) of an operation between a center and a leaf: the indices of its input that are
    removed, from what the centers remove. *)
Definition get_pruned_idx (pc : list (nat * pset)) (rs : list (nat * rows)) : pset :=
  concat (map (fun e => concat (map (fun row =>
      map Z.of_nat (filter (fun i => nonempty (inter (nth i row []) (dgetd [] (fst e) pc))) (seq 0 (length row))))
    (snd e))) rs).
