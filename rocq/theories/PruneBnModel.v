(** Model of [SubGraph.calc_prune_idx_by_bn_variance] (tinynn/graph/modifier.py 2596-2732): the channels that are
    removed because the batch normalizations behind them see no variance.

    Simplified as in PruneIdxModel.v.  [bn] gives for the name of a leaf that is a [BatchNorm2d] and not in [ignored_bn]
    (2613-2630) the list [running_var < 1e-8] (2651), and nothing for other leaves. *)
From Coq Require Import List Arith Bool ZArith.
From Verif Require Import PruneModel FuseModel PruneIdxModel.
Import ListNotations.
Local Open Scope nat_scope.

(** nested loops that write into a dict, as the list of the writes *)
Definition ocat {A B} (f : A -> option (list B)) (l : list A) : option (list B) :=
  obind (omap f l) (fun r => Some (concat r)).

(** 2661-2686: one index of a batch normalization, with its [state]; the writes to
    [invalid_center_idxes[center][leaf][idx]] as (center, (idx, state)).  [center_to_center] has the indices of
    [center_constraint] as keys (3113-3124). *)
Definition bn_index (ls : list pleaf) (cc : list (nat * list pset)) (l : pleaf) (e : nat * bool)
  : option (list (nat * (Z * bool))) :=
  ocat (fun cr =>
      obind (l2c (snd cr) (Z.of_nat (fst e))) (fun t =>
        if set_eqb t [(-1)%Z] then Some []
        else ocat (fun j =>
               if existsb (mem j) (dgetd [] (fst cr) cc) then
                 obind (dep_centers ls (fst cr) j) (fun deps =>
                   Some ((fst cr, (j, snd e)) ::
                         flat_map (fun d => map (fun k => (fst d, (k, snd e))) (snd d)) deps))
               else None) t))
    (pl_rows l).
(** 2632-2686: all writes, with the name of the leaf *)
Definition bn_writes (ls : list pleaf) (cc : list (nat * list pset)) (bn : nat -> option (list bool))
  : option (list (nat * (nat * (Z * bool)))) :=
  ocat (fun l =>
      if pl_real l then
        match bn (pl_name l) with
        | Some flags => obind (ocat (bn_index ls cc l) (combine (seq 0 (length flags)) flags))
                          (fun ws => Some (map (fun w => (pl_name l, w)) ws))
        | None => Some []
        end
      else Some []) ls.

(** [invalid_center_idxes[c][n][j]] after all writes: the last one stays *)
Definition bn_state (ws : list (nat * (nat * (Z * bool)))) (n c : nat) (j : Z) : option bool :=
  fold_left (fun s w => if (fst w =? n) && (fst (snd w) =? c) && (fst (snd (snd w)) =? j)%Z
                        then Some (snd (snd (snd w))) else s) ws None.
(** 2688-2701: [invalid_center_idx_set] of a center: the states of an index are joined by [&=] over the leaves *)
Definition bn_invalid (ws : list (nat * (nat * (Z * bool)))) (c : nat) : pset :=
  filter (fun j => forallb (fun n => match bn_state ws n c j with Some b => b | None => true end) (map fst ws))
    (nodup Z.eq_dec (map (fun w => fst (snd (snd w))) (filter (fun w => fst (snd w) =? c) ws))).
(** 2703-2707: [lst[:-remainder]] *)
Definition bn_trim (multiple : option nat) (s : pset) : option pset :=
  match multiple with
  | None => Some s
  | Some 0 => None
  | Some m => let r := length s mod m in Some (if r =? 0 then [] else firstn (length s - r) s)
  end.
Definition bn_centers (ws : list (nat * (nat * (Z * bool)))) (multiple : option nat) : option (list (nat * pset)) :=
  omap (fun c => obind (bn_trim multiple (bn_invalid ws c)) (fun s => Some (c, s)))
    (nodup Nat.eq_dec (map (fun w => fst (snd w)) ws)).
(** 2711-2730: the indices of the leaves; every index has to be a key of [center_to_leaf] *)
Definition bn_leaves (ls : list pleaf) (pc : list (nat * pset)) : option (list (nat * pset)) :=
  ocat (fun e => ocat (fun l =>
      match dget (fst e) (pl_rows l) with
      | Some r => if pl_real l then obind (omap (c2l r) (snd e)) (fun ts => Some (map (fun t => (pl_name l, t)) ts))
                  else Some []
      | None => Some []
      end) ls) pc.
(** [pruned_center_constraint_all] and [pruned_leaf_constraint_all], the latter as (leaf, set) *)
Definition bn_prune (ls : list pleaf) (cc : list (nat * list pset)) (bn : nat -> option (list bool))
    (multiple : option nat) : option (list (nat * pset) * list (nat * pset)) :=
  obind (bn_writes ls cc bn) (fun ws => obind (bn_centers ws multiple) (fun pc =>
    obind (bn_leaves ls pc) (fun pl => Some (pc, pl)))).
(** [calc_prune_idx] without an importance (2908-2985, 3150-3160); the aggregation of the groups has no effect on it *)
Definition calc_bn (sg : subgraph) (bn : nat -> option (list bool)) (multiple : option nat)
  : option (list (nat * pset) * list (nat * pset)) :=
  match omap (prep_leaf (sg_mods sg)) (sg_leaves sg) with
  | None => Some ([], [])
  | Some ls => obind (center_constraints ls) (fun cc => bn_prune ls cc bn multiple)
  end.
