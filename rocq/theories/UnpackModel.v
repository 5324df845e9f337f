(** Model of lists among the outputs and of outputs that nobody reads: [output_list_unpack_pass] and
    [connect_unused_tensors_pass] (tinynn/converter/operators/optimize.py 3426-3440, 3395-3424), [is_multi_output_op_node] (3807-3808),
    [add_outputs] and [add_nodes] (graph.py 116-156, 211-226).

    Simplified: numbers for nodes and tensors; the new name that [add_nodes] finds for the tensor of an OUTPUT or UNUSED node is an
    unused number; [tensor_map] and [tensor_node_map] have the same keys. *)
From Coq Require Import List Arith Bool.
From Verif Require Import OutTransModel.
Import ListNotations.

Inductive ukind := UIn | UConst | UOut | UUnused | UOp | UReshape.
Record unode := mkUN { uk : ukind; uout : list nat }.
(** nodes, their numbers, edges (source, target, label), [tensor_node_map], the next unused number *)
Record ug := mkUG { un : nat -> unode; uids : list nat; ued : list oedge; uprod : nat -> option nat; unext : nat }.
(** [iterable_map] *)
Definition umap := list (nat * list nat).
Fixpoint u_get (im : umap) (n : nat) : option (list nat) := match im with [] => None | (k, l) :: im => if n =? k then Some l else u_get im n end.
(** graph.py 211-226 for one name; [None]: KeyError *)
Definition u_add (k : ukind) (g : ug) (t : nat) : option ug :=
  match uprod g t with
  | None => None
  | Some p => let m := unext g in
      Some (mkUG (o_upd (un g) m (mkUN k [m])) (uids g ++ [m]) (ued g ++ [(p, m, t)]) (o_upd (uprod g) m (Some m)) (S m))
  end.
Fixpoint u_adds (k : ukind) (g : ug) (ts : list nat) : option ug :=
  match ts with [] => Some g | t :: ts => match u_add k g t with Some g' => u_adds k g' ts | None => None end end.
(** 3426-3440: the graph and its outputs *)
Definition output_unpack (im : umap) (outs : list nat) (g : ug) : option (ug * list nat) :=
  let added := flat_map (fun n => match u_get im n with Some l => l | None => [] end) outs in
  let all := flat_map (fun n => match u_get im n with Some l => l | None => [n] end) outs in
  match u_adds UOut g added with Some g' => Some (g', all) | None => None end.

Definition u_outs (g : ug) (n : nat) : list oedge := filter (fun e => fst (fst e) =? n) (ued g).
(** 3807-3808 *)
Definition u_multi (g : ug) (n : nat) : bool :=
  match uk (un g n) with UOp | UReshape => (1 <? length (uout (un g n))) && negb (length (u_outs g n) =? 0) | _ => false end.
(** 3400 *)
Definition u_listed (im : umap) (t : nat) : bool := o_mem t (flat_map snd im).
(** 3403-3422: the [continue] of 3418 ends an iteration that is over anyway *)
Definition u_names (im : umap) (g : ug) (n : nat) : list nat :=
  if existsb (u_listed im) (uout (un g n)) then
    flat_map (fun e => match uk (un g (snd (fst e))) with UReshape => [nth 0 (uout (un g (snd (fst e)))) 0] | _ => [] end) (u_outs g n)
  else uout (un g n).
(** 3395-3424 *)
Definition connect_unused (im : umap) (g : ug) : option ug :=
  let labels := map snd (ued g) in
  u_adds UUnused g (flat_map (fun n => filter (fun t => negb (o_mem t labels)) (u_names im g n)) (filter (u_multi g) (uids g))).
