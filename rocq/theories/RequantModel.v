(** Model of [GraphOptimizer.fuse_requantize] (tinynn/converter/operators/optimize.py 385-463, [is_requantize_fusable_edge]
    3722-3740), with [connect_next_tensors] and [replace_next_tensors] (graph.py 354-420).

    Simplified: vertices and tensors are numbers; an operator has one output (pre_activ['outputs'] is that one); a
    quantization (scale, zero point, dim) is a number; the element type of a tensor is not modelled. *)
From Coq Require Import List Arith Bool.
Import ListNotations.

(** [KFuse]: the operators of 3726-3737; [KCopy]: RESHAPE and TRANSPOSE *)
Inductive rkind := KFuse | KQuant | KDeq | KCopy | KOut | KOther.
Definition rkind_eqb (a b : rkind) : bool :=
  match a, b with
  | KFuse, KFuse | KQuant, KQuant | KDeq, KDeq | KCopy, KCopy | KOut, KOut | KOther, KOther => true
  | _, _ => false
  end.
(** [op.inputs] and [outputs[0]] *)
Record rnode := mkRN { rk : rkind; rins : list nat; rout : nat }.
(** vertices, edges (source, target) in the order of [out_edges], [tensor.quantization], the vertices to be deleted *)
Record rgraph := mkRG { rids : list nat; rn : nat -> rnode; redges : list (nat * nat); rtq : nat -> option nat; rdel : list nat }.

Definition r_outs (g : rgraph) (n : nat) : list nat := map snd (filter (fun e => fst e =? n) (redges g)).
(** 3722-3740 *)
Definition r_fusable (g : rgraph) (e : nat * nat) : bool :=
  rkind_eqb (rk (rn g (fst e))) KFuse && match rtq g (rout (rn g (fst e))) with Some _ => true | None => false end
  && rkind_eqb (rk (rn g (snd e))) KQuant.
(** 402-425: what the loop over [next_node] ends with; [None] outside is an exception or no end *)
Inductive rend := EQuant (q : option nat) | EPass | ESkip.
Fixpoint r_walk (g : rgraph) (fuel n : nat) : option rend :=
  match fuel with
  | O => None
  | S fuel =>
    match rk (rn g n) with
    | KQuant => Some (EQuant (rtq g (rout (rn g n))))
    | KDeq => Some EPass
    | KCopy => match r_outs g n with [] => None | [m] => r_walk g fuel m | _ => Some ESkip end
    | _ => Some ESkip
    end
  end.
Definition onat_eqb (a b : option nat) : bool :=
  match a, b with Some a, Some b => a =? b | None, None => true | _, _ => false end.
(** 397-431: [Some true] is [skip]; [pre] is [pre_quantize] *)
Fixpoint r_skip (g : rgraph) (fuel : nat) (rs : list nat) (pre : option nat) : option bool :=
  match rs with
  | [] => Some false
  | r :: rs =>
    match r_walk g fuel r with
    | None => None
    | Some ESkip => Some true
    | Some EPass => r_skip g fuel rs pre
    | Some (EQuant q) => match pre with
                         | None => r_skip g fuel rs q
                         | Some _ => if onat_eqb pre q then r_skip g fuel rs pre else Some true
                         end
    end
  end.
Definition r_upd {A} (f : nat -> A) (k : nat) (v : A) : nat -> A := fun n => if n =? k then v else f n.
Definition r_mem (n : nat) (l : list nat) : bool := existsb (Nat.eqb n) l.
(** graph.py 386-420 *)
Definition r_replace (g : rgraph) (a p : nat) : rgraph :=
  mkRG (rids g)
    (fun n => if r_mem n (r_outs g a)
              then mkRN (rk (rn g n)) (map (fun t => if t =? rout (rn g a) then rout (rn g p) else t) (rins (rn g n))) (rout (rn g n))
              else rn g n)
    (redges g ++ map (fun r => (p, r)) (r_outs g a)) (rtq g) (rdel g).
(** graph.py 354-384 *)
Definition r_connect (g : rgraph) (a p : nat) : rgraph :=
  mkRG (rids g) (rn g) (redges g ++ map (fun r => (p, r)) (r_outs g a)) (rtq g) (rdel g).
(** 395-458 *)
Definition r_step (fuel : nat) (g : rgraph) (e : nat * nat) : option rgraph :=
  let p := fst e in let a := snd e in
  if 1 <? length (r_outs g p) then
    match r_skip g fuel (r_outs g p) None with
    | None => None
    | Some true => Some g
    | Some false =>
      if existsb (fun r => rkind_eqb (rk (rn g r)) KOut) (r_outs g a) then None
      else let g1 := r_replace g a p in
           Some (mkRG (rids g1) (rn g1) (redges g1) (r_upd (rtq g1) (rout (rn g1 p)) (rtq g1 (rout (rn g1 a)))) (a :: rdel g1))
    end
  else
    let g1 := r_connect g a p in
    Some (mkRG (rids g1) (r_upd (rn g1) p (mkRN (rk (rn g1 p)) (rins (rn g1 p)) (rout (rn g1 a)))) (redges g1) (rtq g1) (a :: rdel g1)).
Fixpoint r_steps (fuel : nat) (g : rgraph) (es : list (nat * nat)) : option rgraph :=
  match es with
  | [] => Some g
  | e :: es => match r_step fuel g e with Some g => r_steps fuel g es | None => None end
  end.
(** 460-463 *)
Definition r_delete (g : rgraph) : rgraph :=
  mkRG (filter (fun n => negb (r_mem n (rdel g))) (rids g)) (rn g)
    (filter (fun e => negb (r_mem (fst e) (rdel g)) && negb (r_mem (snd e) (rdel g))) (redges g)) (rtq g) [].
(** 386-463 *)
Definition fuse_requantize (fuel : nat) (g : rgraph) : option rgraph :=
  match r_steps fuel g (filter (r_fusable g) (redges g)) with Some g => Some (r_delete g) | None => None end.
