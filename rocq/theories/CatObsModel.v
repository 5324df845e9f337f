(** Model of [QATQuantizer.disable_requantization_for_cat_pass] (tinynn/graph/quantization/quantizer.py 1210-1343): the
    observers around concatenations are made one object.

    Simplified: nodes are numbered.  An observer sits in a slot (the pair of [parents] and [props]) and is a number;
    [obs] says which observer is in which slot. *)
From Coq Require Import List Arith Bool.
Import ListNotations.

(** What the pass reads of a node: [type() == 'cat'], [kind() in ('shape', 'size')] (1227), the slots that are collected
    for it (1244-1284 for modules, two for a bidirectional recurrent layer; 1292-1298 for functions of a
    [FloatFunctional]), whether it is a stub (1285), whether it is a function whose first entry in [prev_nodes] is its
    [FloatFunctional] (1288-1290), [prev_nodes] and [next_nodes]. *)
Record cnode := mkCN {
  cn_cat : bool; cn_shape : bool; cn_slots : list nat; cn_stub : bool; cn_ff : bool;
  cn_prev : list nat; cn_next : list nat }.
Definition cgraph := nat -> cnode.

Inductive cmode := Both | Up | Down.
(** an entry of the queue [q] (1218, 1225): node, mode, fq_count *)
Definition centry := (nat * (cmode * nat))%type.

(** 1292-1295: at a concatenation mode and count start again *)
Definition c_mode (g : cgraph) (e : centry) : cmode := if cn_cat (g (fst e)) then Both else fst (snd e).
Definition c_count (g : cgraph) (e : centry) : nat := if cn_cat (g (fst e)) then 0 else snd (snd e).
(** 1236-1303: [new_fq_count] *)
Definition c_new (g : cgraph) (e : centry) : nat :=
  if cn_stub (g (fst e)) then 2
  else match cn_slots (g (fst e)) with [] => c_count g e | _ => S (c_count g e) end.
(** the slots that are appended ([if new_fq_count == 0]) *)
Definition c_slots (g : cgraph) (e : centry) : list nat := if c_count g e =? 0 then cn_slots (g (fst e)) else [].
(** 1305-1314 *)
Definition c_up (g : cgraph) (e : centry) : nat := match c_mode g e with Up => c_new g e | _ => c_count g e end.
Definition c_turns (g : cgraph) (e : centry) : bool :=
  match c_mode g e with Up => 1 <? length (cn_next (g (fst e))) | _ => false end.
Definition c_down (g : cgraph) (e : centry) : nat :=
  match c_mode g e with Up => if c_turns g e then S (c_count g e) else c_count g e | _ => c_new g e end.
(** 1316-1326: what is put into the queue *)
Definition c_inputs (g : cgraph) (n : nat) : list nat := if cn_ff (g n) then tl (cn_prev (g n)) else cn_prev (g n).
Definition c_push (g : cgraph) (e : centry) : list centry :=
  (match c_mode g e with
   | Down => []
   | _ => if c_up g e <? 2 then map (fun m => (m, (Up, c_up g e))) (c_inputs g (fst e)) else []
   end) ++
  (if match c_mode g e with Up => c_turns g e | _ => true end
   then if c_down g e <? 2 then map (fun m => (m, (Down, c_down g e))) (cn_next (g (fst e))) else []
   else []).

(** [visited_other.get(name, 2)] (1229); a later write is in front *)
Definition v_get (vo : list (nat * nat)) (n : nat) : nat :=
  match find (fun p => fst p =? n) vo with Some p => snd p | None => 2 end.
Definition nmem (n : nat) (l : list nat) : bool := existsb (Nat.eqb n) l.
(** 1226-1231 *)
Definition c_skip (g : cgraph) (vc : list nat) (vo : list (nat * nat)) (e : centry) : bool :=
  cn_shape (g (fst e)) || nmem (fst e) vc || (v_get vo (fst e) <=? snd (snd e)).
(** 1224-1326: the loop, with fuel; [visited_center] and the collected slots *)
Fixpoint c_loop (g : cgraph) (fuel : nat) (q : list centry) (vc : list nat) (vo : list (nat * nat)) (col : list nat)
  : option (list nat * list nat) :=
  match fuel with
  | O => None
  | S fuel =>
    match q with
    | [] => Some (vc, col)
    | e :: q =>
      if c_skip g vc vo e then c_loop g fuel q vc vo col
      else c_loop g fuel (q ++ c_push g e)
             (if cn_cat (g (fst e)) then fst e :: vc else vc)
             (if cn_cat (g (fst e)) then vo else (fst e, snd (snd e)) :: vo)
             (col ++ c_slots g e)
    end
  end.
(** 1328-1332: the observer of the first slot is put into the others *)
Definition c_unify (slots : list nat) (obs : nat -> nat) : nat -> nat :=
  match slots with
  | [] => obs
  | s0 :: rest => fun s => if nmem s rest then obs s0 else obs s
  end.
(** 1220-1332: the loop over the quantized concatenations *)
Fixpoint c_pass (g : cgraph) (fuel : nat) (cats : list nat) (vc : list nat) (obs : nat -> nat) : option (nat -> nat) :=
  match cats with
  | [] => Some obs
  | c :: cats =>
    match c_loop g fuel [(c, (Both, 0))] vc [] [] with
    | None => None
    | Some (vc', col) => c_pass g fuel cats vc' (c_unify col obs)
    end
  end.
Definition unify_cats (g : cgraph) (fuel : nat) (cats : list nat) (obs : nat -> nat) : option (nat -> nat) :=
  c_pass g fuel cats [] obs.
