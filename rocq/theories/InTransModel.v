(** Model of [input_transpose_pass] (tinynn/converter/operators/optimize.py 3012-3067) with [add_operator] and
    [replace_next_tensors] (graph.py 228-244, 386-420).

    The graph is that of BranchModel.v: the index of an edge is its position.  Simplified: numbers for nodes and tensors; shapes are
    left out (that a flagged input has four dimensions is assumed). *)
From Coq Require Import List Arith Bool.
From Verif Require Import OutTransModel BranchModel HalfModel.
Import ListNotations.

Definition e_src (e : oedge) : nat := fst (fst e).
Definition e_tgt (e : oedge) : nat := snd (fst e).
(** [node.out_edges()] with their indices *)
Definition it_out (g : bg) (n : nat) : list (nat * oedge) := filter (fun ie => e_src (snd ie) =? n) (combine (seq 0 (length (bed g))) (bed g)).
Definition is_quantize (isq : nat -> bool) (k : bkind) : bool := match k with BOp f => isq f | _ => false end.
(** 3023-3028 *)
Definition it_next (isq : nat -> bool) (g : bg) (n : nat) : option nat :=
  match it_out g n with
  | [ie] => if is_quantize isq (bk (bn g (e_tgt (snd ie)))) then Some (e_tgt (snd ie)) else None
  | _ => None
  end.
Definition it_ren (t m x : nat) : nat := if x =? t then m else x.
(** graph.py 401-417; [None]: an assertion fails *)
Fixpoint it_connect (t m : nat) (es : list oedge) (g : bg) : option bg :=
  match es with
  | [] => Some g
  | e :: es =>
      let d := e_tgt e in
      if d =? m then it_connect t m es g
      else if is_bout (bk (bn g d)) then None
      else if negb (snd e =? t) then None
      else it_connect t m es (mkBG (o_upd (bn g) d (mkBN (bk (bn g d)) (map (it_ren t m) (bin (bn g d))) (bout (bn g d))))
                                   (bids g) (bed g ++ [(m, d, m)]) (bprod g) (bnext g))
  end.
(** 3017-3064 for the input [t]: graph and [remove_edges]; [trp]: TRANSPOSE *)
Definition it_step (isq : nat -> bool) (trp : nat) (s : bg * list nat) (t : nat) : option (bg * list nat) :=
  let '(g, rem) := s in
  let n := bprod g t in
  match bk (bn g n) with
  | BIn =>
      let last := match it_next isq g n with Some r => r | None => n end in
      let x := nth 0 (bout (bn g last)) 0 in
      let c := bnext g in let m := S (bnext g) in
      let g1 := h_node (h_node g BConst []) (BOp trp) [x; c] in
      match it_connect x m (map snd (it_out g1 last)) g1 with
      | Some g2 => Some (g2, rem ++ map fst (filter (fun ie => negb (e_tgt (snd ie) =? m)) (it_out g2 last)))
      | None => None
      end
  | _ => None
  end.
(** 3017-3018: the inputs with their flags *)
Fixpoint it_steps (isq : nat -> bool) (trp : nat) (ns : list (nat * bool)) (s : bg * list nat) : option (bg * list nat) :=
  match ns with
  | [] => Some s
  | (t, true) :: ns => match it_step isq trp s t with Some s' => it_steps isq trp ns s' | None => None end
  | (_, false) :: ns => it_steps isq trp ns s
  end.
(** 3012-3067 *)
Definition input_transpose (isq : nat -> bool) (trp : nat) (ns : list (nat * bool)) (g : bg) : option bg :=
  match it_steps isq trp ns (g, []) with
  | Some (g', rem) => Some (mkBG (bn g') (bids g') (remove_pos rem (bed g')) (bprod g') (bnext g'))
  | None => None
  end.
