(** Model of [HalfQuantizer.quantize_pass] and [is_quantizable_node] (tinynn/converter/operators/half_quantizer.py 50-84) with
    [add_operator] and [replace_operator_input] (graph.py 228-244, 262-324).

    Simplified: numbers for nodes and tensors, as in BranchModel.v; the names of the new tensors are unused numbers
    (36-45 count [half_attr], [half_transform]; that no tensor of the model has such a name is assumed). *)
From Coq Require Import List Arith Bool.
From Verif Require Import OutTransModel BranchModel.
Import ListNotations.

(** 80-84; [is32]: the tensors of type float32 *)
Definition h_selected (is32 : nat -> bool) (g : bg) (n : nat) : bool :=
  match bk (bn g n) with BConst => is32 (nth 0 (bout (bn g n)) 0) | _ => false end.
(** graph.py 150-244: a node with one new tensor and edges for its inputs *)
Definition h_node (g : bg) (k : bkind) (ins : list nat) : bg :=
  let m := bnext g in
  mkBG (o_upd (bn g) m (mkBN k ins [m])) (bids g ++ [m]) (bed g ++ map (fun u => (bprod g u, m, u)) ins) (o_upd (bprod g) m m) (S m).
(** graph so far, [actions], the float16 constants with the tensor they were made from *)
Definition hst := (bg * list bact * list (nat * nat))%type.
(** 53-74 for one constant: a float16 constant, a DEQUANTIZE ([dq]) behind it, and the readers are to use it; [ord] is the order of
    the set [next_ops]; [None]: [next_op] of an OUTPUT node is [None] *)
Definition h_const (dq : nat) (ord : list nat -> list nat) (s : hst) (n : nat) : option hst :=
  let '(g, acts, hs) := s in
  let t := nth 0 (bout (bn g n)) 0 in
  let c := bnext g in let m := S (bnext g) in
  let rs := ord (b_succ g n) in
  if existsb (fun r => is_bout (bk (bn g r))) rs then None
  else Some (h_node (h_node g BConst []) (BOp dq) [c],
             acts ++ flat_map (fun r => map (fun i => (r, i, m)) (o_positions t (bin (bn g r)))) rs, hs ++ [(c, t)]).
Fixpoint h_consts (dq : nat) (ord : list nat -> list nat) (ns : list nat) (s : hst) : option hst :=
  match ns with [] => Some s | n :: ns => match h_const dq ord s n with Some s' => h_consts dq ord ns s' | None => None end end.
(** 50-77 *)
Definition half_quantize (dq : nat) (is32 : nat -> bool) (ord : list nat -> list nat) (g : bg) : option (bg * list (nat * nat)) :=
  match h_consts dq ord (filter (h_selected is32 g) (bids g)) (g, [], []) with
  | Some (g1, acts, hs) => Some (fold_left b_act acts g1, hs)
  | None => None
  end.
