(** Model of [quantize_input_output_type_pass] (tinynn/converter/operators/optimize.py 3069-3179) with [add_operator],
    [replace_next_tensors] and [add_outputs] (graph.py 211-244, 386-420).

    The graph is that of BranchModel.v, the input side is done as in InTransModel.v: the index of an edge is its position.
    Simplified: numbers for nodes and tensors; the arrays and the quantization parameters of the tensors are left to the meaning of
    QUANTIZE and to [shift]; the output that an OUTPUT node has is an unused number. *)
From Coq Require Import ZArith List Arith Bool.
From Verif Require Import OutTransModel BranchModel HalfModel InTransModel.
Import ListNotations.

(** [str(tensor.dtype)] (3084, 3129) and its comparison (3085, 3130) *)
Inductive qty := TI8 | TU8 | TOther.
Definition qty_eqb (a b : qty) : bool := match a, b with TI8, TI8 | TU8, TU8 | TOther, TOther => true | _, _ => false end.
(** 3090-3102 and 3145-3155; otherwise an assertion fails *)
Definition qsup (a b : qty) : bool := match a, b with TI8, TU8 | TU8, TI8 => true | _, _ => false end.
(** 3090-3097 and 3145-3150: what is added to the codes and to the zero point *)
Definition shift (a b : qty) : Z := match a, b with TI8, TU8 => 128 | TU8, TI8 => -128 | _, _ => 0 end.

(** graph, [remove_edges] (3071), types *)
Definition qist := (bg * list nat * (nat -> qty))%type.
(** 3073-3120 for the input [t]; [q a b]: QUANTIZE from type [a] to type [b]; [tgt]: [quantize_input_output_type] *)
Definition qi_step (q : qty -> qty -> nat) (tgt : qty) (s : qist) (t : nat) : option qist :=
  let '(g, rem, ty) := s in
  let n := bprod g t in
  match bk (bn g n) with
  | BIn =>
      let x := nth 0 (bout (bn g n)) 0 in
      if qty_eqb (ty x) tgt then Some s
      else if qsup (ty x) tgt then
        let m := bnext g in
        let g1 := h_node g (BOp (q tgt (ty x))) [x] in
        match it_connect x m (map snd (it_out g1 n)) g1 with
        | Some g2 => Some (g2, rem ++ map fst (filter (fun ie => negb (e_tgt (snd ie) =? m)) (it_out g2 n)), o_upd (o_upd ty x tgt) m (ty x))
        | None => None
        end
      else None
  | _ => None
  end.
(** 3073-3076: the inputs, and whether [fuse_input_indices] selects them *)
Fixpoint qi_steps (q : qty -> qty -> nat) (tgt : qty) (ns : list (nat * bool)) (s : qist) : option qist :=
  match ns with
  | [] => Some s
  | (t, true) :: ns => match qi_step q tgt s t with Some s' => qi_steps q tgt ns s' | None => None end
  | (_, false) :: ns => qi_steps q tgt ns s
  end.
(** graph, [remove_vertices] (3072), [output_mapping] (3122, the last entry first), types *)
Definition qost := (bg * list nat * list (nat * nat) * (nat -> qty))%type.
(** 3128-3161 for the output [t] *)
Definition qo_step (q : qty -> qty -> nat) (tgt : qty) (s : qost) (t : nat) : option qost :=
  let '(g, rv, mp, ty) := s in
  if qty_eqb (ty t) tgt then Some s
  else
    let rv' := rv ++ filter (fun d => is_bout (bk (bn g d))) (map (fun ie => e_tgt (snd ie)) (it_out g (bprod g t))) in
    if qsup (ty t) tgt then Some (h_node g (BOp (q (ty t) tgt)) [t], rv', (t, bnext g) :: mp, o_upd ty (bnext g) tgt) else None.
(** 3123-3126: the outputs, and whether [fuse_output_indices] selects them *)
Fixpoint qo_steps (q : qty -> qty -> nat) (tgt : qty) (os : list (nat * bool)) (s : qost) : option qost :=
  match os with
  | [] => Some s
  | (t, true) :: os => match qo_step q tgt s t with Some s' => qo_steps q tgt os s' | None => None end
  | (_, false) :: os => qo_steps q tgt os s
  end.
(** 3167: [output_mapping] as a dictionary *)
Fixpoint q_find (mp : list (nat * nat)) (t : nat) : option nat := match mp with [] => None | (a, m) :: mp => if t =? a then Some m else q_find mp t end.
(** 3163-3171: the new outputs, and those that need OUTPUT nodes *)
Definition new_out (mp : list (nat * nat)) (t : nat) : nat := match q_find mp t with Some m => m | None => t end.
Definition out_names (mp : list (nat * nat)) (os : list nat) : list nat := flat_map (fun t => match q_find mp t with Some m => [m] | None => [] end) os.
(** graph.py 211-226 *)
Definition q_add_outputs (g : bg) (names : list nat) : bg := fold_left (fun g m => h_node g BOut [m]) names g.
(** igraph [delete_vertices] (3179) *)
Definition q_del (rv : list nat) (g : bg) : bg :=
  mkBG (bn g) (filter (fun r => negb (o_mem r rv)) (bids g)) (filter (fun e => negb (o_mem (e_src e) rv) && negb (o_mem (e_tgt e) rv)) (bed g)) (bprod g) (bnext g).
(** 3069-3179: graph, outputs, types *)
Definition quantize_io (q : qty -> qty -> nat) (tgt : qty) (ns os : list (nat * bool)) (g : bg) (ty : nat -> qty) : option (bg * list nat * (nat -> qty)) :=
  match qi_steps q tgt ns (g, [], ty) with
  | None => None
  | Some (g1, rem, ty1) =>
      match qo_steps q tgt os (g1, [], [], ty1) with
      | None => None
      | Some (g2, rv, mp, ty2) =>
          let g3 := q_add_outputs g2 (out_names mp (map fst os)) in
          Some (q_del rv (mkBG (bn g3) (bids g3) (remove_pos rem (bed g3)) (bprod g3) (bnext g3)), map (new_out mp) (map fst os), ty2)
      end
  end.
