(** Model of [fuse_activation] and of the graph part of [fuse_conv_fc_bn] (tinynn/converter/operators/optimize.py 95-170, 234-266,
    3636-3652, 3743-3762) with [connect_next_tensors] (graph.py 354-384).

    Simplified: numbers for nodes and tensors; constant tensors (weights, biases, statistics) belong to the operator and have no
    edges; the folded weights of [fuse_conv_fc_bn] are an argument; the edge between the two operators is deleted without being
    renamed first; UNUSED nodes are OUTPUT nodes. *)
From Coq Require Import List Arith Bool.
From Verif Require Import OutTransModel.
Import ListNotations.

(** [ActivationFunctionType] *)
Inductive actf := ANone | ARelu | ARelu6.
Definition actf_eqb (a b : actf) : bool := match a, b with ANone, ANone | ARelu, ARelu | ARelu6, ARelu6 => true | _, _ => false end.
(** node types that hold an activation: fully connected, convolution, transposed convolution, the others in 3747-3757 *)
Inductive pcls := CFc | CConv | CDeconv | COther.
(** [FPre f c w a]: operator [f] of class [c], [w]: its weight is a constant, [a]: [fusedActivationFunction];
    [FRelu6]: [false] RELU, [true] RELU6; [FBn w c a]: batch norm with parameters [w], [c]: they are constants *)
Inductive fkind := FIn | FConst | FOut | FOp (f : nat) | FPre (f : nat) (c : pcls) (w : bool) (a : actf) | FRelu (six : bool) | FBn (w : nat) (c : bool) (a : actf).
Record fnode := mkFN { fk : fkind; fin : list nat; fout : list nat }.
(** nodes, their numbers, edges (source, target, label), [tensor_node_map] *)
Record fg := mkFG { fn : nat -> fnode; fids : list nat; fed : list oedge; fprod : nat -> nat }.
Definition is_fout (k : fkind) : bool := match k with FOut => true | _ => false end.
(** base.py: [FUSE_ACTIVATION_MAP] *)
Definition fuse_map (six : bool) : actf := if six then ARelu6 else ARelu.
(** 3746-3760, 242, 261: the kind of the operator after fusion *)
Definition pick_act (with_bias : bool) (k1 k2 : fkind) : option fkind :=
  match k1, k2 with
  | FPre f c w ANone, FRelu six => match c, with_bias with CDeconv, false => None | _, _ => Some (FPre f c w (fuse_map six)) end
  | _, _ => None
  end.
(** 3640-3651, 124-125; [fold f w dec] is the operator with the folded weight and bias *)
Definition pick_bn (fold : nat -> nat -> bool -> nat) (k1 k2 : fkind) : option fkind :=
  match k1, k2 with
  | FPre f c true a, FBn w true b =>
      match c with
      | COther => None
      | _ => if actf_eqb b ANone || (actf_eqb a ANone || actf_eqb a b) then
               Some (FPre (fold f w (match c with CDeconv => true | _ => false end)) c true (if negb (actf_eqb b ANone) && actf_eqb a ANone then b else a))
             else None
      end
  | _, _ => None
  end.
Definition f_outs (g : fg) (n : nat) : list oedge := filter (fun e => fst (fst e) =? n) (fed g).
(** the predicates of [es.select], with [outdegree() == 1] *)
Definition f_edge (pick : fkind -> fkind -> option fkind) (g : fg) (e : oedge) : bool :=
  match pick (fk (fn g (fst (fst e)))) (fk (fn g (snd (fst e)))) with Some _ => length (f_outs g (fst (fst e))) =? 1 | None => false end.
(** graph.py 369-381 *)
Fixpoint f_connect (g : fg) (p t : nat) (es : list oedge) : option (list oedge) :=
  match es with
  | [] => Some []
  | (_, d, l) :: es =>
      if negb (is_fout (fk (fn g d))) && negb (l =? t) then None else
      match f_connect g p t es with Some r => Some ((p, d, t) :: r) | None => None end
  end.
(** one pair: 101-127, 241-263 *)
Definition f_absorb (pick : fkind -> fkind -> option fkind) (g : fg) (p a : nat) : option (fg * list nat) :=
  match pick (fk (fn g p)) (fk (fn g a)) with
  | None => Some (g, [])
  | Some k =>
      let t := nth 0 (fout (fn g a)) 0 in
      match f_connect g p t (f_outs g a) with
      | Some new => Some (mkFG (o_upd (fn g) p (mkFN k (fin (fn g p)) (set_nth 0 t (fout (fn g p))))) (fids g) (fed g ++ new) (o_upd (fprod g) t p), [a])
      | None => None
      end
  end.
Fixpoint f_loop (pick : fkind -> fkind -> option fkind) (es : list oedge) (g : fg) (rem : list nat) : option (fg * list nat) :=
  match es with
  | [] => Some (g, rem)
  | e :: es => match f_absorb pick g (fst (fst e)) (snd (fst e)) with Some (g', r) => f_loop pick es g' (rem ++ r) | None => None end
  end.
(** [delete_vertices] *)
Definition f_delete (g : fg) (rem : list nat) : fg :=
  mkFG (fn g) (filter (fun n => negb (o_mem n rem)) (fids g)) (filter (fun e => negb (o_mem (fst (fst e)) rem) && negb (o_mem (snd (fst e)) rem)) (fed g)) (fprod g).
Definition f_pass (pick : fkind -> fkind -> option fkind) (g : fg) : option fg :=
  match f_loop pick (filter (f_edge pick g) (fed g)) g [] with Some (g', rem) => Some (f_delete g' rem) | None => None end.
(** 234-266 *)
Definition fuse_activation (with_bias : bool) (g : fg) : option fg := f_pass (pick_act with_bias) g.
(** 95-170 *)
Definition fuse_conv_fc_bn (fold : nat -> nat -> bool -> nat) (g : fg) : option fg := f_pass (pick_bn fold) g.
