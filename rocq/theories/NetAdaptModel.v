(** Model of the NetAdapt pruner (tinynn/prune/netadapt_pruner.py) and of the count of operations it relies on
    ([BasePruner.calc_flops], tinynn/prune/base_pruner.py 185-247).

    Simplified: exact rationals for the floats of targets, rates and accuracies; masking, training and validation of a
    subgraph are given as functions. *)
From Coq Require Import List ZArith QArith Bool.
Import ListNotations.
Local Open Scope Z_scope.

Definition obind {A B} (o : option A) (f : A -> option B) : option B := match o with Some a => f a | None => None end.

(** What [calc_flops] reads of a node: the module and the number of elements of the tensor it looks at
    ([next_tensors[0]] for convolutions and linear layers, [prev_tensors[0]] otherwise). *)
Inductive flayer :=
| LConv (elems cin cout groups kernel bias : Z)   (* Conv2d, ConvTranspose2d *)
| LBn (elems feats : Z)                            (* BatchNorm2d *)
| LUnary (elems channels : Z)                      (* AvgPool2d, AdaptiveAvgPool2d, ReLU *)
| LLin (elems fin fout : Z)                        (* Linear *)
| LOther.
(** python [//]: raises for zero *)
Definition fdiv (a b : Z) : option Z := if b =? 0 then None else Some (a / b).
(** 197-245: one node, with the numbers of removed input and output channels; [is_dw_conv] modifier.py 149-154 *)
Definition layer_flops (l : flayer) (rin rout : Z) : option Z :=
  match l with
  | LConv e ci co g k b =>
      let ci' := ci - rin in let co' := co - rout in
      obind (fdiv e co) (fun s =>
      obind (fdiv ci' (if (ci =? g) && (g =? co) then ci' else g)) (fun per => Some (s * co' * (per * k + b))))
  | LBn e f => obind (fdiv e f) (fun s => Some (2 * (s * (f - rin))))
  | LUnary e c => obind (fdiv e c) (fun s => Some (1 * (s * (c - rin))))
  | LLin e fi fo => obind (fdiv e fo) (fun s => Some ((fi - rin) * (s * (fo - rout))))
  | LOther => Some 0
  end.
(** 193-247 *)
Fixpoint calc_flops (ls : list (flayer * (Z * Z))) : option Z :=
  match ls with
  | [] => Some 0
  | (l, (rin, rout)) :: ls => obind (layer_flops l rin rout) (fun a => obind (calc_flops ls) (fun b => Some (a + b)))
  end.

(** * [find_prune_plan] (netadapt_pruner.py 205-294) *)
(** 219-225: [candidate_channels] *)
Definition candidates (n m : Z) : list Z := map (fun k => Z.of_nat k * m) (rev (seq 1 (Z.to_nat (n / m)))).
Definition below (f : Z) (target : Q) : bool := negb (Qle_bool target (inject_Z f)).
(** 241-292: [flops c] is [calc_flops] with the masks for [c] channels; [prev] is [candidate_channels[idx]]; the result is
    the number of channels that stay (the sparsity is [(n - c) / n]) and [post_flops] *)
Fixpoint plan_loop (flops : Z -> Z) (target : Q) (cs : list Z) (idx : nat) (prev post : Z) (diff poss : option Z)
  : option (Z * Z) :=
  match cs with
  | [] => None
  | c :: cs =>
    match diff with
    | Some d => if below (post - d) target then Some (c, post - d)
                else plan_loop flops target cs (S idx) c (post - d) diff poss
    | None =>
      let next := flops c in
      let '(diff', poss') :=
        match idx with
        | 1%nat => if (post mod prev =? 0) && (next mod c =? 0) && (post / prev =? next / c)
                   then (Some (post - next), poss) else (None, Some (post - next))
        | 2%nat => if match poss with Some d => post - next =? d | None => false end then (poss, None) else (None, poss)
        | _ => (None, poss)
        end in
      if below next target then Some (c, next) else plan_loop flops target cs (S idx) c next diff' poss'
    end
  end.
(** 217-294; the first candidate is not tried (226-231) *)
Definition find_plan (flops : Z -> Z) (n m pre : Z) (target : Q) : option (Z * Z) :=
  match candidates n m with
  | [] => None
  | c0 :: cs => plan_loop flops target cs 0 c0 pre None None
  end.

(** * The rounds ([prune], 303-373) *)
(** the result of one subgraph: accuracy and [new_flops]; [(-1, {}, -1)] without a plan (159-162) *)
Definition job := (Q * option Z)%type.
(** [get_pruned_subgraph_info] (142-203), [acc] being the accuracy of the model pruned so *)
Definition subgraph_job (acc : Z -> Q) (flops : Z -> Z) (n m pre : Z) (target : Q) : job :=
  match find_plan flops n m pre target with
  | Some (c, f) => (acc c, Some f)
  | None => ((-1)%Q, None)
  end.
(** 341: [max(enumerate(results), key=...)]: the first of the best *)
Fixpoint best_job (b : job) (js : list job) : job :=
  match js with
  | [] => b
  | j :: js => best_job (if Qle_bool (fst j) (fst b) then b else j) js
  end.
(** 328-331 *)
Definition round_target (r d : Q) (it : nat) (cur : Z) : Q := inject_Z cur - r * inject_Z cur * Qpower d (Z.of_nat it).
Inductive stop := Reached | NoRounds | AllInvalid | NoSubgraph.
(** 322-373: [jobs it target] are the results of a round, [it] counted from 0; [rounds] is [None] for -1.  [None] if the
    fuel is used up; otherwise the flops of each round and the reason of the end. *)
Fixpoint rounds_loop (jobs : nat -> Q -> list job) (r d : Q) (budget : Z) (rounds : option nat) (fuel it : nat) (cur : Z)
  : option (list Z * stop) :=
  match fuel with
  | O => None
  | S fuel =>
    if match rounds with Some k => (k <=? it)%nat | None => false end then Some ([], NoRounds)
    else if cur <=? budget then Some ([], Reached)
    else match jobs it (round_target r d it cur) with
         | [] => Some ([], NoSubgraph)
         | j :: js => match snd (best_job j js) with
                      | None => Some ([], AllInvalid)
                      | Some f => obind (rounds_loop jobs r d budget rounds fuel (S it) f) (fun t => Some (f :: fst t, snd t))
                      end
         end
  end.
