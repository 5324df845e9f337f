(** Model of the absorption of high biases: [bias_absorb_helper_], [bias_absorb_] and [high_bias_absorb]
    (tinynn/graph/quantization/algorithm/cross_layer_equalization.py 204-252, 283-296), as [cross_layer_equalize] calls it after [equalize_model] (190-200).

    Simplified: reals for floats; both layers have biases (205) and both models have the same (294), so the new biases are computed from
    one pair; [None] for an exception.  The first layer has [C] output channels; the second [O] output channels, [ig] input channels
    per group and kernels of [K] entries. *)
From Coq Require Import Reals List Arith Bool.
Import ListNotations.
Open Scope R_scope.

(** 210-220: a convolution with a batch norm (restored, or remembered in [fused_bn_]), one without, another layer (linear) *)
Inductive hkind := HBn | HPlain | HOther.
(** 223-225: [bn.bias - 3 * abs(bn.weight)], not below zero *)
Definition shift (gam bet : nat -> R) (c : nat) : R := let d := bet c - 3 * Rabs (gam c) in if Rlt_dec d 0 then 0 else d.
(** sum of the first [n] values, for [sum] and [matmul] (228, 234) *)
Definition rsum (n : nat) (f : nat -> R) : R := fold_right Rplus 0 (map f (seq 0 n)).
(** 228: sum over the kernel *)
Definition reduced (K : nat) (w2 : nat -> nat -> nat -> R) (o i : nat) : R := rsum K (w2 o i).
(** 229-234: products of vectors with broadcasting, or of a matrix with a vector; the lengths have to fit *)
Definition correct (C O ig K : nat) (w2 : nat -> nat -> nat -> R) (s : nat -> R) : option (nat -> R) :=
  if ig =? 1 then
    if O =? C then Some (fun o => reduced K w2 o 0 * s o)
    else if C =? 1 then Some (fun o => reduced K w2 o 0 * s 0%nat) else None
  else if ig =? C then Some (fun o => rsum ig (fun i => reduced K w2 o i * s i)) else None.
(** 204-241: the new biases of both layers; without batch norms nothing is done (219); if the first is no convolution [pre_bn] is not
    bound (223) *)
Definition absorb (k1 k2 : hkind) (C O ig K : nat) (gam bet b1 : nat -> R) (w2 : nat -> nat -> nat -> R) (b2 : nat -> R) : option ((nat -> R) * (nat -> R)) :=
  match k1, k2 with
  | HBn, HBn =>
      let s := shift gam bet in
      match correct C O ig K w2 s with
      | Some d => Some (fun c => b1 c - s c, fun o => b2 o + d o)
      | None => None
      end
  | HOther, _ => None
  | _, _ => Some (b1, b2)
  end.
(** the bias of one layer is set (240, 241) *)
Definition set_bias (org : nat -> nat -> R) (n : nat) (b : nat -> R) (l : nat) : nat -> R := if l =? n then b else org l.
(** 246-252 with 235-241 for the group [a], [b]: [m] has the biases of [model], [org] those of [origin_model]; [sh] and [co] are the
    shifts and corrections, [bn] says which layers have batch norms *)
Definition absorb_group (bn : nat -> bool) (sh : nat -> nat -> R) (co : nat -> nat -> option (nat -> R)) (m org : nat -> nat -> R) (a b : nat) : option (nat -> nat -> R) :=
  if bn a && bn b then
    match co a b with
    | Some d => Some (set_bias (set_bias org a (fun c => org a c - sh a c)) b (fun o => m b o + d o))
    | None => None
    end
  else Some org.
(** 246-252: all groups *)
Fixpoint absorb_groups (bn : nat -> bool) (sh : nat -> nat -> R) (co : nat -> nat -> option (nat -> R)) (m org : nat -> nat -> R) (gs : list (nat * nat)) : option (nat -> nat -> R) :=
  match gs with
  | [] => Some org
  | (a, b) :: gs => match absorb_group bn sh co m org a b with Some org' => absorb_groups bn sh co m org' gs | None => None end
  end.
(** 283-296: [origin_model] is a copy of the model *)
Definition absorb_model (bn : nat -> bool) (sh : nat -> nat -> R) (co : nat -> nat -> option (nat -> R)) (m : nat -> nat -> R) (gs : list (nat * nat)) : option (nat -> nat -> R) :=
  absorb_groups bn sh co m m gs.
