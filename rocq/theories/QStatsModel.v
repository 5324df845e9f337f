(** Model of setting quantization parameters by hand in tinynn/graph/quantization/quantizer.py:
    [prepare_quantized_inputs_pass] (1345-1362), [set_module_quantization] (1397-1442) and
    [rescale_activations_with_quant_min_max] (1444-1466).

    Simplified: reals for floats, an integer mean.  The parameters that torch computes from an observer
    ([_calculate_qparams] of torch.ao.quantization.observer) are written down as torch defines them. *)
From Coq Require Import List Arith ZArith Bool Reals.
From Verif Require Import QuantSpec.
Import ListNotations.
Local Open Scope R_scope.

Inductive akind := AFake | AObs | AOther.
(** [activation_post_process] of a module: its kind, [quant_min] and [quant_max] ([None]: both are [None]),
    [reduce_range], whether a fake quantization has an observer, the parameters of the fake quantization, [min_val] and
    [max_val] of the observer, whether it still observes *)
Record acp := mkA { ac_kind : akind; ac_range : option (Z * Z); ac_reduce : bool; ac_inner : bool; ac_scale : R; ac_zero : Z;
                    ac_lo : R; ac_hi : R; ac_observing : bool }.
(** 1435-1439 *)
Definition ac_limits (m : acp) : Z * Z :=
  match ac_range m with Some r => r | None => if ac_reduce m then (0, 127)%Z else (0, 255)%Z end.
(** 1397-1442 *)
Definition set_module (m : acp) (mean : Z) (std : R) : acp :=
  let s := 1 / std in
  let lo := s * IZR (fst (ac_limits m) - mean) in let hi := s * IZR (snd (ac_limits m) - mean) in
  match ac_kind m with
  | AFake => mkA AFake (ac_range m) (ac_reduce m) (ac_inner m) s mean (if ac_inner m then lo else ac_lo m) (if ac_inner m then hi else ac_hi m) false
  | AObs => mkA AObs (ac_range m) (ac_reduce m) (ac_inner m) (ac_scale m) (ac_zero m) lo hi false
  | AOther => m
  end.
(** 1345-1362: [stubs] are the quantize stubs behind each input; [None]: an exception *)
Fixpoint prepare_inputs (stats : list (option (Z * R))) (stubs : list (list acp)) : option (list (list acp)) :=
  match stats, stubs with
  | [], [] => Some []
  | st :: stats, ms :: stubs =>
    match (match st, ms with
           | Some (mean, std), _ => Some (map (fun m => set_module m mean std) ms)
           | None, [] => Some []
           | None, _ => None
           end), prepare_inputs stats stubs with
    | Some ms', Some rest => Some (ms' :: rest)
    | _, _ => None
    end
  | _, _ => None
  end.

(** torch: the parameters of an observer that has seen numbers from [lo] to [hi] *)
Definition qparams_affine (eps : R) (qmin qmax : Z) (lo hi : R) : R * Z :=
  let lo' := Rmin lo 0 in let hi' := Rmax hi 0 in
  let s := Rmax ((hi' - lo') / IZR (qmax - qmin)) eps in
  (s, Z.max qmin (Z.min qmax (qmin - rne (lo' / s)))).
Definition qparams_symmetric (eps : R) (qmin qmax : Z) (mid : Z) (lo hi : R) : R * Z :=
  let lo' := Rmin lo 0 in let hi' := Rmax hi 0 in
  (Rmax (Rmax (- lo') hi' / (IZR (qmax - qmin) / 2)) eps, mid).

(** * Rescaling *)
(** a [FakeQuantize]: scale, zero point, range, whether it has an observer *)
Record fqp := mkFP { q_scale : R; q_zero : Z; q_min : Z; q_max : Z; q_obs : bool }.
(** what [named_modules] passes, each object once, in its order: a sigmoid and its fake quantization, or a fake
    quantization and whether it is one of weights *)
Inductive rmod := RSig (f : nat) | RFq (f : nat) (weight : bool).
Definition f_upd (st : nat -> fqp) (f : nat) (x : fqp) : nat -> fqp := fun n => if n =? f then x else st n.
(** 1446-1466 *)
Definition rescale_mod (qmin qmax : Z) (st : nat -> fqp) (m : rmod) : nat -> fqp :=
  match m with
  | RSig f => if ((qmin =? 0) && (qmax =? 65535))%Z
              then f_upd st f (mkFP (q_scale (st f) * 2) 32768 (q_min (st f)) (q_max (st f)) (q_obs (st f))) else st
  | RFq f true => st
  | RFq f false =>
    if q_obs (st f) then
      let old := (q_max (st f) - q_min (st f) + 1)%Z in let new := (qmax - qmin + 1)%Z in
      f_upd st f (mkFP (q_scale (st f) * IZR old / IZR new) (if (q_zero (st f) =? 0)%Z then 0 else new / 2)%Z qmin qmax true)
    else st
  end.
Definition rescale (qmin qmax : Z) (ms : list rmod) (st : nat -> fqp) : nat -> fqp := fold_left (rescale_mod qmin qmax) ms st.
