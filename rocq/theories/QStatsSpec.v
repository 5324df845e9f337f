(** What parameters set by hand have to be. *)
From Coq Require Import List Arith ZArith Bool Reals.
From Verif Require Import QStatsModel.
Import ListNotations.
Local Open Scope R_scope.

(** the codes torch uses for an observer of unsigned 8 bit numbers: those given, or all, or half of them with a reduced range *)
Definition torch_codes (m : acp) : Z * Z :=
  match ac_range m with Some r => r | None => (0, if ac_reduce m then 127 else 255)%Z end.
(** the stub quantizes with scale 1/std and zero point mean, now and after conversion, and does not observe any more *)
Definition has_stats (eps : R) (mean : Z) (std : R) (m : acp) : Prop :=
  ac_observing m = false /\
  (ac_kind m = AFake -> ac_scale m = 1 / std /\ ac_zero m = mean) /\
  qparams_affine eps (fst (torch_codes m)) (snd (torch_codes m)) (ac_lo m) (ac_hi m) = (1 / std, mean).
(** a stub whose parameters can be set: it has an observer and a range *)
Definition can_set (m : acp) : Prop :=
  (ac_kind m = AObs \/ (ac_kind m = AFake /\ ac_inner m = true)) /\ (fst (torch_codes m) < snd (torch_codes m))%Z.
Definition stats_fit (eps : R) (mean : Z) (std : R) (m : acp) : Prop :=
  (fst (torch_codes m) <= mean <= snd (torch_codes m))%Z /\ 0 < std /\ eps <= 1 / std.
(** the numbers a fake quantization can represent, from the lowest code to the one after the highest *)
Definition lowest (p : fqp) : R := q_scale p * IZR (q_min p - q_zero p).
Definition beyond (p : fqp) : R := q_scale p * IZR (q_max p + 1 - q_zero p).
(** a module for which the parameters of fake quantization [f] are changed *)
Definition touches (f : nat) (m : rmod) : Prop := match m with RSig g => g = f | RFq g w => g = f /\ w = false end.
