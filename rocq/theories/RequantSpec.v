(** What a quantized graph computes if quantization itself is exact. *)
From Coq Require Import List Arith ZArith Bool.
From Verif Require Import RequantModel.
Import ListNotations.

(** a graph as the optimizer sees it: every input is the output of a vertex, with an edge for it; outputs are different;
    nothing is to be deleted *)
Record r_wf (g : rgraph) : Prop := {
  rw_made : forall d t, In d (rids g) -> In t (rins (rn g d)) -> exists s, In s (rids g) /\ rout (rn g s) = t;
  rw_edge : forall s d, In s (rids g) -> In d (rids g) -> In (rout (rn g s)) (rins (rn g d)) -> In (s, d) (redges g);
  rw_live : forall s d, In (s, d) (redges g) -> In s (rids g) /\ In d (rids g) /\ In (rout (rn g s)) (rins (rn g d));
  rw_out : forall s s', In s (rids g) -> In s' (rids g) -> rout (rn g s) = rout (rn g s') -> s = s';
  rw_one : forall a, In a (rids g) -> rk (rn g a) = KQuant -> exists t, rins (rn g a) = [t];
  rw_once : forall a, In a (rids g) -> rk (rn g a) = KQuant -> length (filter (fun e => snd e =? a) (redges g)) <= 1;
  rw_q : forall a, In a (rids g) -> rk (rn g a) = KQuant -> rtq g (rout (rn g a)) <> None;
  rw_del : rdel g = [] }.

(** [v] gives the numbers each tensor stands for.  Quantize and dequantize operators keep them; reshape and transpose copy
    the stored codes, so that [reint q q'] tells what codes written with [q] stand for when read with [q']; the other
    operators compute [den]. *)
Definition r_computes {V : Type} (den : nat -> list V -> V) (copy : nat -> V -> V) (reint : option nat -> option nat -> V -> V)
  (g : rgraph) (v : nat -> V) : Prop :=
  forall n, In n (rids g) ->
  match rk (rn g n), rins (rn g n) with
  | (KQuant | KDeq | KOut), t :: _ => v (rout (rn g n)) = v t
  | KCopy, t :: _ => v (rout (rn g n)) = copy n (reint (rtq g t) (rtq g (rout (rn g n))) (v t))
  | (KFuse | KOther), ts => v (rout (rn g n)) = den n (map v ts)
  | _, [] => True
  end.
(** no operator with a requantized result is read by a reshape or transpose as well *)
Definition r_no_copies (g : rgraph) : Prop :=
  forall p a d, In p (rids g) -> In a (rids g) -> In d (rids g) -> rk (rn g p) = KFuse ->
  rk (rn g a) = KQuant -> In (rout (rn g p)) (rins (rn g a)) -> rk (rn g d) = KCopy -> ~ In (rout (rn g p)) (rins (rn g d)).

(** For the counterexample: codes are numbers plus the zero point, here the number of the quantization *)
Definition zp_reint (q q' : option nat) (x : Z) : Z :=
  (x + Z.of_nat (match q with Some k => k | None => 0 end) - Z.of_nat (match q' with Some k => k | None => 0 end))%Z.
Definition sum_den (n : nat) (xs : list Z) : Z := fold_right Z.add (if Nat.eqb n 0 then 5 else 0)%Z xs.
