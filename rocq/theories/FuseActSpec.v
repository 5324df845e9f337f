(** What a graph has to be and to compute when an operator takes over the one that reads it. *)
From Coq Require Import List Arith Bool.
From Verif Require Import OutTransModel OutTransSpec FuseActModel.
Import ListNotations.

Definition f_consistent (g : fg) : Prop :=
  forall s d t, ecount s d t (fed g) = if (s =? fprod g t) && o_mem d (fids g) then count_occ Nat.eq_dec (fin (fn g d)) t else 0.
Definition f_wf (g : fg) : Prop :=
  NoDup (fids g) /\
  forall n, In n (fids g) ->
    (forall t, In t (fin (fn g n)) -> In (fprod g t) (fids g) /\ In t (fout (fn g (fprod g t)))) /\
    (forall t, In t (fout (fn g n)) -> fprod g t = n) /\
    match fk (fn g n) with
    | FPre _ _ _ _ => exists t, fout (fn g n) = [t]
    | FRelu _ | FBn _ _ _ => exists x t, fin (fn g n) = [x] /\ fout (fn g n) = [t]
    | _ => True end.
(** operators, batch norms and activations have any meaning; no activation changes nothing *)
Record meaning (V : Type) := mkMeaning { m_op : nat -> list V -> list V; m_pre : nat -> list V -> V; m_bn : nat -> V -> V; m_relu : V -> V; m_relu6 : V -> V }.
Arguments mkMeaning {V}. Arguments m_op {V}. Arguments m_pre {V}. Arguments m_bn {V}. Arguments m_relu {V}. Arguments m_relu6 {V}.
Definition m_act {V} (m : meaning V) (a : actf) (x : V) : V := match a with ANone => x | ARelu => m_relu m x | ARelu6 => m_relu6 m x end.
Definition f_computes {V} (m : meaning V) (g : fg) (v : nat -> V) : Prop :=
  forall n, In n (fids g) -> match fk (fn g n) with
    | FOp f => map v (fout (fn g n)) = m_op m f (map v (fin (fn g n)))
    | FPre f _ _ a => map v (fout (fn g n)) = [m_act m a (m_pre m f (map v (fin (fn g n))))]
    | FRelu six => map v (fout (fn g n)) = map (fun x => (if six then m_relu6 m else m_relu m) (v x)) (fin (fn g n))
    | FBn w _ a => map v (fout (fn g n)) = map (fun x => m_act m a (m_bn m w (v x))) (fin (fn g n))
    | _ => True end.
(** [a] is the only reader of the operator [p] *)
Definition only_reader (g : fg) (p a : nat) : Prop :=
  In p (fids g) /\ In a (fids g) /\ exists t, fout (fn g p) = [t] /\ fin (fn g a) = [t] /\ forall d, In d (fids g) -> In t (fin (fn g d)) -> d = a.
(** an activation that can become part of the operator before it *)
Definition takes_act (with_bias : bool) (g : fg) (p a : nat) : Prop :=
  only_reader g p a /\ exists f c w six, fk (fn g p) = FPre f c w ANone /\ fk (fn g a) = FRelu six /\ (with_bias = true \/ c <> CDeconv).
(** a batch norm that can become part of the operator before it *)
Definition takes_bn (g : fg) (p a : nat) : Prop :=
  only_reader g p a /\ exists f c x w b, fk (fn g p) = FPre f c true x /\ fk (fn g a) = FBn w true b /\ c <> COther /\ (b = ANone \/ x = ANone \/ x = b).
(** the nodes taken over are gone, their output belongs to the operator before, everything else is as it was *)
Definition f_took (takes : nat -> nat -> Prop) (g g' : fg) : Prop :=
  (forall n, In n (fids g') <-> In n (fids g) /\ forall p, ~ takes p n) /\
  (forall n, In n (fids g) -> (forall a, ~ takes n a) -> fn g' n = fn g n) /\
  (forall p a, takes p a -> fin (fn g' p) = fin (fn g p) /\ fout (fn g' p) = fout (fn g a)).
