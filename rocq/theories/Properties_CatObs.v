(** The observers around concatenations (C128). *)
From Coq Require Import List Arith Bool Lia.
From Verif Require Import CatObsModel CatObsSpec CatObsProofs CatObsExample.
Import ListNotations.

(** Full statement: behind the pass every quantized concatenation and the layers whose results it puts together have one
    observer.  Missing: graphs that are not [apart] (see the refutation). *)
Theorem C128_one_observer_partial : forall g fuel cats obs obs', proper g -> apart g ->
  (forall c, In c cats -> cn_cat (g c) = true) -> unify_cats g fuel cats obs = Some obs' ->
  forall c, In c cats -> agree g obs' c.
Proof. exact unify_agree. Qed.
Print Assumptions C128_one_observer_partial.

Theorem C128_ends : forall g ns cats obs, finite g ns -> (forall c, In c cats -> In c ns) ->
  exists bound, forall fuel, bound <= fuel -> unify_cats g fuel cats obs <> None.
Proof. exact unify_ends. Qed.
Print Assumptions C128_ends.

(* a pooling goes into two concatenations, of which one goes into a third; all layers that meet get one observer *)
Example C128_example : proper obs_g /\ apart obs_g /\ finite obs_g (seq 0 19) /\
  (forall c, In c [4; 5; 8] -> cn_cat (obs_g c) = true /\ In c (seq 0 19)) /\ source obs_g 1 8 /\ source obs_g 4 5 /\
  exists obs', unify_cats obs_g 60 [4; 5; 8] (fun n => n) = Some obs' /\ map obs' (seq 0 9) = [0; 4; 2; 4; 4; 4; 4; 4; 4].
Proof.
  split; [exact obs_proper|]. split; [exact obs_apart|]. split; [exact obs_finite|].
  split; [intros c [<-|[<-|[<-|[]]]]; (split; [reflexivity|apply in_seq; lia])|].
  split; [apply obs_source|]. split; [apply obs_source|exact obs_runs].
Qed.

(** Observers that are not around a concatenation stay. *)
Theorem C128_others_stay : forall g fuel cats obs obs', proper g -> (forall c, In c cats -> cn_cat (g c) = true) ->
  unify_cats g fuel cats obs = Some obs' -> forall s, obs' s <> obs s ->
  exists p c, In s (cn_slots (g p)) /\ cn_cat (g c) = true /\ (p = c \/ source g p c).
Proof. exact (fun g fuel cats obs obs' P K => pass_changes g P fuel cats [] obs obs' K). Qed.
Print Assumptions C128_others_stay.

(* a layer whose result is concatenated with that of a layer behind it, and again elsewhere through a reshaping: it ends
   with the observer of the second concatenation only *)
Theorem C128_shared_operand_refuted : exists g ns cats obs', proper g /\ finite g ns /\
  (forall c, In c cats -> In c ns /\ cn_cat (g c) = true) /\
  (exists bound, forall fuel, bound <= fuel -> unify_cats g fuel cats (fun n => n) = Some obs') /\
  exists c, In c cats /\ ~ agree g obs' c.
Proof. exact shared_differs. Qed.
Print Assumptions C128_shared_operand_refuted.

(* the search goes upwards through a layer with an observer: concatenations that nothing joins get one observer *)
Theorem C128_only_joined_refuted : exists g ns cats obs', proper g /\ apart g /\ finite g ns /\
  (forall c, In c cats -> In c ns /\ cn_cat (g c) = true) /\
  (exists bound, forall fuel, bound <= fuel -> unify_cats g fuel cats (fun n => n) = Some obs') /\
  exists s t, obs' s = obs' t /\ ~ joined g s t.
Proof. exact conv_merges. Qed.
Print Assumptions C128_only_joined_refuted.
