(** The graph made from a traced program. *)
From Coq Require Import String List Arith Bool Lia.
From Verif Require Import InitOpsModel InitOpsSpec InitOpsProofs.
Import ListNotations.

(** The program is run on [xs] while it is converted. For every other input of the same shapes the new graph gives every name the
    value the program gives it, and the walk over the program does not fail without prim::If. It is assumed that python functions are
    not used inside each other, do not return a parameter as it is, and that there is no aten::detach. *)
Theorem C142_faithful_partial :
  forall {V} (sem : string -> list V -> V) pyobj truth same ins p xs e, shapes_fixed sem same -> Forall (well sem pyobj truth) p ->
  NoDup (ins ++ flat_map defs p) -> length ins = length xs -> run_program sem truth ins p xs = Some e -> forall xs', Forall2 same xs xs' ->
  (forallb no_if p = false /\ init_operations sem pyobj truth ins p xs = None) \/
  exists s e', init_operations sem pyobj truth ins p xs = Some s /\ run_program sem truth ins p xs' = Some e' /\
    forall n, (e' n = None <-> e n = None) /\ forall v, e' n = Some v -> converted sem s ins xs' n = Some v.
Proof. exact @init_operations_ok. Qed.
Print Assumptions C142_faithful_partial.
(** a constant, a sum with it, a size, a branch on a constant, one function called twice with the names of the outer graph *)
Definition ex_prog : list node :=
  [NOp "prim::Constant" [] 1; NOp "aten::add" [0; 1] 2; NOp "aten::size" [0] 3; NOp "prim::Constant" [] 4;
   NIf 4 [NOp "aten::add" [2; 3] 5] [NOp "aten::add" [1; 1] 6];
   NPy 7 1 [5] 8 [0] [NOp "prim::Constant" [] 2; NOp "aten::add" [0; 2] 1] 1; NPy 7 1 [8] 9 [0] [NOp "prim::Constant" [] 2; NOp "aten::add" [0; 2] 1] 1;
   NPy 7 1 [3] 10 [0] [NOp "prim::Constant" [] 2; NOp "aten::add" [0; 2] 1] 1].
Example C142_faithful_example :
  shapes_fixed ex_sem (fun _ _ => True) /\ Forall (well ex_sem (fun _ vs => S (hd 0 vs + 1)) (Nat.eqb 1)) ex_prog /\ NoDup ([0] ++ flat_map defs ex_prog) /\
  (exists e, run_program ex_sem (Nat.eqb 1) [0] ex_prog [5] = Some e /\ map e [2; 5; 6; 9; 10] = [Some 7; Some 11; None; Some 15; Some 5]) /\
  match init_operations ex_sem (fun _ vs => S (hd 0 vs + 1)) (Nat.eqb 1) [0] ex_prog [5] with
  | Some s => (map (converted ex_sem s [0] [50]) [2; 5; 9; 10], length (em s)) = ([Some 52; Some 56; Some 60; Some 5], 11)
  | None => False end.
Proof.
  split; [exact ex_shapes|]. split; [|split; [|split]].
  - assert (PY : forall ins out, length ins = 1 -> well ex_sem (fun _ vs => S (hd 0 vs + 1)) (Nat.eqb 1) (NPy 7 1 ins out [0] [NOp "prim::Constant" [] 2; NOp "aten::add" [0; 2] 1] 1)).
    { intros ins out L. constructor; [repeat constructor; discriminate| |cbn; intuition discriminate|exact L|].
      - repeat constructor; cbn; intuition discriminate.
      - intros [|v [|w vs]] l H R; try discriminate. cbn in R. injection R as <-. cbn. reflexivity. }
    unfold ex_prog. repeat (constructor; [first [apply PY; reflexivity|repeat constructor; discriminate]|]). constructor.
  - cbn. repeat constructor; cbn; intuition discriminate.
  - eexists. split; [reflexivity|reflexivity].
  - vm_compute. reflexivity.
Qed.

(** Only operators that read a tensor of the graph that is no constant are put into it, and none of those that give shapes or filled
    tensors. *)
Theorem C142_emitted_partial :
  forall {V} (sem : string -> list V -> V) pyobj truth ins p xs s, init_operations sem pyobj truth ins p xs = Some s ->
  forall k args out, In (EOp k args out) (em s) -> ~ In k untracked /\ exists n, In (AVar n) args.
Proof. exact @emitted_lemma. Qed.
Print Assumptions C142_emitted_partial.
Example C142_emitted_example :
  match init_operations ex_sem (fun _ vs => S (hd 0 vs + 1)) (Nat.eqb 1) [0] ex_prog [5] with
  | Some s => hd_error (em s) = Some (EOp "aten::add" [AVar (None, 0); AConst 1] (None, 2))
  | None => False end.
Proof. vm_compute. reflexivity. Qed.

(** aten::detach is run when the program is converted and its result is a constant, although the value depends on the input. *)
Theorem C142_detach_refuted :
  exists (sem : string -> list nat -> nat) pyobj truth p s e', shapes_fixed sem (fun _ _ => True) /\ NoDup ([0] ++ flat_map defs p) /\
    init_operations sem pyobj truth [0] p [5] = Some s /\ run_program sem truth [0] p [50] = Some e' /\ e' 2 = Some 51 /\ converted sem s [0] [50] 2 = Some 6.
Proof. exact detach_lemma. Qed.
Print Assumptions C142_detach_refuted.
(** A function that returns its parameter: the result never gets into the graph and what reads it sees a constant. *)
Theorem C142_identity_refuted :
  exists (sem : string -> list nat -> nat) pyobj truth p s e', shapes_fixed sem (fun _ _ => True) /\ NoDup ([0] ++ flat_map defs p) /\
    p = [NPy 7 1 [0] 1 [0] [] 0; NOp "aten::add" [1] 2] /\ (forall v, pyobj 1 [v] = v) /\
    init_operations sem pyobj truth [0] p [5] = Some s /\ run_program sem truth [0] p [50] = Some e' /\ e' 2 = Some 51 /\ converted sem s [0] [50] 2 = Some 6.
Proof. exact identity_lemma. Qed.
Print Assumptions C142_identity_refuted.
(** A function that uses another one: after the inner one the names of the outer one are looked up without their scope, and the walk
    fails. *)
Theorem C142_nested_refuted :
  exists (sem : string -> list nat -> nat) pyobj truth p e, shapes_fixed sem (fun _ _ => True) /\ NoDup ([0] ++ flat_map defs p) /\
    p = [NPy 7 1 [0] 1 [0] [NPy 8 2 [0] 1 [0] [NOp "aten::add" [0] 1] 1; NOp "aten::add" [1] 2] 2] /\
    run_program sem truth [0] p [5] = Some e /\ e 1 = Some 7 /\ init_operations sem pyobj truth [0] p [5] = None.
Proof. exact nested_lemma. Qed.
Print Assumptions C142_nested_refuted.
