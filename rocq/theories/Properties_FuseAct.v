(** Activations and batch norms taken over by the operator before. *)
From Coq Require Import List Arith Bool ZArith Lia.
From Verif Require Import OutTransModel OutTransSpec OutTransProofs FuseActModel FuseActSpec FuseActProofs.
Import ListNotations.

(** Every activation that is the only reader of a fitting operator goes into it, nothing else changes, every tensor left has its
    value and the edges fit the inputs; afterwards there is nothing left to fuse. *)
Theorem C140_fuse_activation :
  forall {V} (m : meaning V) with_bias g v, f_wf g -> f_consistent g -> f_computes m g v ->
  exists g', fuse_activation with_bias g = Some g' /\ f_wf g' /\ f_consistent g' /\ f_computes m g' v /\
    f_took (takes_act with_bias g) g g' /\ forall p a, ~ takes_act with_bias g' p a.
Proof. exact @fuse_activation_ok. Qed.
Print Assumptions C140_fuse_activation.
(** two additions with activations in a row, the second activation read by an OUTPUT node and an operator; a transposed convolution
    that cannot hold the bias; an operator whose result is an output as well *)
Definition ex_fn (n : nat) : fnode :=
  match n with
  | 0 => mkFN FIn [] [0] | 1 => mkFN (FPre 1 COther false ANone) [0; 0] [1] | 2 => mkFN (FRelu false) [1] [2]
  | 3 => mkFN (FPre 3 COther false ANone) [2; 0] [3] | 4 => mkFN (FRelu true) [3] [4] | 5 => mkFN FOut [4] [] | 6 => mkFN (FOp 6) [4; 2; 4] [6] | 7 => mkFN FOut [6] []
  | 8 => mkFN (FPre 8 CDeconv true ANone) [4] [8] | 9 => mkFN (FRelu false) [8] [9] | 10 => mkFN FOut [9] []
  | 11 => mkFN (FPre 11 CConv true ANone) [0] [11] | 12 => mkFN (FRelu false) [11] [12] | 13 => mkFN FOut [11] [] | _ => mkFN FIn [] [] end.
Definition ex_fg : fg := mkFG ex_fn (seq 0 14)
  [(0,1,0);(0,1,0);(1,2,1);(2,3,2);(0,3,0);(3,4,3);(4,5,4);(4,6,4);(2,6,2);(4,6,4);(6,7,6);(4,8,4);(8,9,8);(9,10,9);(0,11,0);(11,12,11);(11,13,11)] (fun t => t).
Definition ex_m : meaning nat := mkMeaning (fun f l => [f + list_sum l]) (fun f l => f + list_sum l) (fun w x => w + x) (fun x => x + 20) (fun x => x + 40).
Example C140_fuse_activation_example :
  f_wf ex_fg /\ f_consistent ex_fg /\
  f_computes ex_m ex_fg (fun t => match t with 0 => 1 | 1 => 3 | 2 => 23 | 3 => 27 | 4 => 67 | 6 => 163 | 8 => 75 | 9 => 95 | 11 => 12 | _ => 32 end) /\
  takes_act false ex_fg 1 2 /\
  match fuse_activation false ex_fg with
  | Some g' => map (fun n => (n, fn g' n)) (filter (fun n => n <? 9) (fids g')) =
      [(0, mkFN FIn [] [0]); (1, mkFN (FPre 1 COther false ARelu) [0; 0] [2]); (3, mkFN (FPre 3 COther false ARelu6) [2; 0] [4]); (5, mkFN FOut [4] []);
       (6, mkFN (FOp 6) [4; 2; 4] [6]); (7, mkFN FOut [6] []); (8, mkFN (FPre 8 CDeconv true ANone) [4] [8])] /\ filter (fun n => 8 <? n) (fids g') = [9; 10; 11; 12; 13]
  | None => False end.
Proof.
  split; [f_wf_tac|]. split; [apply (f_consistent_check 14); reflexivity|]. split; [f_computes_tac|]. split; [|split; reflexivity].
  split; [|exists 1, COther, false, false; split; [reflexivity|split; [reflexivity|right; discriminate]]]. split; [cbn; tauto|]. split; [cbn; tauto|]. exists 1.
  split; [reflexivity|]. split; [reflexivity|]. intros d D X. cbn in D. repeat (destruct D as [<-|D]; [cbn in X; try reflexivity; intuition discriminate|]). destruct D.
Qed.

(** If the operators have no activation of their own and the folded weights compute what they should, every batch norm that is the
    only reader of a fitting operator goes into it and nothing else changes. *)
Theorem C141_fuse_bn_partial :
  forall {V} (m : meaning V) fold g v, f_wf g -> f_consistent g -> f_computes m g v ->
  (forall f w dec l, m_pre m (fold f w dec) l = m_bn m w (m_pre m f l)) ->
  (forall p a f c w x, takes_bn g p a -> fk (fn g p) = FPre f c w x -> x = ANone) ->
  exists g', fuse_conv_fc_bn fold g = Some g' /\ f_wf g' /\ f_consistent g' /\ f_computes m g' v /\ f_took (takes_bn g) g g'.
Proof. exact @fuse_bn_ok. Qed.
Print Assumptions C141_fuse_bn_partial.
(** a convolution, a batch norm with an activation, read by a convolution before another batch norm and by an OUTPUT node *)
Definition ex_bfn (n : nat) : fnode :=
  match n with
  | 0 => mkFN FIn [] [0] | 1 => mkFN (FPre 1 CConv true ANone) [0] [1] | 2 => mkFN (FBn 2 true ARelu) [1] [2]
  | 3 => mkFN (FPre 3 CDeconv true ANone) [2] [3] | 4 => mkFN (FBn 4 true ANone) [3] [4] | 5 => mkFN FOut [4] [] | 6 => mkFN FOut [2] [] | _ => mkFN FIn [] [] end.
Definition ex_bfg : fg := mkFG ex_bfn (seq 0 7) [(0,1,0);(1,2,1);(2,3,2);(3,4,3);(4,5,4);(2,6,2)] (fun t => t).
Example C141_fuse_bn_example :
  f_wf ex_bfg /\ f_consistent ex_bfg /\ f_computes ex_m ex_bfg (fun t => match t with 0 => 1 | 1 => 2 | 2 => 24 | 3 => 27 | _ => 31 end) /\
  (forall f w (dec : bool) l, m_pre ex_m (w + f) l = m_bn ex_m w (m_pre ex_m f l)) /\
  (forall p a f c w x, takes_bn ex_bfg p a -> fk (fn ex_bfg p) = FPre f c w x -> x = ANone) /\
  match fuse_conv_fc_bn (fun f w _ => w + f) ex_bfg with
  | Some g' => map (fun n => (n, fn g' n)) (fids g') =
      [(0, mkFN FIn [] [0]); (1, mkFN (FPre 3 CConv true ARelu) [0] [2]); (3, mkFN (FPre 7 CDeconv true ANone) [2] [4]); (5, mkFN FOut [4] []); (6, mkFN FOut [2] [])]
  | None => False end.
Proof.
  split; [f_wf_tac|]. split; [apply (f_consistent_check 7); reflexivity|]. split; [f_computes_tac|]. split; [intros; cbn; lia|]. split; [|reflexivity].
  intros p a f c w x [(P & _) _] K. cbn in P. repeat (destruct P as [<-|P]; [cbn in K; try discriminate; injection K as _ _ _ <-; reflexivity|]). destruct P.
Qed.

(** a convolution that already has an activation: the graph computes something else *)
Theorem C141_activation_first_refuted :
  exists (m : meaning Z) fold g v, f_wf g /\ f_consistent g /\ f_computes m g v /\ (forall f w dec l, m_pre m (fold f w dec) l = m_bn m w (m_pre m f l)) /\
  exists g' i o ti to, fuse_conv_fc_bn fold g = Some g' /\ fn g i = mkFN FIn [] [ti] /\ fn g o = mkFN FOut [to] [] /\ fn g' i = fn g i /\ fn g' o = fn g o /\ In i (fids g') /\ In o (fids g') /\
    forall v', f_computes m g' v' -> v' ti = v ti -> v' to <> v to.
Proof. exact bn_relu_lemma. Qed.
Print Assumptions C141_activation_first_refuted.
