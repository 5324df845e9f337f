(** C148: lists among the outputs, and outputs that nobody reads. *)
From Coq Require Import List Arith Bool Lia.
From Verif Require Import OutTransModel UnpackModel UnpackSpec UnpackProofs.
Import ListNotations.

(** If the items of the lists are tensors of the graph, the outputs are the old ones with every list replaced by its items, each
    item has got one OUTPUT node for each time it is listed, and nothing else has changed. *)
Theorem C148_unpack_partial :
  forall im outs g, u_wf g -> live g -> (forall n l t, In n outs -> items im n = Some l -> In t l -> exists p, uprod g t = Some p) ->
  exists g' outs', output_unpack im outs g = Some (g', outs') /\ unpacked im outs outs' /\ u_wf g' /\ u_extends UOut g g' /\
    (forall t, out_count g' t = out_count g t + listed_in im t outs) /\
    (forall e, In e (ued g') -> In e (ued g) \/ uk (un g' (snd (fst e))) = UOut).
Proof. exact unpack_lemma. Qed.
Print Assumptions C148_unpack_partial.
Example C148_unpack_partial_example :
  let im := [(20, [4; 8; 4]); (21, [6])] in
  u_wf xg /\ live xg /\ (forall n l t, In n [7; 20; 5] -> items im n = Some l -> In t l -> exists p, uprod xg t = Some p) /\
  match output_unpack im [7; 20; 5] xg with
  | Some (g', outs') => outs' = [7; 4; 8; 4; 5] /\ map (out_count g') [4; 5; 6; 7; 8] = [2; 1; 0; 1; 1] | None => False end.
Proof.
  cbv zeta. destruct xg_wf as (A & B & _). split; [exact A|]. split; [exact B|]. split; [|vm_compute; split; reflexivity].
  intros n l t [<-|[<-|[<-|[]]]] E T; try discriminate E. injection E as <-. repeat (destruct T as [<-|T]; [eexists; reflexivity|]). destruct T.
Qed.

(** Afterwards every output of an operator with several outputs is read, where the outputs of a split into a list are those of
    the RESHAPE operators behind it; only tensors that nobody read have got UNUSED nodes, and the OUTPUT nodes are the same. *)
Theorem C148_unused :
  forall im g, u_wf g -> live g -> (forall d, uk (un g d) = UReshape -> exists u, uout (un g d) = [u]) ->
  exists g', connect_unused im g = Some g' /\ u_wf g' /\ u_extends UUnused g g' /\
    (forall n t, several g n -> wants im g n t -> is_read g' t) /\
    (forall s d t, In (s, d, t) (ued g') -> In (s, d, t) (ued g) \/ (uk (un g' d) = UUnused /\ ~ is_read g t /\ exists n, several g n /\ wants im g n t)) /\
    (forall t, out_count g' t = out_count g t).
Proof. exact unused_lemma. Qed.
Print Assumptions C148_unused.
Example C148_unused_example :
  u_wf xg /\ live xg /\ (forall d, uk (un xg d) = UReshape -> exists u, uout (un xg d) = [u]) /\
  match connect_unused [(9, [1; 2; 3])] xg with Some g' => ued g' = ued xg ++ [(6,12,6);(7,13,8)] /\ uk (un g' 12) = UUnused /\ uk (un g' 13) = UUnused | None => False end.
Proof. destruct xg_wf as (A & B & C). split; [exact A|]. split; [exact B|]. split; [exact C|]. vm_compute. repeat split. Qed.

(** a list of lists among the outputs raises *)
Theorem C148_nested_refuted : exists im outs g, u_wf g /\ live g /\ (forall n, In n outs -> items im n <> None) /\
  (forall n l t, In n outs -> items im n = Some l -> In t l -> items im t <> None) /\ output_unpack im outs g = None.
Proof. exact nested_lemma. Qed.
Print Assumptions C148_nested_refuted.

(** a split into a list of which no item is used is not left out, as the comment in the code says it is *)
Theorem C148_whole_refuted : exists im g g' n, u_wf g /\ several g n /\ makes_list im g n /\
  (forall d t e, In (n, d, t) (ued g) -> In e (ued g) -> fst (fst e) <> d) /\ connect_unused im g = Some g' /\
  exists d t, uk (un g' d) = UUnused /\ In (3, d, t) (ued g').
Proof. exact whole_lemma. Qed.
Print Assumptions C148_whole_refuted.
