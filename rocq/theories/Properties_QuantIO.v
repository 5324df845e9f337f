(** Inputs and outputs of another 8-bit type. *)
From Coq Require Import ZArith List Arith Bool Lia.
From Verif Require Import OutTransModel OutTransSpec OutTransProofs BranchModel BranchSpec BranchProofs HalfModel InTransModel InTransSpec InTransProofs QuantIOModel QuantIOSpec QuantIOProofs.
Import ListNotations.

(** The pass succeeds and the graph it leaves is well formed; fed with the converted values of the inputs that are changed it computes
    at every other tensor what the graph computed before; the outputs come in their order, those that are changed are new tensors of
    the wanted type with the converted values; every output has one OUTPUT node and there are no others; the operators stay, and only
    QUANTIZE operators are new. *)
Theorem C151_quantize_io_partial :
  forall {V} (den : nat -> list V -> list V) q (conv : qty -> qty -> V -> V) tgt ns os g ty v,
  (forall a b y, den (q a b) [y] = [conv a b y]) -> (forall a b y, qsup a b = true -> conv b a (conv a b y) = y) -> tgt <> TOther ->
  b_wf g -> b_consistent g -> b_computes den g v -> flagged_ok g ns -> outputs_ok g os -> types_ok ty ns -> types_ok ty os -> not_through tgt ty ns os -> together tgt ty g os ->
  exists g' outs ty' v', quantize_io q tgt ns os g ty = Some (g', outs, ty') /\ b_wf g' /\ b_consistent g' /\ b_computes den g' v' /\
    io_values conv tgt ns g ty v ty' v' /\ io_outputs conv tgt os g ty v ty' v' outs /\ NoDup outs /\
    (forall t, In t outs -> exists r, forall r', out_node g' r' t <-> r' = r) /\
    (forall r, In r (bids g') -> bk (bn g' r) = BOut -> exists t, In t outs /\ bin (bn g' r) = [t]) /\ io_nodes q g v g' v'.
Proof. exact @quantize_io_ok. Qed.
Print Assumptions C151_quantize_io_partial.
(** the input 0 is read twice by one operator and once by another, the input 1 has the wanted type already; the output 2 is changed,
    the output 3 is not selected.  Values are codes. *)
Definition ex_qn (n : nat) : bnode :=
  match n with
  | 0 => mkBN BIn [] [0] | 1 => mkBN BIn [] [1] | 2 => mkBN (BOp 1) [0; 1; 0] [2] | 3 => mkBN (BOp 1) [2; 0] [3] | 4 => mkBN BOut [2] [] | 5 => mkBN BOut [3] [] | _ => mkBN BIn [] [] end.
Definition ex_qg : bg := mkBG ex_qn (seq 0 6) [(0,2,0);(1,2,1);(0,2,0);(2,3,2);(0,3,0);(2,4,2);(3,5,3)] (fun t => t) 6.
Definition ex_qt (t : nat) : qty := match t with 1 => TU8 | _ => TI8 end.
Definition ex_qq (a b : qty) : nat := match a, b with TI8, TU8 => 2 | TU8, TI8 => 3 | _, _ => 4 end.
Definition ex_qconv (a b : qty) (y : Z) : Z := (y + shift a b)%Z.
Definition ex_qden (f : nat) (l : list Z) : list Z :=
  match f with 1 => [fold_right Z.add 0%Z l] | 2 => [nth 0 l 0 + 128]%Z | 3 => [nth 0 l 0 - 128]%Z | _ => [nth 0 l 0]%Z end.
Definition ex_qv (x : nat) : Z := match x with 0 => 3%Z | 1 => 100%Z | 2 => 106%Z | 3 => 109%Z | _ => 0%Z end.
Definition ex_qns : list (nat * bool) := [(0, true); (1, true)].
Definition ex_qos : list (nat * bool) := [(2, true); (3, false)].
Example C151_example :
  (forall a b y, ex_qden (ex_qq a b) [y] = [ex_qconv a b y]) /\ (forall a b y, qsup a b = true -> ex_qconv b a (ex_qconv a b y) = y) /\
  b_wf ex_qg /\ b_consistent ex_qg /\ b_computes ex_qden ex_qg ex_qv /\ flagged_ok ex_qg ex_qns /\ outputs_ok ex_qg ex_qos /\
  types_ok ex_qt ex_qns /\ types_ok ex_qt ex_qos /\ not_through TU8 ex_qt ex_qns ex_qos /\ together TU8 ex_qt ex_qg ex_qos /\
  match quantize_io ex_qq TU8 ex_qns ex_qos ex_qg ex_qt with
  | Some (g', outs, ty') => outs = [7; 3] /\ map ty' (seq 0 8) = [TU8; TU8; TI8; TI8; TI8; TI8; TI8; TU8] /\
      map (fun n => (n, bn g' n)) (bids g') =
      [(0, mkBN BIn [] [0]); (1, mkBN BIn [] [1]); (2, mkBN (BOp 1) [6; 1; 6] [2]); (3, mkBN (BOp 1) [2; 6] [3]); (5, mkBN BOut [3] []);
       (6, mkBN (BOp 3) [0] [6]); (7, mkBN (BOp 2) [2] [7]); (8, mkBN BOut [7] [8])] /\
      bed g' = [(1,2,1);(2,3,2);(3,5,3);(0,6,0);(6,2,6);(6,2,6);(6,3,6);(2,7,2);(7,8,7)]
  | None => False end.
Proof.
  split; [intros [] [] y; cbn; unfold ex_qconv, shift; f_equal; lia|]. split; [intros [] [] y E; try discriminate E; unfold ex_qconv, shift; lia|].
  split; [b_wf_tac|]. split; [apply (b_consistent_check 6); reflexivity|].
  split; [intros n R; cbn in R; repeat (destruct R as [<-|R]; [first [reflexivity|exact I]|]); destruct R|].
  split; [split; [repeat constructor; cbn; intuition discriminate|]; intros t T; cbn in T; repeat (destruct T as [T|T]; [injection T as <-; cbn; repeat split; auto with arith; lia|]); destruct T|].
  split; [outs_tac; [one_out 4|one_out 5]|]. split; [intros [|[|t]] _; discriminate|]. split; [intros [|[|t]] _; discriminate|].
  split; [intros t b (T & _) O; cbn in T, O; destruct T as [T|[T|[]]]; injection T as <-; destruct O as [O|[O|[]]]; discriminate|].
  split; [|vm_compute; repeat split; reflexivity].
  intros t t' b (T & _) O E. cbn in T, E. destruct T as [T|[T|[]]]; [injection T as <-|discriminate]. subst t'. split; [now left|discriminate].
Qed.

(** Codes: moved to the other type they are codes of it, as is the zero point, what they stand for is kept, and moving back undoes it. *)
Theorem C151_codes :
  forall a b c z, a <> b -> code_of a c -> code_of a z -> code_of b 0%Z ->
  code_of b (c + shift a b)%Z /\ code_of b (z + shift a b)%Z /\ ((c + shift a b) - (z + shift a b) = c - z)%Z /\ (c + shift a b + shift b a = c)%Z.
Proof. exact shift_lemma. Qed.
Print Assumptions C151_codes.
Example C151_codes_example : TI8 <> TU8 /\ code_of TI8 (-128)%Z /\ code_of TI8 (-3)%Z /\ code_of TU8 0%Z /\ (-128 + shift TI8 TU8 = 0)%Z /\ (-3 + shift TI8 TU8 = 125)%Z.
Proof. cbn. split; [discriminate|]. lia. Qed.

(** an output that is not 8-bit: an assertion fails *)
Theorem C151_other_fails :
  forall (q : qty -> qty -> nat) tgt ns os g ty t, (forall s, In (s, true) ns -> False) -> os = [(t, true)] -> ty t = TOther -> tgt <> TOther -> quantize_io q tgt ns os g ty = None.
Proof. exact other_lemma. Qed.
Print Assumptions C151_other_fails.
Example C151_other_example : quantize_io ex_qq TU8 [(0, false)] [(2, true)] ex_qg (fun _ => TOther) = None.
Proof. reflexivity. Qed.

(** the outputs of one node, one of which is changed: the OUTPUT nodes of the others are removed as well *)
Theorem C151_split_refuted :
  forall q : qty -> qty -> nat, exists g ns os ty tgt, b_wf g /\ b_consistent g /\ flagged_ok g ns /\ outputs_ok g os /\ types_ok ty ns /\ types_ok ty os /\ not_through tgt ty ns os /\
  exists g' outs ty' t, quantize_io q tgt ns os g ty = Some (g', outs, ty') /\ In t outs /\ forall r, ~ out_node g' r t.
Proof. exact split_lemma. Qed.
Print Assumptions C151_split_refuted.

(** an input that is an output as well: an assertion fails *)
Theorem C151_through_refuted :
  forall q : qty -> qty -> nat, exists g ns os ty tgt, b_wf g /\ b_consistent g /\ flagged_ok g ns /\ outputs_ok g os /\ types_ok ty ns /\ types_ok ty os /\ together tgt ty g os /\
  quantize_io q tgt ns os g ty = None.
Proof. exact through_lemma. Qed.
Print Assumptions C151_through_refuted.
