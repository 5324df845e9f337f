(** Model of the lowering of LSTM and GRU: [ATenLstmOperator] (tinynn/converter/operators/torch/aten.py 25-462) and
    [ATenGruOperator] (aten.py 465-898).  [None]: Python raises, or TFLite refuses an operator.  Floats only; the
    quantized (hybrid) variant is not modelled.  The emitted operators are evaluated as they are emitted. *)
From Coq Require Import List Arith Bool Reals.
From Verif Require Import Tensor ConvSpec CatSpec LayoutSpec FuseModel MoveSpec EltSpec LinSpec RnnSpec.
Import ListNotations.
Local Open Scope R_scope.

(** an operand of the node: [Absent] is [tfl.OptionalTensorInstance], [Known] an attribute or an activation, [State k]
    an attribute marked [is_variable] (aten.py 72-73, 532-533).  [serialize] drops the buffer of a variable
    (operators/graph.py 619-626), so the recorded value [t] does not reach the runtime *)
Inductive slot := Absent | Attr (t : tensor R) | Act (t : tensor R) | State (k : nat) (t : tensor R).
(** run-time value: [mem] holds the variables written by an earlier invocation; before that they are zero *)
Definition slot_val (mem : nat -> option (tensor R)) (s : slot) : option (tensor R) :=
  match s with
  | Absent => None
  | Attr t | Act t => Some t
  | State k t => Some (match mem k with Some v => v | None => mkT (tshape t) (fun _ => 0) end)
  end.
Definition no_mem : nat -> option (tensor R) := fun _ => None.
(** [input_tensors[i] = v] (aten.py 33, 37, 47, 52, 72-76) *)
Definition put (i : nat) (v : slot) (l : list slot) : list slot := firstn i l ++ v :: skipn (S i) l.
(** [for idx, .. in enumerate(slices): input_tensors[base + idx] = ..] (aten.py 32-33, 36-37, 46-47, 50-52) *)
Definition put_all (base : nat) (vs : list slot) (l : list slot) : list slot :=
  fold_left (fun l kv => put (base + fst kv) (snd kv) l) (combine (seq 0 (length vs)) vs) l.
(** [torch.chunk(w, n, 0)] (aten.py 30, 35, 45, 469-470, 488-489); simplified: the axis divides by [n] *)
Definition chunks (n : nat) (w : tensor R) : list (tensor R) := map (fun g => split_part n 0 g w) (seq 0 n).
Definition zeros (s : list nat) : tensor R := mkT s (fun _ => 0).

(** [lstm_input_helper] (aten.py 26-52) *)
Definition lstm_input_helper (has_biases : bool) (params : list (tensor R)) (ps is : nat) (ins : list slot) : option (list slot) :=
  obind (nth_error params ps) (fun wih => obind (nth_error params (ps + 1)) (fun whh =>
  let ins := put_all is (map Attr (chunks 4 wih)) ins in
  let ins := put_all (is + 4) (map Attr (chunks 4 whh)) ins in
  if has_biases then
    obind (nth_error params (ps + 2)) (fun bih => obind (nth_error params (ps + 3)) (fun bhh =>
    obind (binop Rplus bih bhh) (fun fused => Some (put_all (is + 11) (map Attr (chunks 4 fused)) ins))))
  else
    match nth (is + 3) ins Absent with
    | Attr w => Some (put_all (is + 11) (map Attr (repeat (zeros (firstn 1 (tshape w))) 4)) ins)
    | _ => None
    end)).

(** where an initial state comes from: a tensor of the graph ([tensor_map] has it), or a value recorded when the model
    was traced (aten.py 134-135, 590-594) *)
Inductive source := Given (t : tensor R) | Recorded (t : tensor R).
Definition source_tensor (s : source) : tensor R := match s with Given t | Recorded t => t end.
(** [lstm_hidden_state_helper] (aten.py 54-76) and [gru_hidden_state_helper] (aten.py 515-536): the states are only
    unpacked when unrolling (aten.py 138-147, 598-607); otherwise the value seen while tracing is recorded *)
Definition state_slot (unroll : bool) (s : source) (k slice : nat) : slot :=
  match s with
  | Given t => if unroll then Act (unpack 0 slice t) else State k (unpack 0 slice t)
  | Recorded t => State k (unpack 0 slice t)
  end.
(** [h.buffer is None or np.any(h.tensor)] (aten.py 220-221, 675) *)
Definition np_any (t : tensor R) : bool := existsb (fun idx => negb (Reqb (tget t idx) 0)) (indices (tshape t)).
Definition compute (s : slot) : bool := match s with State _ t | Attr t => np_any t | _ => true end.

(** operands of one layer (aten.py 153-183): [slice_idx = layer * num_directions + direction]; the variable of slice
    [s] and kind [q] (0 hidden, 1 cell) is numbered [2 * s + q] *)
Definition lstm_inputs (unroll has_biases bi : bool) (params : list (tensor R)) (offset layer : nat) (hs cs : source) (x : slot) : option (list slot) :=
  let nd := if bi then 2%nat else 1%nat in
  let step := if has_biases then 4%nat else 2%nat in
  let st := if bi then 35%nat else 18%nat in
  let ins := x :: repeat Absent (24 * nd - 1) in
  obind (fold_left (fun o d => obind o (lstm_input_helper has_biases params (offset + nth d [0%nat; step] 0%nat) (nth d [1%nat; 18%nat] 0%nat))) (seq 0 nd) (Some ins)) (fun ins =>
  Some (fold_left (fun ins d =>
    put (st + d * nd + 1) (state_slot unroll cs (2 * (layer * nd + d) + 1) (layer * nd + d))
      (put (st + d * nd + 0) (state_slot unroll hs (2 * (layer * nd + d)) (layer * nd + d)) ins)) (seq 0 nd) ins)).

(** SPLIT refuses an axis that does not divide *)
Definition split_op (n ax : nat) (t : tensor R) : option (list (tensor R)) :=
  if (axis_size ax t mod n =? 0)%nat then Some (map (fun g => split_part n ax g t) (seq 0 n)) else None.
Fixpoint all_ops {A} (l : list (option A)) : option (list A) :=
  match l with [] => Some [] | o :: r => obind o (fun a => obind (all_ops r) (fun s => Some (a :: s))) end.

(** the element-wise part of an LSTM step (aten.py 276-313); [skip_c]: [not (i != 0 or compute_c)].  [gates] may be
    shorter than four or hold Python's [None] *)
Definition lstm_pointwise (skip_c : bool) (gates : list (option (tensor R))) (c : tensor R) : option (tensor R * tensor R) :=
  let gate k := obind (nth_error gates k) (fun g => g) in
  obind (gate 0%nat) (fun g0 => obind (gate 2%nat) (fun g2 => obind (gate 3%nat) (fun g3 =>
  obind (binop Rmult (tmap sigmoid g0) (tmap tanh g2)) (fun c_right =>
  obind (if skip_c then Some c_right
         else obind (gate 1%nat) (fun g1 => obind (binop Rmult (tmap sigmoid g1) c) (fun c_left => binop Rplus c_left c_right))) (fun c' =>
  obind (binop Rmult (tmap sigmoid g3) (tmap tanh c')) (fun h' => Some (h', c'))))))).
(** the products of one step, gate by gate (aten.py 231-241, 253-262) *)
Definition gate_products (skip : bool) (t : tensor R) (ws bs : list (tensor R)) : option (list (option (tensor R))) :=
  all_ops (map (fun jwb => if (fst jwb =? 1)%nat && skip then Some None
                           else option_map Some (fully_connected false t (fst (snd jwb)) (snd (snd jwb))))
               (combine (seq 0 (length ws)) (combine ws bs))).
(** pairs of products that both exist are added (aten.py 264-269) *)
Fixpoint add_products (a b : list (option (tensor R))) : option (list (option (tensor R))) :=
  match a, b with
  | Some x :: a', Some y :: b' => obind (binop Rplus x y) (fun s => obind (add_products a' b') (fun r => Some (Some s :: r)))
  | _ :: a', _ :: b' => add_products a' b'
  | _, _ => Some []
  end.
(** one time step of an unrolled LSTM (aten.py 224-313); [ws], [rs], [bs]: operands 0-3, 4-7 and 11-14 of the direction *)
Definition lstm_step (sep skip_h skip_c : bool) (ws rs bs : list (tensor R)) (t h c : tensor R) : option (tensor R * tensor R) :=
  if sep then
    obind (gate_products skip_c t ws bs) (fun im =>
    if skip_h then lstm_pointwise skip_c im c
    else obind (gate_products skip_c h rs (map (fun b => zeros (tshape b)) bs)) (fun hm =>
         obind (add_products im hm) (fun gates => lstm_pointwise skip_c gates c)))
  else
    let w_i := concatenation 0 0 ws in let w_r := concatenation 0 0 rs in
    let b_i := concatenation 0 0 bs in let b_r := zeros (tshape b_i) in
    obind (fully_connected false t w_i b_i) (fun im =>
    obind (if skip_h then Some im else obind (fully_connected false h w_r b_r) (fun hm => binop Rplus im hm)) (fun add_out =>
    obind (split_op 4 1 add_out) (fun gates => lstm_pointwise skip_c (map Some gates) c))).
(** the loop over time (aten.py 223-315) *)
Fixpoint lstm_loop (sep skip_h skip_c : bool) (ws rs bs : list (tensor R)) (ts : list (tensor R)) (h c : tensor R)
    : option (list (tensor R) * (tensor R * tensor R)) :=
  match ts with
  | [] => Some ([], (h, c))
  | t :: r =>
      obind (lstm_step sep skip_h skip_c ws rs bs t h c) (fun hc =>
      obind (lstm_loop sep false false ws rs bs r (fst hc) (snd hc)) (fun res => Some (fst hc :: fst res, snd res)))
  end.
Definition slots_tensors (l : list slot) : option (list (tensor R)) := all_ops (map (slot_val no_mem) l).
(** one direction of an unrolled LSTM layer (aten.py 193-221) *)
Definition lstm_direction (sep bi : bool) (ins : list slot) (d : nat) (ts : list (tensor R)) : option (list (tensor R) * (tensor R * tensor R)) :=
  let nd := if bi then 2%nat else 1%nat in
  let is := nth d [1%nat; 18%nat] 0%nat in
  let st := ((if bi then 35 else 18) + d * nd)%nat in
  let part a b := slots_tensors (firstn b (skipn a ins)) in
  obind (part is 4%nat) (fun ws => obind (part (is + 4)%nat 4%nat) (fun rs => obind (part (is + 11)%nat 4%nat) (fun bs =>
  let hs := nth st ins Absent in let cs := nth (st + 1) ins Absent in
  obind (slot_val no_mem hs) (fun h => obind (slot_val no_mem cs) (fun c =>
  lstm_loop sep (negb (compute hs)) (negb (compute cs)) ws rs bs ts h c))))).

(** layers, the same for both classes (aten.py 184-192, 223, 315-344 and 645-655, 679, 821-848): the second direction
    reads and writes the sequence backwards; the unpacked outputs of a one-directional layer are the unpacked inputs of
    the next one *)
Section Layers.
  Context {St : Type}.
  Definition layer_unrolled (bf bi last : bool) (dir : nat -> list (tensor R) -> option (list (tensor R) * St))
      (cur : tensor R + list (tensor R)) : option ((tensor R + list (tensor R)) * list St) :=
    let ax := if bf then 1%nat else 0%nat in
    let ts := match cur with
              | inl x => map (fun t => unpack ax t x) (seq 0 (nth ax (tshape x) 0%nat))
              | inr ts => ts
              end in
    let nd := if bi then 2%nat else 1%nat in
    obind (all_ops (map (fun d => option_map (fun r => (if (d =? 1)%nat then rev (fst r) else fst r, snd r))
                                  (dir d (if (d =? 1)%nat then rev ts else ts))) (seq 0 nd))) (fun res =>
    let output_ts := concat (map fst res) in
    let n := length ts in
    let cur' :=
      if bi then inl (concatenation 0 2 [pack 0 ax (firstn n output_ts); pack 0 ax (skipn n output_ts)])
      else if last then inl (pack 0 ax output_ts) else inr output_ts in
    Some (cur', map snd res)).
  (** [num_layers] layers from number [l] on *)
  Fixpoint layers_unrolled (bf bi : bool) (dir : nat -> nat -> list (tensor R) -> option (list (tensor R) * St)) (n l : nat)
      (cur : tensor R + list (tensor R)) : option ((tensor R + list (tensor R)) * list St) :=
    match n with
    | O => Some (cur, [])
    | S n' =>
        obind (layer_unrolled bf bi (n' =? 0)%nat (dir l) cur) (fun r =>
        obind (layers_unrolled bf bi dir n' (S l) (fst r)) (fun q => Some (fst q, snd r ++ snd q)))
    end.
End Layers.
(** the final states are packed when the initial state was a tensor of the graph (aten.py 423-430, 852-859) *)
Definition state_output (s : source) (fs : list (tensor R)) : option (tensor R) :=
  match s with Given _ => Some (pack 0 0 fs) | Recorded _ => None end.
(** number of weights (aten.py 92-104, 553-566) *)
Definition expected_params (has_biases bi : bool) (nl : nat) : nat :=
  (2 * nl * (if has_biases then 2 else 1) * (if bi then 2 else 1))%nat.
Definition params_step (has_biases : bool) : nat := if has_biases then 4%nat else 2%nat.

(** [ATenLstmOperator.parse_common] with [unroll_rnn] (aten.py 78-444); results: output and the two state outputs, [None]
    when no operator produces them *)
Definition aten_lstm_unrolled (sep bf bi has_biases : bool) (nl : nat) (x : tensor R) (hs cs : source) (params : list (tensor R))
    : option (tensor R * (option (tensor R) * option (tensor R))) :=
  let nd := if bi then 2%nat else 1%nat in
  if (length params =? expected_params has_biases bi nl)%nat then
    obind (layers_unrolled bf bi (fun l d ts =>
             obind (lstm_inputs true has_biases bi params (l * (params_step has_biases * nd)) l hs cs (Act x)) (fun ins => lstm_direction sep bi ins d ts))
           nl 0 (inl x)) (fun r =>
    match fst r with
    | inl y => Some (y, (state_output hs (map fst (snd r)), state_output cs (map snd (snd r))))
    | inr _ => None
    end)
  else None.

(** one layer without [unroll_rnn] (aten.py 345-417); [map_bi]: [map_bilstm_to_lstm] *)
Definition lstm_sequence_layer (mem : nat -> option (tensor R)) (map_bi bf bi : bool) (ins : list slot)
    : option (tensor R * list (tensor R * tensor R)) :=
  let vals := map (slot_val mem) in
  if bi then
    if map_bi then
      (** [fw_pad] and [bw_pad] are negative: nothing is appended *)
      let fw_ins := firstn 18 ins ++ firstn 2 (skipn 35 ins) in
      let bw_ins x := Act x :: firstn (35 - 18) (skipn 18 ins) ++ firstn (39 - 37) (skipn 37 ins) in
      let ax := if bf then 1%nat else 0%nat in
      obind (uni_seq_lstm (negb bf) (vals fw_ins)) (fun fw =>
      obind (obind (nth_error ins 0) (slot_val mem)) (fun x =>
      obind (uni_seq_lstm (negb bf) (vals (bw_ins (reverse [ax] x)))) (fun bw =>
      Some (concatenation 0 2 [fst fw; reverse [ax] (fst bw)], snd fw ++ snd bw))))
    else bi_seq_lstm (negb bf) (vals ins)
  else uni_seq_lstm (negb bf) (vals ins).
Fixpoint lstm_sequence_layers (mem : nat -> option (tensor R)) (map_bi bf bi has_biases : bool) (hs cs : source) (params : list (tensor R))
    (n l : nat) (x : tensor R) : option (tensor R * list (tensor R * tensor R)) :=
  let nd := if bi then 2%nat else 1%nat in
  match n with
  | O => Some (x, [])
  | S n' =>
      obind (lstm_inputs false has_biases bi params (l * (params_step has_biases * nd)) l hs cs (Act x)) (fun ins =>
      obind (lstm_sequence_layer mem map_bi bf bi ins) (fun r =>
      obind (lstm_sequence_layers mem map_bi bf bi has_biases hs cs params n' (S l) (fst r)) (fun q => Some (fst q, snd r ++ snd q))))
  end.
(** [ATenLstmOperator.parse_common] without [unroll_rnn]: one invocation with the variables in [mem]; results: the output
    and what the variables hold afterwards, hidden and cell, by slice *)
Definition aten_lstm_sequence (mem : nat -> option (tensor R)) (map_bi bf bi has_biases : bool) (nl : nat) (x : tensor R) (hs cs : source)
    (params : list (tensor R)) : option (tensor R * list (tensor R * tensor R)) :=
  if (length params =? expected_params has_biases bi nl)%nat then
    lstm_sequence_layers mem map_bi bf bi has_biases hs cs params nl 0 x
  else None.
(** the variables after an invocation *)
Definition mem_after (fs : list (tensor R * tensor R)) : nat -> option (tensor R) :=
  fun k => option_map (fun f => if (k mod 2 =? 0)%nat then fst f else snd f) (nth_error fs (k / 2)).

(* ------------------------------------------------------------------ *)
(** * GRU *)

(** [gru_input_helper] (aten.py 466-513): the four lists it returns; the concatenated tensors it stores in
    [input_tensors] are never read *)
Definition gru_input_helper (has_biases : bool) (params : list (tensor R)) (ps : nat)
    : option (list (tensor R) * list (tensor R) * list (tensor R) * list (tensor R)) :=
  obind (nth_error params ps) (fun wih => obind (nth_error params (ps + 1)) (fun whh =>
  if has_biases then
    obind (nth_error params (ps + 2)) (fun bih => obind (nth_error params (ps + 3)) (fun bhh =>
    Some (chunks 3 wih, chunks 3 whh, chunks 3 bih, chunks 3 bhh)))
  else
    let z := zeros [nth 0 (tshape (split_part 3 0 2 wih)) 0%nat] in
    Some (chunks 3 wih, chunks 3 whh, [z; z; z], [z; z; z]))).
(** from the gates to the new state (aten.py 721-763, 789-817); the constant 1 is a tensor without axes *)
Definition gru_pointwise (skip_h : bool) (li ri lz rz ln rn h : tensor R) : option (tensor R) :=
  obind (binop Rplus li ri) (fun r_in => let r := tmap sigmoid r_in in
  obind (binop Rplus lz rz) (fun z_in => let z := tmap sigmoid z_in in
  obind (binop Rmult r rn) (fun n_right =>
  obind (binop Rplus ln n_right) (fun n_in => let n := tmap tanh n_in in
  obind (binop Rminus (mkT [] (fun _ => 1)) z) (fun hl0 =>
  obind (binop Rmult hl0 n) (fun h_left =>
  if skip_h then Some h_left
  else obind (binop Rmult z h) (fun h_right => binop Rplus h_left h_right))))))).
(** one time step (aten.py 679-819) *)
Definition gru_step (sep skip_h : bool) (ws rs bi bh : list (tensor R)) (t h : tensor R) : option (tensor R) :=
  if sep then
    obind (all_ops (map (fun wb => fully_connected false t (fst wb) (snd wb)) (combine ws bi))) (fun im =>
    obind (if skip_h then Some bh else all_ops (map (fun wb => fully_connected false h (fst wb) (snd wb)) (combine rs bh))) (fun hm =>
    match im, hm with
    | [i0; i1; i2], [h0; h1; h2] => gru_pointwise skip_h i0 h0 i1 h1 i2 h2 h
    | _, _ => None
    end))
  else
    obind (fully_connected false t (concatenation 0 0 ws) (concatenation 0 0 bi)) (fun im =>
    obind (fully_connected false h (concatenation 0 0 rs) (concatenation 0 0 bh)) (fun hm =>
    obind (split_op 3 1 im) (fun il => obind (split_op 3 1 hm) (fun hl =>
    match il, hl with
    | [i0; i1; i2], [h0; h1; h2] => gru_pointwise skip_h i0 h0 i1 h1 i2 h2 h
    | _, _ => None
    end)))).
Fixpoint gru_loop (sep skip_h : bool) (ws rs bi bh : list (tensor R)) (ts : list (tensor R)) (h : tensor R)
    : option (list (tensor R) * tensor R) :=
  match ts with
  | [] => Some ([], h)
  | t :: r =>
      obind (gru_step sep skip_h ws rs bi bh t h) (fun h' =>
      obind (gru_loop sep false ws rs bi bh r h') (fun res => Some (h' :: fst res, snd res)))
  end.
(** one direction (aten.py 657-679): the weights are read again, the state from the operands *)
Definition gru_direction (sep has_biases : bool) (params : list (tensor R)) (offset slice : nat) (hs : source) (d : nat) (ts : list (tensor R))
    : option (list (tensor R) * tensor R) :=
  obind (gru_input_helper has_biases params (offset + nth d [0%nat; params_step has_biases] 0%nat)) (fun ps =>
  let '(ws, rs, bi, bh) := ps in
  let s := state_slot true hs slice slice in
  obind (slot_val no_mem s) (fun h => gru_loop sep (negb (compute s)) ws rs bi bh ts h)).
(** [ATenGruOperator.parse_common] (aten.py 538-862): always unrolled *)
Definition aten_gru (sep bf bi has_biases : bool) (nl : nat) (x : tensor R) (hs : source) (params : list (tensor R))
    : option (tensor R * option (tensor R)) :=
  let nd := if bi then 2%nat else 1%nat in
  if (length params =? expected_params has_biases bi nl)%nat then
    obind (layers_unrolled bf bi (fun l d ts => gru_direction sep has_biases params (l * (params_step has_biases * nd)) (l * nd + d) hs d ts)
           nl 0 (inl x)) (fun r =>
    match fst r with
    | inl y => Some (y, state_output hs (snd r))
    | inr _ => None
    end)
  else None.
