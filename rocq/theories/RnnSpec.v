(** LSTM and GRU of torch and the sequence LSTM operators of TFLite (specification side: documented semantics, no
    converter code). *)
From Coq Require Import List Arith Bool Reals Lia.
From Verif Require Import Tensor ConvSpec EltSpec.
Import ListNotations.
Local Open Scope R_scope.

(** activations of a batch: row of the batch, unit *)
Definition mat := nat -> nat -> R.

(** * Running a cell over a sequence *)
Section Net.
  Context {P St : Type} (cell : P -> mat -> St -> St) (out : St -> mat).
  (** states after each step *)
  Fixpoint run (p : P) (s : St) (xs : list mat) : list St :=
    match xs with [] => [] | x :: r => let s' := cell p x s in s' :: run p s' r end.
  (** outputs per time step; the backward direction reads the sequence from its end *)
  Definition direction_out (backward : bool) (p : P) (s : St) (xs : list mat) : list mat :=
    map out (if backward then rev (run p s (rev xs)) else run p s xs).
  Definition direction_final (backward : bool) (p : P) (s : St) (xs : list mat) : St :=
    last (run p s (if backward then rev xs else xs)) s.
  (** features of both directions side by side *)
  Definition side (h : nat) (f g : mat) : mat := fun b j => if (j <? h)%nat then f b j else g b (j - h)%nat.
  Definition no_mat : mat := fun _ _ => 0.
  (** one layer: one or two directions with their initial states; [h] units per direction *)
  Definition layer_out (h : nat) (l : list (P * St)) (xs : list mat) : list mat :=
    match l with
    | [(p, s)] => direction_out false p s xs
    | [(p, s); (q, u)] =>
        map (fun t => side h (nth t (direction_out false p s xs) no_mat) (nth t (direction_out true q u xs) no_mat)) (seq 0 (length xs))
    | _ => []
    end.
  Definition layer_final (l : list (P * St)) (xs : list mat) : list St :=
    match l with
    | [(p, s)] => [direction_final false p s xs]
    | [(p, s); (q, u)] => [direction_final false p s xs; direction_final true q u xs]
    | _ => []
    end.
  (** stacked layers: outputs of the last one, and the final states in the order layer, direction *)
  Fixpoint net (h : nat) (ls : list (list (P * St))) (xs : list mat) : list mat * list St :=
    match ls with
    | [] => (xs, [])
    | l :: r => let yf := net h r (layer_out h l xs) in (fst yf, layer_final l xs ++ snd yf)
    end.
  (** the initial states are numbered in the order layer, direction *)
  Fixpoint attach (st : nat -> St) (k : nat) (ls : list (list P)) : list (list (P * St)) :=
    match ls with
    | [] => []
    | l :: r => combine l (map st (seq k (length l))) :: attach st (k + length l) r
    end.
End Net.

(** * torch *)

(** weights of one direction of one layer; the gates lie one after the other along the first axis *)
Record rnn_params := mkP { w_ih : tensor R; w_hh : tensor R; biases : option (tensor R * tensor R) }.
Definition affine (w : tensor R) (b : option (tensor R)) (x : mat) (r bt : nat) : R :=
  lsum (seq 0 (nth 1 (tshape w) 0%nat)) (fun k => tget w [r; k] * x bt k) + match b with Some v => tget v [r] | None => 0 end.
Definition units (p : rnn_params) : nat := nth 1 (tshape (w_hh p)) 0%nat.
(** gates in the order input, forget, cell, output; state: hidden and cell *)
Definition lstm_cell (p : rnn_params) (x : mat) (s : mat * mat) : mat * mat :=
  let gate (g bt j : nat) :=
    affine (w_ih p) (option_map fst (biases p)) x (g * units p + j) bt +
    affine (w_hh p) (option_map snd (biases p)) (fst s) (g * units p + j) bt in
  let c bt j := sigmoid (gate 1%nat bt j) * snd s bt j + sigmoid (gate 0%nat bt j) * tanh (gate 2%nat bt j) in
  (fun bt j => sigmoid (gate 3%nat bt j) * tanh (c bt j), c).
(** gates in the order reset, update, new *)
Definition gru_cell (p : rnn_params) (x h : mat) : mat :=
  let inp (g bt j : nat) := affine (w_ih p) (option_map fst (biases p)) x (g * units p + j) bt in
  let hid (g bt j : nat) := affine (w_hh p) (option_map snd (biases p)) h (g * units p + j) bt in
  fun bt j =>
    let r := sigmoid (inp 0%nat bt j + hid 0%nat bt j) in
    let z := sigmoid (inp 1%nat bt j + hid 1%nat bt j) in
    let n := tanh (inp 2%nat bt j + r * hid 2%nat bt j) in
    (1 - z) * n + z * h bt j.

(** a sequence is a tensor [T; B; W], or [B; T; W] with [bf] ([batch_first]) *)
Definition time_axis (bf : bool) : nat := if bf then 1%nat else 0%nat.
Definition steps (bf : bool) (x : tensor R) : list mat :=
  map (fun t b k => tget x (if bf then [b; t; k] else [t; b; k])) (seq 0 (nth (time_axis bf) (tshape x) 0%nat)).
Definition batch (bf : bool) (x : tensor R) : nat := nth (1 - time_axis bf) (tshape x) 0%nat.
Definition seq_tensor (bf : bool) (B W : nat) (ys : list mat) : tensor R :=
  mkT (if bf then [B; length ys; W] else [length ys; B; W])
      (fun idx => nth (nth (time_axis bf) idx 0%nat) ys no_mat (nth (1 - time_axis bf) idx 0%nat) (nth 2 idx 0%nat)).
(** states are tensors [layers * directions; B; units] *)
Definition state_of (s : tensor R) (k : nat) : mat := fun b j => tget s [k; b; j].
Definition state_tensor (B H : nat) (fs : list mat) : tensor R :=
  mkT [length fs; B; H] (fun idx => nth (nth 0 idx 0%nat) fs no_mat (nth 1 idx 0%nat) (nth 2 idx 0%nat)).

(** [ps]: the weights, layer by layer and in each layer forward before backward *)
Definition torch_lstm (bf : bool) (H D : nat) (ps : list (list rnn_params)) (h0 c0 x : tensor R) : tensor R * (tensor R * tensor R) :=
  let yf := net lstm_cell fst H (attach (fun k => (state_of h0 k, state_of c0 k)) 0 ps) (steps bf x) in
  (seq_tensor bf (batch bf x) (D * H) (fst yf),
   (state_tensor (batch bf x) H (map fst (snd yf)), state_tensor (batch bf x) H (map snd (snd yf)))).
Definition torch_gru (bf : bool) (H D : nat) (ps : list (list rnn_params)) (h0 x : tensor R) : tensor R * tensor R :=
  let yf := net gru_cell (fun h => h) H (attach (fun k => state_of h0 k) 0 ps) (steps bf x) in
  (seq_tensor bf (batch bf x) (D * H) (fst yf), state_tensor (batch bf x) H (snd yf)).

(** shapes of the weights: [G] gates, [H] units, [I] input features, [D] directions *)
Definition params_ok (G H I : nat) (p : rnn_params) : Prop :=
  tshape (w_ih p) = [(G * H)%nat; I] /\ tshape (w_hh p) = [(G * H)%nat; H] /\
  match biases p with Some (a, b) => tshape a = [(G * H)%nat] /\ tshape b = [(G * H)%nat] | None => True end.
Fixpoint net_ok (G H I D : nat) (ps : list (list rnn_params)) : Prop :=
  match ps with
  | [] => True
  | l :: r => length l = D /\ Forall (params_ok G H I) l /\ net_ok G H (D * H) D r
  end.
(** the flat list of weights torch hands to the operator *)
Definition flat_params (p : rnn_params) : list (tensor R) :=
  [w_ih p; w_hh p] ++ match biases p with Some (a, b) => [a; b] | None => [] end.
Definition flat (ps : list (list rnn_params)) : list (tensor R) := flat_map (flat_map flat_params) ps.
Definition all_biases (has : bool) (ps : list (list rnn_params)) : Prop :=
  Forall (Forall (fun p => match biases p with Some _ => has = true | None => has = false end)) ps.

(** * TFLite *)

(** weights of one direction of a sequence LSTM: per gate (input, forget, cell, output) *)
Record seq_weights := mkW { sw_in : nat -> tensor R; sw_rec : nat -> tensor R; sw_bias : nat -> tensor R }.
Definition seq_cell (w : seq_weights) (x : mat) (s : mat * mat) : mat * mat :=
  let gate (g bt j : nat) :=
    lsum (seq 0 (nth 1 (tshape (sw_in w g)) 0%nat)) (fun k => tget (sw_in w g) [j; k] * x bt k) +
    lsum (seq 0 (nth 1 (tshape (sw_rec w g)) 0%nat)) (fun k => tget (sw_rec w g) [j; k] * fst s bt k) +
    tget (sw_bias w g) [j] in
  let c bt j := sigmoid (gate 1%nat bt j) * snd s bt j + sigmoid (gate 0%nat bt j) * tanh (gate 2%nat bt j) in
  (fun bt j => sigmoid (gate 3%nat bt j) * tanh (c bt j), c).
(** the seventeen operands of one direction: input weights, recurrent weights, peephole weights, biases and projection;
    no peephole connections, no projection (what the kernel does with those is not described here) *)
Definition read_weights (l : list (option (tensor R))) : option seq_weights :=
  match l with
  | [Some wi; Some wf; Some wc; Some wo; Some ri; Some rf; Some rc; Some ro; None; None; None; Some bi; Some bf; Some bc; Some bo; None; None] =>
      Some (mkW (fun g => nth g [wi; wf; wc; wo] wo) (fun g => nth g [ri; rf; rc; ro] ro) (fun g => nth g [bi; bf; bc; bo] bo))
  | _ => None
  end.
Definition mat_of (t : tensor R) : mat := fun b j => tget t [b; j].
Definition mat_tensor (B H : nat) (f : mat) : tensor R := mkT [B; H] (fun idx => f (nth 0 idx 0%nat) (nth 1 idx 0%nat)).
Definition absent {A} (o : option A) : bool := match o with Some _ => false | None => true end.
(** UNIDIRECTIONAL_SEQUENCE_LSTM: 20 operands, or 24 with layer normalisation (absent here); operands 18 and 19 are
    variable tensors and are overwritten with the final state *)
Definition uni_seq_lstm (time_major : bool) (ins : list (option (tensor R))) : option (tensor R * list (tensor R * tensor R)) :=
  match ins with
  | Some x :: r =>
      match read_weights (firstn 17 r), skipn 17 r with
      | Some w, Some h :: Some c :: rest =>
          if forallb absent rest && ((length rest =? 0)%nat || (length rest =? 4)%nat) then
            let bf := negb time_major in let H := nth 0 (tshape (sw_rec w 3)) 0%nat in
            let B := batch bf x in
            let s := (mat_of h, mat_of c) in
            let f := direction_final seq_cell false w s (steps bf x) in
            Some (seq_tensor bf B H (direction_out seq_cell fst false w s (steps bf x)), [(mat_tensor B H (fst f), mat_tensor B H (snd f))])
          else None
      | _, _ => None
      end
  | _ => None
  end.
(** BIDIRECTIONAL_SEQUENCE_LSTM with merged outputs: 48 operands; 35 to 38 are the states, the others (auxiliary input
    and its weights) absent *)
Definition bi_seq_lstm (time_major : bool) (ins : list (option (tensor R))) : option (tensor R * list (tensor R * tensor R)) :=
  match ins with
  | Some x :: r =>
      match read_weights (firstn 17 r), read_weights (firstn 17 (skipn 17 r)), skipn 34 r with
      | Some w, Some v, Some h :: Some c :: Some h' :: Some c' :: rest =>
          if forallb absent rest && (length rest =? 9)%nat then
            let bf := negb time_major in let H := nth 0 (tshape (sw_rec w 3)) 0%nat in
            let B := batch bf x in
            let l := [(w, (mat_of h, mat_of c)); (v, (mat_of h', mat_of c'))] in
            Some (seq_tensor bf B (2 * H) (layer_out seq_cell fst H l (steps bf x)),
                  map (fun f => (mat_tensor B H (fst f), mat_tensor B H (snd f))) (layer_final seq_cell l (steps bf x)))
          else None
      | _, _, _ => None
      end
  | _ => None
  end.
