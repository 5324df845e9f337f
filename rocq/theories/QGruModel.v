(** Model of the quantizable GRU ([tinynn/graph/quantization/quantizable/gru.py]) with floats, before observers are
    attached.  [None]: Python raises. *)
From Coq Require Import List Arith Bool Reals.
From Verif Require Import Tensor ConvSpec CatSpec LayoutSpec FuseModel MoveSpec EltSpec RnnSpec.
Import ListNotations.
Local Open Scope R_scope.

(** [torch.nn.Linear] on a tensor of rank two or more ([igates], [hgates]: gru.py 49-50) *)
Definition linear (w : tensor R) (b : option (tensor R)) (x : tensor R) : option (tensor R) :=
  if (nth 1 (tshape w) 0 =? last (tshape x) 0)%nat then
    Some (mkT (removelast (tshape x) ++ [nth 0 (tshape w) 0%nat]) (fun idx =>
      lsum (seq 0 (nth 1 (tshape w) 0%nat)) (fun k => tget w [last idx 0%nat; k] * tget x (removelast idx ++ [k])) +
      match b with Some v => tget v [last idx 0%nat] | None => 0 end))
  else None.
(** [t.chunk(3, -1)] (gru.py 72, 77); simplified: the axis divides by three *)
Definition chunk3 (t : tensor R) (g : nat) : tensor R := split_part 3 (length (tshape t) - 1) g t.
(** [t[k, ...]] (gru.py 78-80, 196-197, 221) *)
Definition index0 {A} (k : nat) (t : tensor A) : option (tensor A) := if (k <? nth 0 (tshape t) 0)%nat then Some (unpack 0 k t) else None.
(** [torch.stack(ts, 0)] (gru.py 86, 221, 373) *)
Definition stack0 (ts : list (tensor R)) : option (tensor R) :=
  match ts with
  | [] => None
  | t :: _ => if forallb (fun u : tensor R => list_eqb (tshape u) (tshape t)) ts then Some (pack 0 0 ts) else None
  end.
(** [t.squeeze_(0)] (gru.py 348, 358) *)
Definition squeeze0 (t : tensor R) : tensor R := match tshape t with 1%nat :: _ => unpack 0 0 t | _ => t end.

(** one step of [GRUCell.forward] (gru.py 77-84); [ri], [zi], [ni] at the step *)
Definition qgru_step (p : rnn_params) (ri zi ni hx : tensor R) : option (tensor R) :=
  obind (linear (w_hh p) (option_map snd (biases p)) hx) (fun hg =>
  obind (binop Rplus ri (chunk3 hg 0)) (fun r =>
  obind (binop Rplus zi (chunk3 hg 1)) (fun z =>
  let rgate := tmap sigmoid r in
  let zgate := tmap sigmoid z in
  obind (binop Rmult rgate (chunk3 hg 2)) (fun rn =>
  obind (binop Rplus ni rn) (fun n =>
  let ngate := tmap tanh n in
  obind (binop Rmult (tmap (fun v => v + 1) (tmap (fun v => v * -1) zgate)) ngate) (fun a =>
  obind (binop Rmult zgate hx) (fun b => binop Rplus a b))))))).
(** the loop over [k in range(x.size(0))] (gru.py 75-85) *)
Fixpoint qgru_loop (p : rnn_params) (ig : tensor R) (ks : list nat) (hx : tensor R) : option (list (tensor R) * tensor R) :=
  match ks with
  | [] => Some ([], hx)
  | k :: r =>
      obind (index0 k (chunk3 ig 0)) (fun ri => obind (index0 k (chunk3 ig 1)) (fun zi => obind (index0 k (chunk3 ig 2)) (fun ni =>
      obind (qgru_step p ri zi ni hx) (fun h =>
      obind (qgru_loop p ig r h) (fun res => Some (h :: fst res, snd res))))))
  end.
(** [GRUCell.forward] on a sequence with a hidden state (gru.py 67-87), through [_GRUSingleLayer.forward] (154-156);
    [hidden[0]] is evaluated to compare it with [None] (gru.py 69) *)
Definition qgru_cell (p : rnn_params) (x hidden : tensor R) : option (tensor R * tensor R) :=
  obind (index0 0 hidden) (fun _ =>
  obind (linear (w_ih p) (option_map fst (biases p)) x) (fun ig =>
  obind (qgru_loop p ig (seq 0 (nth 0 (tshape x) 0%nat)) hidden) (fun rh =>
  obind (stack0 (fst rh)) (fun y => Some (y, snd rh))))).
(** [_GRULayer.forward] (gru.py 186-229), [batch_first=False]; [l]: the weights of [layer_fw] and [layer_bw]
    ([_GRULayer.from_float], gru.py 231-261: [weight_ih_l{idx}], [weight_ih_l{idx}_reverse], ...) *)
Definition qgru_layer (l : list rnn_params) (x hidden : tensor R) : option (tensor R * tensor R) :=
  match l with
  | [p] => qgru_cell p x hidden
  | [p; q] =>
      obind (index0 1 hidden) (fun hx_bw => obind (index0 0 hidden) (fun hx_fw =>
      obind (qgru_cell p x hx_fw) (fun fw =>
      obind (qgru_cell q (reverse [0%nat] x) hx_bw) (fun bw =>
      obind (index0 0 (snd fw)) (fun hf => obind (index0 0 (snd bw)) (fun hb => obind (stack0 [hf; hb]) (fun h =>
      Some (concatenation 0 (length (tshape (fst fw)) - 1) [fst fw; reverse [0%nat] (fst bw)], h))))))))
  | _ => None
  end.
(** the loop over the layers (gru.py 369-372) *)
Fixpoint qgru_layers (ps : list (list rnn_params)) (hx : list (tensor R)) (x : tensor R) : option (tensor R * list (tensor R)) :=
  match ps, hx with
  | [], _ => Some (x, [])
  | l :: ps', h :: hx' =>
      obind (qgru_layer l x h) (fun yh => obind (qgru_layers ps' hx' (fst yh)) (fun res => Some (fst res, snd yh :: snd res)))
  | _ :: _, [] => None
  end.
(** [GRU.forward] (gru.py 338-382) of a module built by [GRU.from_float] (gru.py 388-405); [H]: [hidden_size] *)
Definition qgru (bf bi : bool) (H : nat) (ps : list (list rnn_params)) (hidden : option (tensor R)) (x : tensor R) : option (tensor R * tensor R) :=
  let x := if bf then transpose [1; 0; 2]%nat x else x in
  let B := nth 1 (tshape x) 0%nat in
  let nd := if bi then 2%nat else 1%nat in
  let L := length ps in
  obind (match hidden with
         | None => Some (repeat (squeeze0 (mkT [nd; B; H] (fun _ => 0))) L)
         | Some h => if (prod [L; nd; B; H] =? prod (tshape h))%nat
                     then Some (map (fun i => squeeze0 (unpack 0 i (reshape [L; nd; B; H] h))) (seq 0 L))
                     else None
         end) (fun hx =>
  obind (qgru_layers ps hx x) (fun yh =>
  obind (stack0 (snd yh)) (fun t =>
  let n := length (tshape t) in
  let a := nth (n - 2) (tshape t) 0%nat in let b := nth (n - 1) (tshape t) 0%nat in
  if (a * b =? 0)%nat then None
  else Some (if bf then transpose [1; 0; 2]%nat (fst yh) else fst yh, reshape [prod (tshape t) / (a * b); a; b]%nat t)))).
