(** Model of the passes that replace one operator by several smaller ones
    ([tinynn/converter/operators/optimize.py]): wide concatenations, grouped convolutions
    and grouped transposed convolutions.

    The bookkeeping of graph nodes around the passes is not modelled. *)
From Coq Require Import List Arith Bool Reals.
From Verif Require Import Tensor ConvSpec CatSpec.
Import ListNotations.

(* ------------------------------------------------------------------ *)
(** * Wide concatenations *)

(** A tensor of the rewritten graph: operand [i] of the original operator, or the output of
    the CONCATENATION operator at position [k] of the list of emitted operators. *)
Inductive cref := CIn (i : nat) | COut (k : nat).
(** An emitted operator: its operands, and whether it writes the original output tensor
    (optimize.py 2987-2994; the axis is the original one). *)
Definition cop : Type := list cref * bool.

(** [is_large_cat_node] (optimize.py 3773-3774). *)
Definition is_large_cat_node (inputs : list cref) : bool := 10 <? length inputs.

(** The inner loop over one layer (optimize.py 2980-2996): [ops] are the operators emitted so
    far (oldest first); returns all operators and the outputs of this layer.  On the last layer
    the output is the original output tensor and [layer_outputs] stays empty.  [fuel] bounds the
    iterations; the length of [inputs] suffices. *)
Fixpoint cat_layer (fuel : nat) (last_layer : bool) (ops : list cop) (inputs outs : list cref) : option (list cop * list cref) :=
  match inputs with
  | [] => Some (ops, outs)
  | _ => match fuel with
         | 0 => None
         | S fuel' =>
             let outs' := if last_layer then outs else outs ++ [COut (length ops)] in
             cat_layer fuel' last_layer (ops ++ [(firstn 10 inputs, last_layer)]) (skipn 10 inputs) outs'
         end
  end.

(** The outer loop (optimize.py 2977-3003). *)
Fixpoint cat_loop (fuel : nat) (last_layer : bool) (ops : list cop) (inputs : list cref) : option (list cop) :=
  match fuel with
  | 0 => None
  | S fuel' =>
      match cat_layer (length inputs) last_layer ops inputs [] with
      | None => None
      | Some (ops', outs) =>
          if length outs =? 0 then Some ops'
          else cat_loop fuel' (last_layer || (length outs <=? 10)) ops' outs
      end
  end.

(** [cat_split_pass] on one operator with [n] operands (optimize.py 2936-3009): the emitted
    operators; operator [k] writes tensor [COut k] or the original output tensor. *)
Definition cat_split (n : nat) : option (list cop) :=
  let inputs := map CIn (seq 0 n) in
  if is_large_cat_node inputs then cat_loop n false [] inputs else None.

(* ------------------------------------------------------------------ *)
(** * Grouped convolutions *)
Local Open Scope R_scope.

(** [np.split] of a 1-D array into [n] parts, part [g] (optimize.py 2811-2815, 2890-2894). *)
Definition split_list {A} (n g : nat) (l : list A) : list A :=
  firstn (length l / n) (skipn (g * (length l / n)) l).

(** One emitted convolution: weight, bias, activation. *)
Record part := mkPart { pt_w : tensor R; pt_b : option (list R); pt_act : activ }.

(** [is_group_conv_node] (optimize.py 3781-3785). *)
Definition is_group_conv_node (xshape wshape : list nat) : bool := negb (nth 3 xshape 0 =? nth 3 wshape 0)%nat.

(** [group_conv_rewrite_pass] on one CONV_2D (optimize.py 2781-2836): number of parts and the
    emitted convolutions; the operand is split into that many parts along axis 3, part [g] goes
    to convolution [g], the outputs are concatenated along axis 3; strides, dilations and padding
    are those of the original.  [np.split] raises ([None]) when the size is not divisible.
    Quantization parameters are treated separately in [group_conv_scales]. *)
Definition group_conv_rewrite (xshape yshape : list nat) (w : tensor R) (b : option (list R)) (act : activ)
  : option (list part) :=
  let n := (nth 3 xshape 0 / nth 3 (tshape w) 0)%nat in
  if (n =? 0)%nat then None
  else if negb (nth 3 xshape 0 mod n =? 0)%nat || negb (nth 3 yshape 0 mod n =? 0)%nat ||
          negb (nth 0 (tshape w) 0 mod n =? 0)%nat ||
          match b with Some l => negb (length l mod n =? 0)%nat | None => false end
  then None
  else Some (map (fun g => mkPart (split_part n 0 g w) (option_map (split_list n g) b) act) (seq 0 n)).

(** The [quantization] object handed to part [g] (optimize.py 2803-2807): the one of the whole
    weight, with one scale per output channel of the whole weight when quantized per channel. *)
Definition group_conv_scales {A} (n g : nat) (scales : list A) : list A := scales.

(** [is_group_deconv_node] (optimize.py 3788-3792). *)
Definition is_group_deconv_node (yshape wshape : list nat) : bool := negb (nth 3 yshape 0 =? nth 0 wshape 0)%nat.

(** [group_deconv_rewrite_pass] on one TRANSPOSE_CONV (optimize.py 2876-2932): the emitted
    operators have output shape [new_os], no activation argument (2920-2926: default NONE). *)
Definition group_deconv_rewrite (xshape yshape : list nat) (w : tensor R) (b : option (list R)) (act : activ)
  : option (list nat * list part) :=
  let n := (nth 3 yshape 0 / nth 0 (tshape w) 0)%nat in
  if (n =? 0)%nat then None
  else if negb (nth 3 xshape 0 mod n =? 0)%nat || negb (nth 3 yshape 0 mod n =? 0)%nat ||
          negb (nth 3 (tshape w) 0 mod n =? 0)%nat ||
          match b with Some l => negb (length l mod n =? 0)%nat | None => false end
  then None
  else Some (upd yshape 3 (nth 0 (tshape w) 0%nat),
             map (fun g => mkPart (split_part n 3 g w) (option_map (split_list n g) b) ANone) (seq 0 n)).
