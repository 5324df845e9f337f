(** Model of the passes that replace transposes by reshapes
    ([tinynn/converter/operators/optimize.py]): [transpose_to_reshape_pass] (1119-1139) and
    [fuse_wrapped_reshape_within_transpose_pass] (1187-1238), each on the tensors of the operators
    it replaces.  The rewiring of the graph around them is not modelled here. *)
From Coq Require Import List Arith Bool.
From Verif Require Import Tensor ChainModel.
Import ListNotations.

(** [input_shape[input_shape != 1]] (optimize.py 4249). *)
Definition without_ones (s : list nat) : list nat := filter (fun d => negb (d =? 1)) s.

(** [np.arange(num_elements).reshape(input_shape)] (optimize.py 4250). *)
Definition arange (s : list nat) : tensor nat := mkT s (ravel s).

(** [tensor.flatten()] (optimize.py 4254): the elements in row-major order. *)
Definition flatten {A} (t : tensor A) : list A :=
  map (fun n => tget t (unravel (tshape t) n)) (seq 0 (prod (tshape t))).

(** optimize.py 4243-4256 [is_transpose_same_to_reshape_op]; [out] is the shape of the output. *)
Definition transpose_same_as_reshape (s out perm : list nat) : bool :=
  if list_eqb (without_ones s) (without_ones out)
  then list_eqb (flatten (transpose perm (arange s))) (flatten (arange s))
  else false.

(** optimize.py 3799-3804 [is_transformable_transpose_node] and 1125-1134: the shape of the RESHAPE
    put in the place of a TRANSPOSE, [None]: the node is left alone. *)
Definition transpose_to_reshape (outdegree : nat) (s out perm : list nat) : option (list nat) :=
  if (1 <=? outdegree) && transpose_same_as_reshape s out perm then Some out else None.

(* ------------------------------------------------------------------ *)
(** ** A reshape between two transposes *)

(** optimize.py 4498-4501: one run of the [for] loop over [zip(old_shape, cur_perm)].  [need] are
    the entries of [new_shape] from [new_idx] on (when none is left the padding [None] equals no
    size), [found] is [next_perm]. *)
Fixpoint match_pass (pairs : list (nat * nat)) (need found : list nat) : list nat * list nat :=
  match pairs with
  | [] => (need, found)
  | (old, item) :: rest =>
      match need with
      | [] => match_pass rest need found
      | d :: need' => if (old =? d) && negb (existsb (Nat.eqb item) found)
                      then match_pass rest need' (found ++ [item])
                      else match_pass rest need found
      end
  end.
(** optimize.py 4497-4501: the [while] loop.  A run that finds nothing is repeated for ever;
    [None]: the fuel, one run for every entry and one more, is used up. *)
Fixpoint match_loop (fuel : nat) (pairs : list (nat * nat)) (need found : list nat) : option (list nat) :=
  match need with
  | [] => Some found
  | _ => match fuel with
         | 0 => None
         | S fuel' => let '(need', found') := match_pass pairs need found in match_loop fuel' pairs need' found'
         end
  end.

(** optimize.py 4504-4507: [mapping], as the list of (size, axis) in order, and [mapping[d].pop(0)];
    [None]: KeyError or IndexError. *)
Fixpoint pop_size (d : nat) (avail : list (nat * nat)) : option (nat * list (nat * nat)) :=
  match avail with
  | [] => None
  | (v, i) :: rest =>
      if v =? d then Some (i, rest)
      else match pop_size d rest with
           | Some (k, rest') => Some (k, (v, i) :: rest')
           | None => None
           end
  end.
(** optimize.py 4508-4510: [next_perm]. *)
Fixpoint match_sizes (old : list nat) (avail : list (nat * nat)) : option (list nat) :=
  match old with
  | [] => Some []
  | d :: old' =>
      match pop_size d avail with
      | None => None
      | Some (k, avail') => option_map (cons k) (match_sizes old' avail')
      end
  end.

(** optimize.py 4473-4513 [fuse_transpose_perms_extended] on TRANSPOSE([p]), RESHAPE([a] to [b]),
    TRANSPOSE([q]).  The sequence is reversed when the reshape adds dimensions (4476-4478). *)
Definition fuse_perms_extended (p a b q : list nat) : option (list nat) :=
  let '(first, second) := if length a <? length b then (q, p) else (p, q) in
  let '(old, new) := if length b <? length a then (a, b) else (b, a) in
  let cur :=
    if list_eqb old new then Some first
    else if negb (length old =? length new)
         then option_map argsort (match_loop (S (length new)) (combine old first) new [])
         else option_map (sel first) (match_sizes old (combine new (seq 0 (length new)))) in
  option_map (fun c => sel c second) cur.

(** optimize.py 1206-1217 [_skip_pred] and 1219-1236: what is left of the three operators;
    [Some None]: they are kept, [Some (Some sh)]: RESHAPE to [sh], [None]: an exception or no
    result.  [out] is the shape of the last output. *)
Definition fuse_wrapped_reshape (p a b q out : list nat) : option (option (list nat)) :=
  match is_simple_reshape a b with
  | None => Some None
  | Some _ =>
      match fuse_perms_extended p a b q with
      | None => None
      | Some np => Some (if list_eqb np (np_sort np) then Some out else None)
      end
  end.

(** optimize.py 1197-1204: the three nodes taken from a maximal chain of alternating transposes
    ([true]) and reshapes. *)
Definition wrapped_window {N} (is_transpose : N -> bool) (chain : list N) : option (list N) :=
  match chain with
  | [] => None
  | x :: rest =>
      if (3 <=? length chain) && is_transpose x then Some (firstn 3 chain)
      else if 4 <=? length chain then Some (firstn 3 rest)
      else None
  end.
