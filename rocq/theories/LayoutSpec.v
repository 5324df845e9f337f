(** Meaning of further operators that refer to axes: slices by begin/size, mirrored padding,
    parts along an axis, packing, reductions, PRELU, gathers with index matrices
    (specification side, documented TFLite semantics). *)
From Coq Require Import List Arith Bool Reals Lia ZArith.
From Verif Require Import Tensor ConvSpec CatSpec.
Import ListNotations.

(** SLICE: begin and size per axis *)
Fixpoint zip_plus (a b : list nat) : list nat :=
  match a, b with x :: a', y :: b' => (x + y) :: zip_plus a' b' | _, _ => [] end.
Definition slice_op {A} (begin size : list nat) (t : tensor A) : tensor A :=
  mkT size (fun idx => tget t (zip_plus begin idx)).

(** MIRROR_PAD in REFLECT mode: the border element is not repeated *)
Definition reflect (d a i : nat) : nat :=
  if i <? a then a - i else if i - a <? d then i - a else 2 * (d - 1) - (i - a).
Fixpoint reflect_idx (sh : list nat) (pads : list (nat * nat)) (idx : list nat) : list nat :=
  match sh, pads, idx with
  | d :: sh', (a, _) :: pads', i :: idx' => reflect d a i :: reflect_idx sh' pads' idx'
  | _, _, _ => []
  end.
Definition mirror_pad {A} (pads : list (nat * nat)) (t : tensor A) : tensor A :=
  mkT (pad_shape (tshape t) pads) (fun idx => tget t (reflect_idx (tshape t) pads idx)).

(** one output of SPLIT / SPLIT_V: [len] positions from [start] along [ax] *)
Definition chunk {A} (ax start len : nat) (t : tensor A) : tensor A :=
  mkT (upd (tshape t) ax len) (fun idx => tget t (upd idx ax (start + nth ax idx 0))).

(** PACK: stack along a new axis; UNPACK: part [j] along an axis that disappears *)
Definition insert_at (ax v : nat) (l : list nat) : list nat := firstn ax l ++ v :: skipn ax l.
Definition remove_at (ax : nat) (l : list nat) : list nat := firstn ax l ++ skipn (S ax) l.
Definition pack {A} (d : A) (ax : nat) (ts : list (tensor A)) : tensor A :=
  mkT (match ts with [] => [] | t :: _ => insert_at ax (length ts) (tshape t) end)
      (fun idx => tget (nth (nth ax idx 0) ts (mkT [] (fun _ => d))) (remove_at ax idx)).
Definition unpack {A} (ax j : nat) (t : tensor A) : tensor A :=
  mkT (remove_at ax (tshape t)) (fun idx => tget t (insert_at ax j idx)).

(** reductions that keep the reduced axes with size 1; [red] is applied to all elements whose
    index agrees with the output index outside [axes] *)
Definition agree_off (axes : list nat) (i j : list nat) : bool :=
  forallb (fun k => existsb (Nat.eqb k) axes || (nth k i 0 =? nth k j 0)) (seq 0 (length i)).
Definition reduce {A B} (red : list A -> B) (axes : list nat) (t : tensor A) : tensor B :=
  mkT (fold_left (fun s k => upd s k 1) axes (tshape t))
      (fun idx => red (map (tget t) (filter (agree_off axes idx) (indices (tshape t))))).

(** PRELU: the weight is broadcast against the operand *)
Definition prelu (x w : tensor R) : option (tensor R) :=
  binop (fun v a => if Rle_dec 0 v then v else (a * v)%R) x w.

(** GATHER with an index tensor of any rank *)
Definition gather_nd {A} (ax : nat) (ix : tensor nat) (t : tensor A) : tensor A :=
  let r := length (tshape ix) in
  mkT (firstn ax (tshape t) ++ tshape ix ++ skipn (S ax) (tshape t))
      (fun idx => tget t (firstn ax idx ++ tget ix (firstn r (skipn ax idx)) :: skipn (ax + r) idx)).

(** padding by signed amounts (negative amounts crop), as [torch.nn.functional.pad] computes it *)
Fixpoint padz_shape (sh : list nat) (pads : list (Z * Z)) : list nat :=
  match sh, pads with
  | d :: sh', (a, b) :: pads' => Z.to_nat (a + Z.of_nat d + b) :: padz_shape sh' pads'
  | _, _ => []
  end.
Fixpoint unpadz (sh : list nat) (pads : list (Z * Z)) (idx : list nat) : option (list nat) :=
  match sh, pads, idx with
  | d :: sh', (a, _) :: pads', i :: idx' =>
      let k := (Z.of_nat i - a)%Z in
      if ((0 <=? k) && (k <? Z.of_nat d))%Z%bool then option_map (cons (Z.to_nat k)) (unpadz sh' pads' idx') else None
  | _, _, _ => Some []
  end.
Definition padz {A} (v : A) (pads : list (Z * Z)) (t : tensor A) : tensor A :=
  mkT (padz_shape (tshape t) pads)
      (fun idx => match unpadz (tshape t) pads idx with Some j => tget t j | None => v end).
