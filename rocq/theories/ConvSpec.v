(** Meaning of the numeric operators over the reals: convolution, transposed
    convolution, fully connected layers, batch normalisation, activations, pooling.

    This is the specification side; it follows the documented semantics of the torch /
    TFLite operators and does not cite converter code. *)
From Coq Require Import List Arith Bool Reals Lia Lra.
From Verif Require Import Tensor.
Import ListNotations.
Local Open Scope R_scope.

(** finite sums *)
Definition lsum {A} (l : list A) (f : A -> R) : R := fold_right (fun a s => f a + s) 0 l.
Arguments lsum : simpl never.

(** all multi-indices of a shape *)
Fixpoint indices (s : list nat) : list (list nat) :=
  match s with
  | [] => [[]]
  | d :: s' => flat_map (fun i => map (cons i) (indices s')) (seq 0 d)
  end.

(** Position in the operand read by kernel tap [k] at output position [pos]; [None] in
    the padding.  Arguments per spatial axis: operand size, stride, dilation, padding in front. *)
Fixpoint tap (dims stride dil pad pos k : list nat) : option (list nat) :=
  match dims, stride, dil, pad, pos, k with
  | d :: dims', s :: stride', l :: dil', p :: pad', o :: pos', t :: k' =>
      if (p <=? o * s + t * l)%nat && (o * s + t * l - p <? d)%nat
      then option_map (cons (o * s + t * l - p)%nat) (tap dims' stride' dil' pad' pos' k')
      else None
  | _, _, _, _, _, _ => Some []
  end.
Definition out_dim (d s l pb pe k : nat) : nat := ((d + pb + pe - (l * (k - 1) + 1)) / s + 1)%nat.
Fixpoint out_dims (dims stride dil pb pe ks : list nat) : list nat :=
  match dims, stride, dil, pb, pe, ks with
  | d :: dims', s :: stride', l :: dil', a :: pb', b :: pe', k :: ks' =>
      out_dim d s l a b k :: out_dims dims' stride' dil' pb' pe' ks'
  | _, _, _, _, _, _ => []
  end.

Record conv_attr := mkCA { ca_stride : list nat; ca_dil : list nat;
                           ca_pad : list nat; ca_pad_end : list nat; ca_groups : nat }.

(** value of a tap, zero in the padding; operand [N; C; spatial...] *)
Definition read0 (x : tensor R) (n c : nat) (q : option (list nat)) : R :=
  match q with Some q => tget x (n :: c :: q) | None => 0 end.

(** Convolution, weight [Cout; Cin/groups; kernel...], torch layout. *)
Definition conv (a : conv_attr) (x w : tensor R) (b : nat -> R) : tensor R :=
  let dims := skipn 2 (tshape x) in
  let cout := nth 0 (tshape w) 0%nat in
  let ipg := nth 1 (tshape w) 0%nat in
  let ks := skipn 2 (tshape w) in
  let opg := (cout / ca_groups a)%nat in
  mkT (nth 0 (tshape x) 0%nat :: cout :: out_dims dims (ca_stride a) (ca_dil a) (ca_pad a) (ca_pad_end a) ks)
      (fun idx => match idx with
       | n :: o :: pos =>
           b o + lsum (seq 0 ipg) (fun i => lsum (indices ks) (fun k =>
             tget w (o :: i :: k) *
             read0 x n (o / opg * ipg + i) (tap dims (ca_stride a) (ca_dil a) (ca_pad a) pos k)))
       | _ => 0
       end).

(** Transposed convolution, weight [Cin; Cout/groups; kernel...]: the operand position
    [q] contributes through tap [k] to the output position [q*s + k*l - p]. *)
Fixpoint hits (stride dil pad q k pos : list nat) : bool :=
  match stride, dil, pad, q, k, pos with
  | s :: stride', l :: dil', p :: pad', i :: q', t :: k', o :: pos' =>
      (i * s + t * l =? o + p)%nat && hits stride' dil' pad' q' k' pos'
  | _, _, _, _, _, _ => true
  end.
Definition deconv (a : conv_attr) (oshape : list nat) (x w : tensor R) (b : nat -> R) : tensor R :=
  let dims := skipn 2 (tshape x) in
  let cin := nth 0 (tshape w) 0%nat in
  let opg := nth 1 (tshape w) 0%nat in
  let ks := skipn 2 (tshape w) in
  let ipg := (cin / ca_groups a)%nat in
  mkT (nth 0 (tshape x) 0%nat :: (opg * ca_groups a)%nat :: oshape)
      (fun idx => match idx with
       | n :: o :: pos =>
           b o + lsum (seq 0 ipg) (fun i => lsum (indices ks) (fun k => lsum (indices dims) (fun q =>
             if hits (ca_stride a) (ca_dil a) (ca_pad a) q k pos
             then tget w ((o / opg * ipg + i)%nat :: (o mod opg)%nat :: k) *
                  tget x (n :: (o / opg * ipg + i)%nat :: q)
             else 0)))
       | _ => 0
       end).

(** Fully connected, weight [Cout; Cin], operand [...; Cin] (leading axes are kept). *)
Definition fc (x w : tensor R) (b : nat -> R) : tensor R :=
  mkT (removelast (tshape x) ++ [nth 0 (tshape w) 0%nat])
      (fun idx => b (last idx 0%nat) +
                  lsum (seq 0 (nth 1 (tshape w) 0%nat))
                       (fun i => tget w [last idx 0%nat; i] * tget x (removelast idx ++ [i]))).

(** Batch normalisation with running statistics, channel axis 1. *)
Definition bn_affine (eps gamma beta mean var y : R) : R := (y - mean) / sqrt (var + eps) * gamma + beta.
Definition batch_norm (eps : R) (gamma beta mean var : nat -> R) (y : tensor R) : tensor R :=
  mkT (tshape y) (fun idx => let c := nth 1 idx 0%nat in
                             bn_affine eps (gamma c) (beta c) (mean c) (var c) (tget y idx)).

(** TFLite fused activations. *)
Inductive activ := ANone | ARelu | AReluN1To1 | ARelu6.
Definition act_fn (a : activ) (y : R) : R :=
  match a with
  | ANone => y
  | ARelu => Rmax 0 y
  | AReluN1To1 => Rmin 1 (Rmax (-1) y)
  | ARelu6 => Rmin 6 (Rmax 0 y)
  end.
Definition tmap {A B} (f : A -> B) (t : tensor A) : tensor B := mkT (tshape t) (fun idx => f (tget t idx)).

(* ------------------------------------------------------------------ *)
(** * Facts about sums *)

Lemma lsum_ext {A} (l : list A) f g : (forall a, In a l -> f a = g a) -> lsum l f = lsum l g.
Proof.
  induction l as [|x l IH]; simpl; intro H; [reflexivity|].
  change (f x + lsum l f = g x + lsum l g). rewrite H by auto. rewrite IH; auto.
Qed.
Lemma lsum_nil {A} (f : A -> R) : lsum [] f = 0.
Proof. reflexivity. Qed.
Lemma lsum_cons {A} a (l : list A) f : lsum (a :: l) f = f a + lsum l f.
Proof. reflexivity. Qed.
Lemma lsum_plus {A} (l : list A) f g : lsum l (fun a => f a + g a) = lsum l f + lsum l g.
Proof. induction l; [rewrite !lsum_nil; ring|]. rewrite !lsum_cons, IHl. ring. Qed.
Lemma lsum_scal {A} (l : list A) c f : lsum l (fun a => c * f a) = c * lsum l f.
Proof. induction l; [rewrite !lsum_nil; ring|]. rewrite !lsum_cons, IHl. ring. Qed.
Lemma lsum_scal_r {A} (l : list A) c f : lsum l (fun a => f a * c) = lsum l f * c.
Proof. induction l; [rewrite !lsum_nil; ring|]. rewrite !lsum_cons, IHl. ring. Qed.
Lemma lsum_zero {A} (l : list A) f : (forall a, In a l -> f a = 0) -> lsum l f = 0.
Proof.
  induction l; intro H; [reflexivity|]. rewrite lsum_cons, IHl by (intros; apply H; simpl; auto).
  rewrite H by (simpl; auto). ring.
Qed.
Lemma lsum_app {A} (l m : list A) f : lsum (l ++ m) f = lsum l f + lsum m f.
Proof. induction l; simpl; [rewrite lsum_nil; ring|]. rewrite !lsum_cons, IHl. ring. Qed.
Lemma lsum_map {A B} (g : A -> B) l f : lsum (map g l) f = lsum l (fun a => f (g a)).
Proof. induction l; simpl; [reflexivity|]. rewrite !lsum_cons, IHl. reflexivity. Qed.
Lemma lsum_swap {A B} (l : list A) (m : list B) f :
  lsum l (fun a => lsum m (fun b => f a b)) = lsum m (fun b => lsum l (fun a => f a b)).
Proof.
  induction l; simpl.
  - rewrite lsum_nil. symmetry. apply lsum_zero. intros; apply lsum_nil.
  - rewrite lsum_cons, IHl, <- lsum_plus. apply lsum_ext. reflexivity.
Qed.
Lemma lsum_filter {A} (p : A -> bool) l f :
  lsum (filter p l) f = lsum l (fun a => if p a then f a else 0).
Proof.
  induction l; simpl; [reflexivity|]. rewrite lsum_cons. destruct (p a); [rewrite lsum_cons|]; rewrite IHl; ring.
Qed.
Lemma indices_valid s idx : In idx (indices s) <-> valid s idx.
Proof.
  revert idx. induction s as [|d s IH]; simpl; intro idx.
  - split; [intros [<-|[]]; constructor|]. intro H. inversion H. auto.
  - rewrite in_flat_map. split.
    + intros (i & Hi & H). apply in_map_iff in H. destruct H as (r & <- & Hr).
      apply in_seq in Hi. constructor; [lia|]. now apply IH.
    + intro H. inversion H as [|i ? r ? Hi Hr]; subst. exists i. split; [apply in_seq; lia|].
      apply in_map_iff. exists r. split; auto. now apply IH.
Qed.

(* ------------------------------------------------------------------ *)
(** * Windowed operators in TFLite layout *)

(** Operand [N; spatial...; C].  [F o win] computes output channel [o] from the window:
    for every kernel tap the values of all channels, [None] in the padding. *)
Definition windowed {A B} (F : nat -> list (list (option A)) -> B) (odims : list nat) (cout : nat)
  (stride dil pad ks : list nat) (x : tensor A) : tensor B :=
  let dims := removelast (tl (tshape x)) in
  let cin := last (tshape x) 0%nat in
  mkT (nth 0 (tshape x) 0%nat :: odims ++ [cout])
      (fun idx =>
         let n := nth 0 idx 0%nat in
         let pos := removelast (tl idx) in
         F (last idx 0%nat)
           (map (fun k => map (fun c =>
               option_map (fun q => tget x (n :: q ++ [c])) (tap dims stride dil pad pos k))
             (seq 0 cin)) (indices ks))).

(** Padding schemes of TFLite (kernels/padding.h): VALID and SAME. *)
Definition valid_out (d s l k : nat) : nat := ((d - (l * (k - 1) + 1)) / s + 1)%nat.
Definition same_out (d s : nat) : nat := cdiv d s.
Definition same_before (d s l k : nat) : nat := (((same_out d s - 1) * s + (l * (k - 1) + 1) - d) / 2)%nat.
Fixpoint valid_outs (dims stride dil ks : list nat) : list nat :=
  match dims, stride, dil, ks with
  | d :: dims', s :: stride', l :: dil', k :: ks' => valid_out d s l k :: valid_outs dims' stride' dil' ks'
  | _, _, _, _ => []
  end.
Fixpoint same_outs (dims stride : list nat) : list nat :=
  match dims, stride with
  | d :: dims', s :: stride' => same_out d s :: same_outs dims' stride'
  | _, _ => []
  end.
Fixpoint same_befores (dims stride dil ks : list nat) : list nat :=
  match dims, stride, dil, ks with
  | d :: dims', s :: stride', l :: dil', k :: ks' => same_before d s l k :: same_befores dims' stride' dil' ks'
  | _, _, _, _ => []
  end.
Definition op_valid {A B} F cout stride dil ks (x : tensor A) : tensor B :=
  let dims := removelast (tl (tshape x)) in
  windowed F (valid_outs dims stride dil ks) cout stride dil (map (fun _ => 0%nat) dims) ks x.
Definition op_same {A B} F cout stride dil ks (x : tensor A) : tensor B :=
  let dims := removelast (tl (tshape x)) in
  windowed F (same_outs dims stride) cout stride dil (same_befores dims stride dil ks) ks x.

(** PAD / PADV2: [pads] gives for every axis the amounts in front and behind. *)
Fixpoint unpad (sh : list nat) (pads : list (nat * nat)) (idx : list nat) : option (list nat) :=
  match sh, pads, idx with
  | d :: sh', (a, _) :: pads', i :: idx' =>
      if (a <=? i)%nat && (i - a <? d)%nat then option_map (cons (i - a)%nat) (unpad sh' pads' idx') else None
  | _, _, _ => Some []
  end.
Fixpoint pad_shape (sh : list nat) (pads : list (nat * nat)) : list nat :=
  match sh, pads with
  | d :: sh', (a, b) :: pads' => (a + d + b)%nat :: pad_shape sh' pads'
  | _, _ => []
  end.
Definition pad_op {A} (v : A) (pads : list (nat * nat)) (t : tensor A) : tensor A :=
  mkT (pad_shape (tshape t) pads)
      (fun idx => match unpad (tshape t) pads idx with Some j => tget t j | None => v end).

(** Kernels: CONV_2D / CONV_3D (weight [Cout; kernel...; Cin/groups]), DEPTHWISE_CONV_2D
    (weight [1; kernel...; Cout]), MAX_POOL_2D. *)
Definition val0 (o : option R) : R := match o with Some v => v | None => 0 end.
Definition conv_kernel (w : tensor R) (b : nat -> R) (cin : nat) (o : nat) (win : list (list (option R))) : R :=
  let ipg := last (tshape w) 0%nat in
  let ks := removelast (tl (tshape w)) in
  let opg := (nth 0 (tshape w) 0 / (cin / ipg))%nat in
  b o + lsum (combine (indices ks) win) (fun kv =>
          lsum (seq 0 ipg) (fun i => tget w (o :: fst kv ++ [i]) * val0 (nth (o / opg * ipg + i) (snd kv) None))).
Definition depthwise_kernel (w : tensor R) (b : nat -> R) (cin : nat) (o : nat) (win : list (list (option R))) : R :=
  let ks := removelast (tl (tshape w)) in
  let mult := (last (tshape w) 0 / cin)%nat in
  b o + lsum (combine (indices ks) win) (fun kv => tget w (0%nat :: fst kv ++ [o]) * val0 (nth (o / mult) (snd kv) None)).
(** maximum over the taps that are not padding *)
Definition omax (a b : option R) : option R :=
  match a, b with
  | Some x, Some y => Some (Rmax x y)
  | None, o => o
  | o, None => o
  end.
Definition maxpool_kernel (o : nat) (win : list (list (option R))) : option R :=
  fold_right (fun vs m => omax (nth o vs None) m) None win.

(* ------------------------------------------------------------------ *)
(** * Broadcasting binary operators (numpy / TFLite rules) and TILE *)

Definition bdim (a b : nat) : option nat :=
  if (a =? b)%nat then Some a else if (a =? 1)%nat then Some b else if (b =? 1)%nat then Some a else None.
(** shapes are aligned at the last axis: compare reversed lists *)
Fixpoint bshape_rev (a b : list nat) : option (list nat) :=
  match a, b with
  | [], _ => Some b
  | _, [] => Some a
  | x :: a', y :: b' =>
      match bdim x y, bshape_rev a' b' with
      | Some d, Some r => Some (d :: r)
      | _, _ => None
      end
  end.
Definition bshape (a b : list nat) : option (list nat) := option_map (@rev nat) (bshape_rev (rev a) (rev b)).
(** index into an operand of shape [s]: drop the missing leading axes, stay at 0 on axes of size 1 *)
Fixpoint bidx_rev (s idx : list nat) : list nat :=
  match s, idx with
  | d :: s', i :: idx' => (if (d =? 1)%nat then 0%nat else i) :: bidx_rev s' idx'
  | _, _ => []
  end.
Definition bidx (s idx : list nat) : list nat := rev (bidx_rev (rev s) (rev idx)).
Definition binop {A B C} (f : A -> B -> C) (x : tensor A) (y : tensor B) : option (tensor C) :=
  match bshape (tshape x) (tshape y) with
  | Some s => Some (mkT s (fun idx => f (tget x (bidx (tshape x) idx)) (tget y (bidx (tshape y) idx))))
  | None => None
  end.

Fixpoint zipmul (a b : list nat) : list nat :=
  match a, b with x :: a', y :: b' => (x * y)%nat :: zipmul a' b' | _, _ => [] end.
Fixpoint modidx (s idx : list nat) : list nat :=
  match s, idx with d :: s', i :: idx' => (i mod d)%nat :: modidx s' idx' | _, _ => [] end.
Definition tile {A} (m : list nat) (t : tensor A) : tensor A :=
  mkT (zipmul (tshape t) m) (fun idx => tget t (modidx (tshape t) idx)).
