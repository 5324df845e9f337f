(* The QuantStub and DeQuantStub nodes around the operators without a
   quantized kernel, /repo/tinynn/graph/quantization/quantizer.py:2698-2834.
   The simplifications of TraceModel.v hold here too: a stub is a module, its
   name is a new number. *)
From Coq Require Import List Arith Bool.
From Verif Require Import TraceSpec TraceModel TraceInsertModel.
Import ListNotations.

(* a `for` loop over [l] that may raise, as in quantizer.py:2699, 2724, 2744, 2814 *)
Fixpoint fold_opt {S A} (f : S -> A -> option S) (l : list A) (s : S) : option S :=
  match l with [] => Some s | a :: t => bind (f s a) (fold_opt f t) end.

(* quantizer.py:2707-2722, 2754-2766: `prev_tensor_ptrs`, the tensors of [outs] among
   [prevt] without repetitions *)
Definition among (outs : list item) (t : nat) : bool :=
  existsb (fun it => match it with TT s => t =? s | TL ts => mem t ts | TN _ => false end) outs.
Definition shared_ptrs (outs : list item) (prevt : list nat) : list nat :=
  distinct [] (filter (among outs) prevt).

(* quantizer.py:2724-2741, 2768-2785: one tensor between [p] and [y]; the table is
   `node_map` *)
Definition stub_one (p y : nat) (st : graph * list (nat * nat)) (ptr : nat) : option (graph * list (nat * nat)) :=
  let '(g, m) := st in
  match assoc m ptr with
  | Some w => bind (insert_existing g p y w true (Some [ptr])) (fun h => Some (h, m))
  | None => bind (insert_between g p y KMod None true (Some [ptr])) (fun h => Some (h, (ptr, g_fresh g) :: m))
  end.

(* quantizer.py:2707-2741, 2754-2785: all tensors between [p] and [y] *)
Definition stub_link (p y : nat) (st : graph * list (nat * nat)) : option (graph * list (nat * nat)) :=
  fold_opt (stub_one p y)
    (shared_ptrs (n_nextt (g_node (fst st) p)) (n_prevt (g_node (fst st) y))) st.

(* quantizer.py:2704-2741: the QuantStub nodes behind [x]; [prop] are the
   properties such as `.shape` (2708) *)
Definition quant_behind (prop : nat -> bool) (g : graph) (x : nat) : option graph :=
  bind (fold_opt (fun st y => if prop y then Some st else stub_link x y st)
          (distinct [] (n_nexts (g_node g x))) (g, [])) (fun st => Some (fst st)).

(* quantizer.py:2745-2785: the DeQuantStub nodes in front of [x]; [nums] are
   the nodes of kind shape, device, size or dtype (2751) *)
Definition dequant_before (nums : nat -> bool) (g : graph) (x : nat) : option graph :=
  if n_rev (g_node g x) then None else
  bind (fold_opt (fun st p => if nums p then Some st else stub_link p x st)
          (distinct [] (n_prevs (g_node g x))) (g, [])) (fun st => Some (fst st)).

(* quantizer.py:2698-2785: all operators [us] without a quantized kernel, in forward order *)
Definition quant_all (prop : nat -> bool) (g : graph) (us : list nat) : option graph :=
  fold_opt (quant_behind prop) (rev us) g.
Definition dequant_all (nums : nat -> bool) (g : graph) (us : list nat) : option graph :=
  fold_opt (dequant_before nums) us g.
Definition stubs (prop nums : nat -> bool) (g : graph) (us : list nat) : option graph :=
  bind (quant_all prop g us) (fun h => dequant_all nums h us).

(* quantizer.py:2788-2809: [kind] is Some true for a QuantStub and Some false
   for a DeQuantStub; [stays] is the case of 2795-2806 in which an operator on
   `skip_types` is quantized by the layer-wise configuration *)
Definition opposite (kind : nat -> option bool) (x y : nat) : bool :=
  match kind x, kind y with Some a, Some b => negb (Bool.eqb a b) | _, _ => false end.
Definition stub_pairs (kind : nat -> option bool) (stays : nat -> nat -> bool) (g : graph) : list (nat * nat) :=
  flat_map (fun x => match find (opposite kind x) (n_nexts (g_node g x)) with
                     | Some y => if stays x y then [] else [(x, y)]
                     | None => []
                     end) (g_fwd g).

(* quantizer.py:2814-2819: a pair without branches; the others are kept for
   later *)
Definition drop_link (st : graph * list (nat * nat)) (xy : nat * nat) : option (graph * list (nat * nat)) :=
  let '(g, later) := st in
  let '(x, y) := xy in
  if (length (n_nexts (g_node g x)) =? 1) && (length (n_prevs (g_node g y)) =? 1)
  then bind (remove_node g y) (fun h => bind (remove_node h x) (fun k => Some (k, later)))
  else Some (g, later ++ [(x, y)]).

(* quantizer.py:2822-2834: [quiet] are the nodes of kind shape, device, size or
   dtype *)
Definition drop_branch (kind : nat -> option bool) (quiet : nat -> bool) (g : graph) (xy : nat * nat) : option graph :=
  let x := fst xy in
  if forallb (fun n => opposite kind x n || quiet n) (n_nexts (g_node g x))
  then bind (remove_node g x) (fun h =>
    fold_opt (fun k n => match kind n with Some _ => remove_node k n | None => Some k end) (n_nexts (g_node h x)) h)
  else Some g.

(* quantizer.py:2811-2834 *)
Definition drop_pairs (kind : nat -> option bool) (quiet : nat -> bool) (stays : nat -> nat -> bool) (g : graph) : option graph :=
  bind (fold_opt drop_link (stub_pairs kind stays g) (g, [])) (fun st =>
  fold_opt (drop_branch kind quiet) (snd st) (fst st)).
