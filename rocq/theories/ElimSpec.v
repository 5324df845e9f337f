(** Specification for the passes that take nodes out of the operator graph: what a graph computes, when
    the graph and its edges agree, and which sequences of nodes may go.  Nothing here refers to the
    functions of the model, only to its records. *)
From Coq Require Import List Arith Bool String.
From Verif Require Import ElimModel.
Import ListNotations.

Section Spec.
Context {X : Type}.
(** [run c xs k]: the [k]-th output of operator [c] on the inputs [xs]. *)
Variable run : nat -> list X -> nat -> X.

Fixpoint position (x : string) (l : list string) : option nat :=
  match l with
  | [] => None
  | y :: l' => if String.eqb x y then Some 0
               else match position x l' with Some k => Some (S k) | None => None end
  end.

(** The vertex that writes a tensor, and at which output. *)
Fixpoint writer (vs : list vertex) (n : string) : option (vertex * nat) :=
  match vs with
  | [] => None
  | v :: vs' => match position n (v_outs v) with Some k => Some (v, k) | None => writer vs' n end
  end.

Fixpoint all {A} (l : list (option A)) : option (list A) :=
  match l with
  | [] => Some []
  | Some a :: l' => match all l' with Some r => Some (a :: r) | None => None end
  | None :: _ => None
  end.

(** The value of a tensor: inputs are given, constants have a buffer, operators run on the values of
    their inputs. *)
Fixpoint eval (g : graph X) (inp : string -> option X) (fuel : nat) (n : string) : option X :=
  match fuel with
  | 0 => None
  | S f =>
      match writer (g_vs g) n with
      | Some (v, k) =>
          match v_kind v with
          | KIn => inp n
          | KConst => g_buf g n
          | KOp => match all (map (eval g inp f) (v_ins v)) with
                   | Some xs => Some (run (v_op v) xs k)
                   | None => None
                   end
          | _ => None
          end
      | None => None
      end
  end.
Definition computes (g : graph X) (inp : string -> option X) (n : string) (x : X) : Prop :=
  exists fuel, eval g inp fuel n = Some x.

(** All inputs of the graph are given. *)
Definition given (g : graph X) (inp : string -> option X) : Prop :=
  forall v n, In v (g_vs g) -> v_kind v = KIn -> In n (v_outs v) -> exists x, inp n = Some x.

(** The graph is in order: one vertex per index and one writer per tensor; an operator has an edge for
    each tensor it reads and an edge says what is read; [tensor_node_map] names the writers; constants
    have buffers; there is no cycle. *)
Record good (g : graph X) : Prop := {
  ok_ids : NoDup (map v_id (g_vs g));
  ok_writer : forall u v n, In u (g_vs g) -> In v (g_vs g) -> In n (v_outs u) -> In n (v_outs v) -> u = v;
  ok_outs : forall v, In v (g_vs g) -> NoDup (v_outs v);
  ok_reads : forall v n, In v (g_vs g) -> v_kind v = KOp -> In n (v_ins v) ->
    exists u, In u (g_vs g) /\ In n (v_outs u) /\ (v_kind u = KIn \/ v_kind u = KConst \/ v_kind u = KOp) /\
              In (mkE (v_id u) (v_id v) n n) (g_es g);
  ok_edge : forall e, In e (g_es g) ->
    exists u v, In u (g_vs g) /\ In v (g_vs g) /\ v_id u = e_src e /\ v_id v = e_dst e /\
                In (e_label e) (v_outs u) /\
                (v_kind u = KIn \/ v_kind u = KConst \/ v_kind u = KOp) /\
                ((v_kind v = KOp /\ e_name e = e_label e /\ In (e_name e) (v_ins v)) \/
                 (is_sink (v_kind v) = true /\ String.prefix (e_label e ++ "_output") (e_name e) = true));
  ok_node : forall v n, In v (g_vs g) -> In n (v_outs v) -> g_node g n = Some (v_id v);
  ok_const : forall v, In v (g_vs g) -> v_kind v = KConst ->
    exists n x, v_outs v = [n] /\ g_buf g n = Some x /\ g_buf g (v_name v) = Some x;
  ok_name : forall u v, In u (g_vs g) -> In v (g_vs g) -> v_kind v = KConst -> In (v_name v) (v_outs u) -> u = v;
  ok_acyclic : exists rank : nat -> nat, forall u v n, In u (g_vs g) -> In v (g_vs g) ->
    In n (v_outs u) -> In n (v_ins v) -> rank (v_id u) < rank (v_id v) }.

(** The results are the same: each output node has the edge it had, from a vertex that writes the tensor,
    each tensor that an output node shows has its value, and the inputs are the same vertices. *)
Definition same_results (g g' : graph X) : Prop :=
  (forall v, In v (g_vs g) -> v_kind v <> KOp -> v_kind v <> KConst -> In v (g_vs g')) /\
  (forall e v, In e (g_es g) -> In v (g_vs g) -> v_id v = e_dst e -> is_sink (v_kind v) = true ->
     (exists i, In (mkE i (e_dst e) (e_name e) (e_label e)) (g_es g')) /\
     forall inp x, given g inp -> computes g inp (e_label e) x -> computes g' inp (e_label e) x).

(** Node [b] is an operator with one output that reads an output of [a] as its input number [ii]. *)
Definition linked (g : graph X) (ii a b : nat) : Prop :=
  exists va vb o, In va (g_vs g) /\ In vb (g_vs g) /\ v_id va = a /\ v_id vb = b /\
    v_kind vb = KOp /\ List.length (v_outs vb) = 1 /\ nth_error (v_ins vb) ii = Some o /\ In o (v_outs va).
(** Nothing but [b] reads what [a] writes. *)
Definition only_to (g : graph X) (a b : nat) : Prop :=
  forall e, In e (g_es g) -> e_src e = a -> e_dst e = b.

Definition has_edit (s : sequence X) : Prop := s_edit s <> None.

(** The nodes that disappear. *)
Definition gone (s : sequence X) : list nat := if s_rf s then s_nodes s else tl (s_nodes s).

(** A chain of nodes, each read by the next one only.  The first node, if it stays as it is, may have
    other readers; if it is edited, it is read once. *)
Definition chain (g : graph X) (ii : nat) (s : sequence X) : Prop :=
  s_rl s = true /\ (if s_rf s then 1 else 2) <= List.length (s_nodes s) /\
  (forall k a b, nth_error (s_nodes s) k = Some a -> nth_error (s_nodes s) (S k) = Some b ->
     linked g ii a b /\ (k <> 0 \/ s_rf s = true \/ has_edit s -> only_to g a b)) /\
  (s_rf s = true -> s_edit s = None) /\
  (s_rf s = true \/ has_edit s -> exists v n o, In v (g_vs g) /\ v_id v = hd 0 (s_nodes s) /\ v_kind v = KOp /\
     v_outs v = [o] /\ nth_error (v_ins v) ii = Some n) /\
  (has_edit s -> List.length (filter (fun e => e_src e =? hd 0 (s_nodes s)) (g_es g)) = 1).

(** The inputs that are replaced are constants used there and nowhere else, the tensors put there are new. *)
Definition edits (g : graph X) (s : sequence X) : Prop :=
  forall c l v i n x, s_edit s = Some (c, l) -> In (i, n, x) l -> In v (g_vs g) -> v_id v = hd 0 (s_nodes s) ->
    g_node g n = None /\ (forall u, In u (g_vs g) -> ~ In n (v_outs u) /\ ~ In n (v_ins u) /\ n <> v_name u) /\
    exists p u, nth_error (v_ins v) i = Some p /\ (forall j, nth_error (v_ins v) j = Some p -> j = i) /\
      In u (g_vs g) /\ v_kind u = KConst /\ In p (v_outs u) /\
      filter (fun e => e_src e =? v_id u) (g_es g) = [mkE (v_id u) (v_id v) p p].

Fixpoint put {A} (i : nat) (x : A) (l : list A) : list A :=
  match l, i with
  | [], _ => []
  | _ :: l', 0 => x :: l'
  | y :: l', S j => y :: put j x l'
  end.

(** The last node computes what stays in its place: the tensor that enters the sequence (the output of the
    first node, if that stays), or the first node with its edit. *)
Definition neutral (g : graph X) (ii : nat) (s : sequence X) : Prop :=
  forall inp vl l, given g inp -> In vl (g_vs g) -> v_id vl = last (s_nodes s) 0 -> v_outs vl = [l] ->
  match s_edit s with
  | None =>
      forall v n x, In v (g_vs g) -> v_id v = (if s_rf s then nth 0 (s_nodes s) 0 else nth 1 (s_nodes s) 0) ->
        nth_error (v_ins v) ii = Some n -> computes g inp n x -> computes g inp l x
  | Some (c, e) =>
      forall v xs x, In v (g_vs g) -> v_id v = hd 0 (s_nodes s) -> Forall2 (computes g inp) (v_ins v) xs ->
        computes g inp l x -> run c (fold_left (fun xs a => put (fst (fst a)) (snd a) xs) e xs) 0 = x
  end.

(** The sequences of one call: no node disappears twice, a first node that stays does not disappear in
    another sequence, and a sequence that disappears as a whole does not come before the one it follows,
    unless something else reads from there too. *)
Record separate (g : graph X) (ii : nat) (l : list (sequence X)) : Prop := {
  sep_gone : NoDup (flat_map gone l);
  sep_first : forall s, In s l -> s_rf s = false -> ~ In (hd 0 (s_nodes s)) (flat_map gone l);
  sep_order : ForallOrdPairs (fun s t => s_rf s = true -> forall u v n,
    In u (g_vs g) -> v_id u = hd 0 (s_nodes s) -> nth_error (v_ins u) ii = Some n ->
    In v (g_vs g) -> In n (v_outs v) -> v_id v <> last (s_nodes t) 0 \/
    exists e, In e (g_es g) /\ e_src e = v_id v /\ e_dst e <> v_id u) l;
  sep_new : NoDup (flat_map (fun s => match s_edit s with Some (_, e) => map (fun a => snd (fst a)) e | None => [] end) l) }.

(** No output node reads the node [i]. *)
Definition inner (g : graph X) (i : nat) : Prop :=
  forall e v, In e (g_es g) -> e_src e = i -> In v (g_vs g) -> v_id v = e_dst e -> is_sink (v_kind v) = false.

(** A node that hands on its first input. *)
Definition hands_on (v : vertex) : Prop :=
  List.length (v_outs v) = 1 /\ forall x xs, run (v_op v) (x :: xs) 0 = x.

(** [v] is an operator that reads an output of [u] first. *)
Definition reads_first (g : graph X) (u v : vertex) : Prop :=
  In u (g_vs g) /\ In v (g_vs g) /\ v_kind v = KOp /\ exists n, nth_error (v_ins v) 0 = Some n /\ In n (v_outs u).

(** The operators of a class, such as all transposes: each has one output, which is read, and if one of the
    class reads it, it does so once. *)
Definition in_line (g : graph X) (cls : vertex -> bool) : Prop :=
  forall v, In v (g_vs g) -> cls v = true ->
    v_kind v = KOp /\ List.length (v_outs v) = 1 /\ (exists n, nth_error (v_ins v) 0 = Some n) /\
    (exists e, In e (g_es g) /\ e_src e = v_id v) /\
    forall w, cls w = true -> reads_first g v w ->
      List.length (filter (fun e => (e_src e =? v_id v) && (e_dst e =? v_id w)) (g_es g)) = 1.

(** A list of at least two operators of the class, each reading the one before it first. *)
Fixpoint run_of (g : graph X) (cls : vertex -> bool) (l : list nat) : Prop :=
  match l with
  | a :: ((b :: _) as l') =>
      (exists u v, v_id u = a /\ v_id v = b /\ cls u = true /\ cls v = true /\ reads_first g u v) /\ run_of g cls l'
  | _ => True
  end.

(** The names of the new tensors of a sequence. *)
Definition names_of (s : sequence X) : list string :=
  match s_edit s with Some (_, e) => map (fun a => snd (fst a)) e | None => [] end.

(** A class of operators that take a tensor and a constant of their own: [act] says what they compute. *)
Definition acting (g : graph X) (cls : vertex -> bool) (act : X -> X -> X) : Prop :=
  forall v, In v (g_vs g) -> cls v = true ->
    v_kind v = KOp /\ (exists d p u, v_ins v = [d; p] /\ d <> p /\ In u (g_vs g) /\ v_kind u = KConst /\ v_outs u = [p] /\
      filter (fun e => e_src e =? v_id u) (g_es g) = [mkE (v_id u) (v_id v) p p]) /\
    forall x y, run (v_op v) [x; y] 0 = act x y.
(** [y] is the constant of [v]. *)
Definition constant_of (g : graph X) (v : vertex) (y : X) : Prop :=
  exists p, nth_error (v_ins v) 1 = Some p /\ g_buf g p = Some y.
Definition constants (g : graph X) (l : list nat) (ps : list X) : Prop :=
  Forall2 (fun i y => exists v, In v (g_vs g) /\ v_id v = i /\ constant_of g v y) l ps.
End Spec.
