(** What the NetAdapt pruner has to find. *)
From Coq Require Import List ZArith QArith Bool.
From Verif Require Import NetAdaptModel.
Import ListNotations.
Local Open Scope Z_scope.

(** a number of channels that may stay of [n]: a multiple of [m] below [n] *)
Definition allowed (n m c : Z) : Prop := 0 < c < n /\ (m | c).
(** [c] is the largest allowed number whose operations are below the target, and [f] is their number *)
Definition least_cut (flops : Z -> Z) (n m : Z) (target : Q) (c f : Z) : Prop :=
  allowed n m c /\ f = flops c /\ (inject_Z f < target)%Q /\
  forall c', allowed n m c' -> c < c' -> ~ (inject_Z (flops c') < target)%Q.
(** the number of operations is a polynomial of degree two in the number of channels *)
Definition quadratic (flops : Z -> Z) (n a b k : Z) : Prop := forall c, 0 < c <= n -> flops c = a * c * c + b * c + k.

(** A layer of a network from whose [n] channels all but [c] are removed: [li], [lo] say whether its input, its output
    has these channels. *)
Inductive fits (n : Z) : flayer -> bool -> bool -> Prop :=
| fit_conv s ci co k b (li lo : bool) : (li = true -> ci = n) -> (lo = true -> co = n) -> 0 < ci -> 0 < co ->
    fits n (LConv (s * co) ci co 1 k b) li lo
| fit_depthwise s k b : fits n (LConv (s * n) n n n k b) true true
| fit_grouped s ci co g k b (lo : bool) : (lo = true -> co = n) -> 0 < g -> 0 < co -> ci <> g ->
    fits n (LConv (s * co) ci co g k b) false lo
| fit_bn s f (li lo : bool) : (li = true -> f = n) -> 0 < f -> fits n (LBn (s * f) f) li lo
| fit_unary s f (li lo : bool) : (li = true -> f = n) -> 0 < f -> fits n (LUnary (s * f) f) li lo
| fit_lin s fi fo (li lo : bool) : (li = true -> fi = n) -> (lo = true -> fo = n) -> 0 < fo -> fits n (LLin (s * fo) fi fo) li lo
| fit_other li lo : fits n LOther li lo.
(** no layer but a depthwise convolution has the channels both in its input and in its output *)
Definition one_sided (l : flayer) (li lo : bool) : Prop :=
  match l with
  | LConv _ ci co g _ _ => li = true -> lo = true -> ci = g /\ g = co /\ 1 < g
  | LLin _ _ _ => li = true -> lo = true -> False
  | _ => True
  end.
Definition removed (n c : Z) (linked : bool) : Z := if linked then n - c else 0.
Definition masked (n c : Z) (ls : list (flayer * (bool * bool))) : list (flayer * (Z * Z)) :=
  map (fun e => (fst e, (removed n c (fst (snd e)), removed n c (snd (snd e))))) ls.
(** the operations of the network with [c] of the [n] channels *)
Definition network_flops (n : Z) (ls : list (flayer * (bool * bool))) (c : Z) : Z :=
  match calc_flops (masked n c ls) with Some f => f | None => 0 end.
(** the layer with [rin] input and [rout] output channels less, on correspondingly smaller tensors *)
Definition smaller (l : flayer) (rin rout : Z) : flayer :=
  match l with
  | LConv e ci co g k b => LConv (e / co * (co - rout)) (ci - rin) (co - rout) (if (ci =? g) && (g =? co) then ci - rin else g) k b
  | LBn e f => LBn (e / f * (f - rin)) (f - rin)
  | LUnary e c => LUnary (e / c * (c - rin)) (c - rin)
  | LLin e fi fo => LLin (e / fo * (fo - rout)) (fi - rin) (fo - rout)
  | LOther => LOther
  end.
Definition channels_left (l : flayer) (rin rout : Z) : Prop :=
  match l with
  | LConv _ ci co g _ _ => co <> 0 /\ g <> 0 /\ co - rout <> 0 /\ ci - rin <> 0 /\ (ci = g -> g = co -> rin = rout)
  | LBn _ f => f <> 0 /\ f - rin <> 0
  | LUnary _ c => c <> 0 /\ c - rin <> 0
  | LLin _ _ fo => fo <> 0 /\ fo - rout <> 0
  | LOther => True
  end.

(** * The rounds *)
(** every plan stays below the target it was made for *)
Definition keeps_target (jobs : nat -> Q -> list job) : Prop := forall it t a f, In (a, Some f) (jobs it t) -> (inject_Z f < t)%Q.
(** a subgraph without a plan has accuracy -1, every other more *)
Definition accuracies_above (jobs : nat -> Q -> list job) : Prop :=
  forall it t a o, In (a, o) (jobs it t) -> match o with None => a = (-1)%Q | Some _ => (-1 < a)%Q end.
(** the flops after each round: below those before, and those of a subgraph with the highest accuracy *)
Fixpoint falling (jobs : nat -> Q -> list job) (r d : Q) (budget : Z) (it : nat) (cur : Z) (trace : list Z) : Prop :=
  match trace with
  | [] => True
  | f :: trace => budget < cur /\ f < cur /\
      (exists a, In (a, Some f) (jobs it (round_target r d it cur)) /\ forall j, In j (jobs it (round_target r d it cur)) -> (fst j <= a)%Q) /\
      falling jobs r d budget (S it) f trace
  end.
(** the flops at the end *)
Definition final (cur : Z) (trace : list Z) : Z := last trace cur.
