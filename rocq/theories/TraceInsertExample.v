(* Small traced graphs for the insertions between and in front of nodes. *)
From Coq Require Import List Arith Bool.
From Verif Require Import TraceSpec TraceExample.
Import ListNotations.

(* y = relu(x.chunk(2)[1]), y = [y, x.argmax()] *)
Definition returned : graph := of_table [
    mknode KIn [] [1; 3] [] [TT 0] [] 0 false;
    mknode (KFun true [mkref false 0 []]) [0] [2] [0] [TT 1; TT 2] [[]] 0 false;
    mknode KMod [1] [4] [2] [TT 3] [[1]] 0 false;
    mknode (KFun true [mkref false 0 []]) [0] [4] [0] [TT 4] [[]] 0 false;
    mknode KOut [2; 3] [] [3; 4] [] [[]; []] 0 true]
  [0] [1; 2; 3] [4] [] 5.

Lemma returned_linked : linked returned.
Proof. now apply of_table_linked. Qed.

(* y = stack([c[0], c[1], relu(x)]) with c = x.chunk(2) *)
Definition stacked : graph := of_table [
    mknode KIn [] [1; 2] [] [TT 0] [] 0 false;
    mknode (KFun true [mkref false 0 []]) [0] [3] [0] [TT 1; TT 2] [[]] 0 false;
    mknode KMod [0] [3] [0] [TT 3] [[]] 0 false;
    mknode (KFun false [mkref false 1 [0]; mkref false 1 [1]; mkref false 2 []])
      [1; 1; 2] [4] [1; 2; 3] [TT 4] [[0]; [1]; []] 0 false;
    mknode KOut [3] [] [4] [] [[]] 0 false]
  [0] [1; 2; 3] [4] [] 5.

Lemma stacked_linked : linked stacked.
Proof. now apply of_table_linked. Qed.

(* y = module(c[0], c[1]) with c = x.chunk(2) *)
Definition binary : graph := of_table [
    mknode KIn [] [1] [] [TT 0] [] 0 false;
    mknode (KFun true [mkref false 0 []]) [0] [2] [0] [TT 1; TT 2] [[]] 0 false;
    mknode KMod [1; 1] [3] [1; 2] [TT 3] [[0]; [1]] 0 false;
    mknode KOut [2] [] [3] [] [[]] 0 false]
  [0] [1; 2] [3] [] 4.

Lemma binary_linked : linked binary.
Proof. now apply of_table_linked. Qed.

(* y = argmax(c[0]) with c = x.chunk(2) *)
Definition indexed : graph := of_table [
    mknode KIn [] [1] [] [TT 0] [] 0 false;
    mknode (KFun true [mkref false 0 []]) [0] [2] [0] [TT 1; TT 2] [[]] 0 false;
    mknode (KFun false [mkref false 1 [0]]) [1] [3] [1] [TT 3] [[0]] 0 false;
    mknode KOut [2] [] [3] [] [[]] 0 false]
  [0] [1; 2] [3] [] 4.

Lemma indexed_linked : linked indexed.
Proof. now apply of_table_linked. Qed.

(* r = relu(x); y = first(r.data) + second(r), all modules *)
Definition shared : graph := of_table [
    mknode KIn [] [1] [] [TT 0] [] 0 false;
    mknode KMod [0] [2; 4] [0] [TT 1] [[]] 0 false;
    mknode (KFun true [mkref false 1 []]) [1] [3] [1] [TT 2] [[]] 0 false;
    mknode KMod [2] [5] [2] [TT 3] [[]] 0 false;
    mknode KMod [1] [5] [1] [TT 4] [[]] 0 false;
    mknode (KFun false [mkref false 3 []; mkref false 4 []]) [3; 4] [6] [3; 4] [TT 5] [[]; []] 0 false;
    mknode KOut [5] [] [5] [] [[]] 0 false]
  [0] [1; 2; 3; 4; 5] [6] [] 6.

Lemma shared_linked : linked shared.
Proof. now apply of_table_linked. Qed.

(* a call returns a tree, a call of an inserted node its argument *)
Definition with_id (w : nat) (x : nat) (vs : list tree) : option tree :=
  if w <=? x then call1 (fun v => Some v) vs else call x vs.
(* the first call splits its argument into two, as chunk does *)
Definition splits (w : nat) (x : nat) (vs : list tree) : option tree :=
  if x =? 1 then Some (Tree x [Tree 10 vs; Tree 11 vs]) else with_id w x vs.

(* the value of a computation that succeeds *)
Definition is_some {A} (o : option A) : bool := match o with Some _ => true | None => false end.
Definition get {A} (d : A) (o : option A) : A := match o with Some a => a | None => d end.
Lemma got : forall A (d : A) o, is_some o = true -> o = Some (get d o).
Proof. intros A d [a|] H; [reflexivity|discriminate]. Qed.
Definition nothing : prog := mkprog [] [] [].
