(** What the names of submodules have to mean. *)
From Coq Require Import String Ascii List Arith Bool.
From Verif Require Import NamesModel.
Import ListNotations.

(** [m] is [root] or a module somewhere below it *)
Inductive below (root : md) : md -> Prop :=
| below_root : below root root
| below_child m n c : below root m -> In (n, c) (mcs m) -> below root c.
(** the number that digits stand for *)
Fixpoint dec_value (s : str) : nat := match s with [] => 0 | c :: r => (nat_of_ascii c - nat_of_ascii "0") * 10 ^ List.length r + dec_value r end.
Definition number (s : str) : option nat := if isnumeric s then Some (dec_value s) else None.
(** python identifiers *)
Definition ident_char (c : ascii) : bool :=
  let n := nat_of_ascii c in ((65 <=? n) && (n <=? 90)) || ((97 <=? n) && (n <=? 122)) || ((48 <=? n) && (n <=? 57)) || (n =? 95).
Definition ident (s : str) : Prop := match s with [] => False | c :: _ => is_digit c = false /\ forallb ident_char s = true end.
Fixpoint span (k : ascii -> bool) (s : str) : str * str :=
  match s with [] => ([], []) | c :: r => if k c then let '(a, b) := span k r in (c :: a, b) else ([], s) end.
Definition the_child (n : str) (m : md) : option md := match find (fun p => str_eqb n (fst p)) (mcs m) with Some p => Some (snd p) | None => None end.
(** what python makes of attribute accesses, subscripts and calls of [get_submodule] behind an expression for the module [m] *)
Fixpoint py_eval (fuel : nat) (m : md) (s : str) : option md :=
  match fuel with
  | 0 => None
  | S f =>
      match s with
      | [] => Some m
      | "."%char :: r =>
          let '(a, r1) := span ident_char r in
          match a with
          | [] => None
          | c :: _ =>
              if is_digit c then None else
              match r1 with
              | "("%char :: """"%char :: r2 =>
                  if str_eqb a (lit "get_submodule") then
                    let '(n, r3) := span (fun c => negb (Ascii.eqb c """")) r2 in
                    match r3 with
                    | """"%char :: ")"%char :: r4 => if has_char "." n then None else match the_child n m with Some c => py_eval f c r4 | None => None end
                    | _ => None
                    end
                  else None
              | _ => match the_child a m with Some c => py_eval f c r1 | None => None end
              end
          end
      | "["%char :: """"%char :: r =>
          let '(n, r1) := span (fun c => negb (Ascii.eqb c """")) r in
          match mk m, r1 with
          | MDict, """"%char :: "]"%char :: r2 => match the_child n m with Some c => py_eval f c r2 | None => None end
          | _, _ => None
          end
      | "["%char :: r =>
          let '(n, r1) := span is_digit r in
          match mk m, r1 with
          | MSeq, "]"%char :: r2 | MList, "]"%char :: r2 =>
              match number n with Some i => match nth_error (mcs m) i with Some p => py_eval f (snd p) r2 | None => None end | None => None end
          | _, _ => None
          end
      | _ => None
      end
  end.
(** the value of [self.name] where [self] is [root] *)
Definition py_self (root : md) (name : str) : option md := py_eval (S (S (length name))) root ("."%char :: name).

(** no character of the syntax around names *)
Definition clean (s : str) : Prop := s <> [] /\ forall c, In c (lit ".[]()""") -> ~ In c s.
(** names of children; those of lists and numeric ones of sequentials are the positions *)
Definition kids_ok (m : md) : Prop :=
  NoDup (map fst (mcs m)) /\
  forall i n c, nth_error (mcs m) i = Some (n, c) -> clean n /\
    match mk m with
    | MDict => True
    | MList => number n = Some i
    | MSeq => number n = Some i \/ (isnumeric n = false /\ (ident n \/ In "-"%char n))
    | MPlain => ident n \/ In "-"%char n
    end.
(** the children of the root have identifiers as names, and it is no dictionary *)
Definition root_ok (m : md) : Prop := mk m <> MDict /\ forall n c, In (n, c) (mcs m) -> ident n.
Definition names_ok (root : md) : Prop := root_ok root /\ forall m, below root m -> kids_ok m.
(** modules with the same number are the same *)
Definition ids_ok (root : md) : Prop := forall a b, below root a -> below root b -> mid a = mid b -> a = b.
(** the dotted names of [named_modules] *)
Inductive dotted (root : md) : str -> md -> Prop :=
| dotted_first n c : In (n, c) (mcs root) -> dotted root n c
| dotted_next p m n c : dotted root p m -> In (n, c) (mcs m) -> dotted root (p ++ "."%char :: n) c.
