(** Model of the names that the tracer gives to submodules: [__tag_nodes] (tinynn/graph/tracer.py 1930-2003) and what looks a
    module up by its name, [get_submodule_with_parent_from_name] (2553-2571).

    Simplified: strings are lists of ascii characters, without newlines; parameters and buffers are left out; a module is a tree in which the same
    module may occur several times with the same number; subclasses of the containers behave like the containers. *)
From Coq Require Import String Ascii List Arith Bool.
Import ListNotations.

Definition str := list ascii.
Definition lit (s : string) : str := list_ascii_of_string s.
(** ModuleList, ModuleDict, Sequential, any other module *)
Inductive mkind := MPlain | MSeq | MList | MDict.
(** [id(m)], the kind, [_modules] *)
Inductive md := Md (i : nat) (k : mkind) (cs : list (str * md)).
Definition mid (m : md) : nat := match m with Md i _ _ => i end.
Definition mk (m : md) : mkind := match m with Md _ k _ => k end.
Definition mcs (m : md) : list (str * md) := match m with Md _ _ cs => cs end.
Fixpoint msize (m : md) : nat :=
  match m with Md _ _ cs => S ((fix go (l : list (str * md)) : nat := match l with [] => 0 | c :: l => msize (snd c) + go l end) cs) end.
(** torch [named_children]: every child once *)
Fixpoint uniq (seen : list nat) (cs : list (str * md)) : list (str * md) :=
  match cs with
  | [] => []
  | c :: cs => if existsb (Nat.eqb (mid (snd c))) seen then uniq seen cs else c :: uniq (mid (snd c) :: seen) cs
  end.
Definition kids (m : md) : list (str * md) := uniq [] (mcs m).

Definition is_digit (c : ascii) : bool := (48 <=? nat_of_ascii c) && (nat_of_ascii c <=? 57).
(** [str.isnumeric] *)
Definition isnumeric (s : str) : bool := match s with [] => false | _ => forallb is_digit s end.
Definition has_char (c : ascii) (s : str) : bool := existsb (Ascii.eqb c) s.
(** 1967-1981: the name of a child *)
Definition child_path (k : mkind) (p n : str) : str :=
  match k with
  | MDict => p ++ lit "[""" ++ n ++ lit """]"
  | _ =>
      if (match k with MSeq | MList => true | _ => false end) && isnumeric n then p ++ lit "[" ++ n ++ lit "]"
      else if 0 <? length p then
        if has_char "." n || has_char "-" n then p ++ lit ".get_submodule(""" ++ n ++ lit """)" else p ++ lit "." ++ n
      else n
  end.
(** [module_original_name_dict]: the entry written last comes first *)
Definition names := list (nat * str).
Fixpoint name_of (d : names) (i : nat) : option str := match d with [] => None | (j, p) :: d => if i =? j then Some p else name_of d i end.
(** 1960-1982; [None]: out of fuel *)
Fixpoint tag_loop (fuel : nat) (q : list (md * str)) (d : names) : option names :=
  match q with
  | [] => Some d
  | (m, p) :: q => match fuel with
                   | 0 => None
                   | S f => tag_loop f (q ++ map (fun c => (snd c, child_path (mk m) p (fst c))) (kids m)) ((mid m, p) :: d)
                   end
  end.
Definition original_names (root : md) : option names := tag_loop (msize root) [(root, [])] [].

(** 1934-1936: one of the replacements *)
Definition replace_char (a : ascii) (s : str) : str := map (fun c => if Ascii.eqb c a then "_"%char else c) s.
(** 1934-1938 *)
Definition unique_name (n : str) : str :=
  let n := replace_char ";" (replace_char "/" (replace_char "-" (replace_char "." n))) in
  if isnumeric n then lit "module_" ++ n else n.

(** * Looking up *)
Fixpoint strip (pat s : str) : option str :=
  match pat, s with
  | [], _ => Some s
  | a :: pat, b :: s => if Ascii.eqb a b then strip pat s else None
  | _ :: _, [] => None
  end.
(** the text before the first [pat] and the rest behind it *)
Fixpoint until (pat s : str) : option (str * str) :=
  match strip pat s with
  | Some r => Some ([], r)
  | None => match s with [] => None | c :: s => match until pat s with Some (a, b) => Some (c :: a, b) | None => None end end
  end.
(** 2556: the first [re.sub], calls of get_submodule become their argument *)
Fixpoint sub_call (fuel : nat) (s : str) : str :=
  match fuel, s with
  | S f, c :: r => match strip (lit "get_submodule(""") s with
                   | Some t => match until (lit """)") t with Some (a, b) => a ++ sub_call f b | None => c :: sub_call f r end
                   | None => c :: sub_call f r
                   end
  | _, _ => []
  end.
(** the text before the first closing bracket, without a quote before it *)
Fixpoint until_br (s : str) : option (str * str) :=
  match s with
  | [] => None
  | c :: r => if Ascii.eqb c "]" then Some ([], r) else
              match strip (lit """]") s with
              | Some b => Some ([], b)
              | None => match until_br r with Some (a, b) => Some (c :: a, b) | None => None end
              end
  end.
(** 2557: the second [re.sub], a subscript with or without quotes becomes a dot and its text *)
Fixpoint sub_index (fuel : nat) (s : str) : str :=
  match fuel, s with
  | S f, c :: r =>
      if Ascii.eqb c "[" then
        match until_br (match strip (lit """") r with Some t => t | None => r end) with
        | Some (a, b) => "."%char :: a ++ sub_index f b
        | None => c :: sub_index f r
        end
      else c :: sub_index f r
  | _, _ => []
  end.
(** [s.split('.')] *)
Fixpoint split_dot (s : str) : list str :=
  match s with
  | [] => [[]]
  | c :: s => if Ascii.eqb c "." then [] :: split_dot s else match split_dot s with w :: ws => (c :: w) :: ws | [] => [[c]] end
  end.
Definition digit (c : ascii) : nat := nat_of_ascii c - 48.
(** [int(s)] for digits *)
Definition int_of (s : str) : option nat := if isnumeric s then Some (fold_left (fun a c => 10 * a + digit c) s 0) else None.
Definition str_eqb (a b : str) : bool := if list_eq_dec ascii_dec a b then true else false.
Fixpoint child_named (n : str) (cs : list (str * md)) : option md :=
  match cs with [] => None | (m, c) :: cs => if str_eqb n m then Some c else child_named n cs end.
(** 2562-2569 *)
Definition get_child (m : md) (n : str) : option md :=
  match mk m with
  | MList => match int_of n with Some i => match nth_error (mcs m) i with Some (_, c) => Some c | None => None end | None => None end
  | _ => child_named n (mcs m)
  end.
Fixpoint walk (cur last : md) (ns : list str) : option (md * md) :=
  match ns with [] => Some (cur, last) | n :: ns => match get_child cur n with Some c => walk c cur ns | None => None end end.
(** 2553-2571: the module and its parent *)
Definition get_submodule (root : md) (name : str) (inplace : bool) : option (md * md) :=
  let s1 := if inplace then sub_call (length name) name else name in
  let s2 := if inplace then sub_index (length s1) s1 else s1 in
  walk root root (split_dot s2).
