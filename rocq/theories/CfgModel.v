(** Model of the files for the converter and of the inputs of the converter: tinynn/util/converter_util.py (14-233) and
    tinynn/converter/base.py ([init_flatten_inputs] 329-336, [init_input_transpose] 338-348, dump of the configuration 271-280,
    [inputs_for_tflite] 630-643).

    Simplified: writing and reading JSON keeps the dictionary; tensors are shapes, types and elements; torch types are those numpy
    has, quantized ones and others; models return tensors or lists of tensors; that a list passed as flags holds only
    booleans and [None] is assumed. *)
From Coq Require Import String List Arith Bool ZArith.
Import ListNotations.

(** a type of torch: one numpy has, a quantized one that is stored as such a type, or one numpy does not have (bfloat16) *)
Inductive cdt := DNp (n : nat) | DQ (n : nat) | DExt (n : nat).
(** tensors and arrays: shape, type, elements *)
Record cten := mkCT { c_shape : list nat; c_dt : cdt; c_at : list nat -> Z }.
(** 31-39: the name written: [numpy()] raises for quantized types and for types numpy does not have *)
Inductive ctype := TNp (n : nat) | TExt (n : nat).
Definition type_name (d : cdt) : ctype := match d with DNp n | DQ n => TNp n | DExt n => TExt n end.
(** one entry: shape (inputs only), type, transpose *)
Record centry := mkCE { ce_shape : option (list nat); ce_type : ctype; ce_trans : bool }.
(** 27-44; [zip] stops at the shorter list *)
Definition tensor_config (ts : list cten) (flags : list (option bool)) (with_shape : bool) : list centry :=
  map (fun p => mkCE (if with_shape then Some (c_shape (fst p)) else None) (type_name (c_dt (fst p)))
                     (match snd p with Some b => b | None => List.length (c_shape (fst p)) =? 4 end)) (combine ts flags).
(** flags given by the caller: a list, a tuple, or one value *)
Inductive targ := TList (l : list (option bool)) | TTup (l : list (option bool)) | TOne (b : option bool).
Definition is_some {A} (x : option A) : bool := match x with Some _ => true | None => false end.
(** 73-79, 81-87: the length that is checked and the one that is used *)
Definition arg_flags (a : targ) (len times : nat) : option (list (option bool)) :=
  match a with
  | TList l | TTup l => if (List.length l =? len) && forallb is_some l then Some l else None
  | TOne b => Some (repeat b times)
  end.
(** python: [str.replace] of a pattern; [skip] characters belong to the last match *)
Fixpoint replace_from (pat new : string) (skip : nat) (s : string) : string :=
  match s with
  | EmptyString => EmptyString
  | String c r => match skip with
                  | S k => replace_from pat new k r
                  | O => if prefix pat s then new ++ replace_from pat new (String.length pat - 1) r else String c (replace_from pat new 0 r)
                  end
  end.
Definition replace_all (pat new s : string) : string := replace_from pat new 0 s.
Record config := mkCfg { cf_src : string; cf_dst : string; cf_ins : list centry; cf_outs : list centry }.
(** 47-105: the path of the file and what is in it; [None]: an assertion; 85 takes the number of inputs for the outputs *)
Definition generate_config (ins outs : list cten) (it ot : targ) (export : string) (tfl cfg : option string) : option (string * config) :=
  match arg_flags it (List.length ins) (List.length ins), arg_flags ot (List.length outs) (List.length ins) with
  | Some fi, Some fo =>
      Some (match cfg with Some p => p | None => replace_all ".pt" ".json" export end,
            mkCfg export (match tfl with Some p => p | None => replace_all ".pt" ".tflite" export end)
                  (tensor_config ins fi true) (tensor_config outs fo false))
  | _, _ => None
  end.
(** what a model returns *)
Inductive citem := IT (t : cten) | IL (l : list cten) | IOther.
(** 154-163: nested outputs are unpacked once *)
Definition flat_outs (os : list citem) : list cten := flat_map (fun o => match o with IT t => [t] | IL l => l | IOther => [] end) os.
(** 108-165 after the model is traced, run and saved as [export] *)
Definition export_files (ins : list cten) (os : list citem) (it ot : targ) (export : string) : option (string * config) :=
  generate_config ins (flat_outs os) it ot export None None.

(** numpy [transpose], torch [permute]: axis [k] of the result is axis [nth k axes] of the argument *)
Definition index_of (j : nat) (axes : list nat) : nat :=
  (fix go (l : list nat) := match l with [] => 0 | a :: l => if a =? j then 0 else S (go l) end) axes.
Definition permute (axes : list nat) (t : cten) : option cten :=
  if List.length (c_shape t) =? List.length axes then
    Some (mkCT (map (fun a => nth a (c_shape t) 0) axes) (c_dt t)
               (fun idx => c_at t (map (fun j => nth (index_of j axes) idx 0) (seq 0 (List.length axes)))))
  else None.
Fixpoint all_of {A} (l : list (option A)) : option (list A) :=
  match l with [] => Some [] | Some x :: l => match all_of l with Some r => Some (x :: r) | None => None end | None :: _ => None end.
(** 182-192: zeros; [None]: numpy does not know the type or the axes do not fit *)
Definition input_array (e : centry) : option cten :=
  match ce_shape e, ce_type e with
  | Some s, TNp n => if ce_trans e then permute [0; 2; 3; 1] (mkCT s (DNp n) (fun _ => 0%Z)) else Some (mkCT s (DNp n) (fun _ => 0%Z))
  | _, _ => None
  end.
(** 195-200 *)
Definition to_torch (p : cten * bool) : option cten := if snd p then permute [0; 3; 1; 2] (fst p) else Some (fst p).
(** 203-233: model, tflite model, input flags, inputs, output flags; without [prepare_inputs] the flags are never assigned (233) *)
Definition parse_config (c : config) (prepare : bool) : option (string * string * list bool * list cten * list bool) :=
  if prepare then
    let flags := map ce_trans (cf_ins c) in
    match all_of (map input_array (cf_ins c)) with
    | Some arrs => match all_of (map to_torch (combine arrs flags)) with
                   | Some ts => Some (cf_src c, cf_dst c, flags, ts, map ce_trans (cf_outs c))
                   | None => None
                   end
    | None => None
    end
  else None.

(** * The converter *)
(** base.py 329-336 *)
Definition flat_inputs (ds : list citem) : list citem := flat_map (fun d => match d with IL l => map IT l | x => [x] end) ds.
(** base.py 342-347 for one input *)
Definition default_flag (t : citem) : bool := match t with IT t => List.length (c_shape t) =? 4 | _ => false end.
(** base.py 342-347; [None]: the list is too short, or an item of a tuple is assigned *)
Fixpoint fill_flags (tup : bool) (ts : list citem) (l : list (option bool)) : option (list (option bool)) :=
  match ts, l with
  | [], _ => Some l
  | _ :: _, [] => None
  | t :: ts, f :: l =>
      if tup && negb (is_some f) then None else
      match fill_flags tup ts l with Some r => Some (Some (match f with Some b => b | None => default_flag t end) :: r) | None => None end
  end.
(** base.py 338-348: the flags of the converter, and what the argument of the caller is afterwards: a list is written to *)
Definition init_transpose (a : targ) (ts : list citem) : option (list (option bool) * targ) :=
  match a with
  | TOne b => match fill_flags false ts (repeat b (List.length ts)) with Some r => Some (r, a) | None => None end
  | TList l => match fill_flags false ts l with Some r => Some (r, TList r) | None => None end
  | TTup l => match fill_flags true ts l with Some r => Some (r, a) | None => None end
  end.
(** base.py 271-280, with converter_util.py 73-75: the inputs as they were passed, with the flags of the unpacked ones *)
Definition dump_flags (ds : list citem) (flags : list (option bool)) : option (list (option bool)) :=
  arg_flags (TList flags) (List.length ds) (List.length ds).
(** base.py 630-643; [None]: a list has no [detach], or the axes do not fit; a flag [None] is no transpose *)
Definition inputs_for_tflite (ds : list citem) (flags : list (option bool)) : option (list cten) :=
  all_of (map (fun p => match p with
                        | (IT t, Some true) => permute [0; 2; 3; 1] t
                        | (IT t, _) => Some t
                        | _ => None
                        end) (combine ds flags)).
