(** What the files for the converter have to say and what its inputs have to be. *)
From Coq Require Import String List Arith Bool ZArith.
From Verif Require Import CfgModel.
Import ListNotations.

(** the flags a caller asks for: its own, or the tensors with four dimensions *)
Definition own (f : option bool) (t : cten) : bool := match f with Some b => b | None => List.length (c_shape t) =? 4 end.
Definition asked (a : targ) (ts : list cten) (flags : list bool) : Prop :=
  match a with
  | TList l | TTup l => Forall2 (fun f b => f = Some b) l flags /\ List.length l = List.length ts
  | TOne f => flags = map (own f) ts
  end.
(** only tensors of four dimensions can be transposed, and numpy has the types *)
Definition usable (a : targ) (ts : list cten) : Prop :=
  Forall (fun t => match c_dt t with DExt _ => False | _ => True end) ts /\
  forall flags, asked a ts flags -> Forall2 (fun t (b : bool) => b = true -> List.length (c_shape t) = 4) ts flags.
(** zeros of the same shape, of the type that the tensor is stored with *)
Definition zeros_like (t z : cten) : Prop :=
  c_shape z = c_shape t /\ c_dt z = match c_dt t with DQ n => DNp n | d => d end /\ forall i, c_at z i = 0%Z.
(** the text occurs *)
Definition has (pat s : string) : Prop := exists a b, s = (a ++ pat ++ b)%string.

(** an array as TFLite wants it: channels last *)
Definition channels_last (t a : cten) : Prop :=
  exists n c h w, c_shape t = [n; c; h; w] /\ c_shape a = [n; h; w; c] /\ c_dt a = c_dt t /\ forall i j k l, c_at a [i; k; l; j] = c_at t [i; j; k; l].
(** flags as the caller asks for, where a list may leave some of them open *)
Definition asked_open (a : targ) (ts : list cten) (flags : list bool) : Prop :=
  match a with
  | TList l | TTup l => List.length l = List.length ts /\ flags = map (fun p => own (fst p) (snd p)) (combine l ts)
  | TOne f => flags = map (own f) ts
  end.
(** the tensors among the outputs, lists opened *)
Inductive tensors_of : list citem -> list cten -> Prop :=
| to_nil : tensors_of [] []
| to_one t os ts : tensors_of os ts -> tensors_of (IT t :: os) (t :: ts)
| to_list l os ts : tensors_of os ts -> tensors_of (IL l :: os) (l ++ ts)
| to_other os ts : tensors_of os ts -> tensors_of (IOther :: os) ts.
(** the type that is written for a tensor: that of its codes if it is quantized *)
Definition written (t : cten) (y : ctype) : Prop := match c_dt t, y with DNp n, TNp m | DQ n, TNp m | DExt n, TExt m => m = n | _, _ => False end.
