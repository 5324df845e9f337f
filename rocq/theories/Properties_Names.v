(** C150: the names under which the tracer finds submodules. *)
From Coq Require Import String Ascii List Arith Bool.
From Verif Require Import NamesModel NamesSpec NamesProofs.
Import ListNotations.

(** every module below the traced one gets a name, the name evaluates to that module in the generated code, the lookup used for replacing finds the
    module with the module that holds it, and no two modules share a name; missing: see the refutations *)
Theorem C150_names_partial : forall root, names_ok root -> ids_ok root ->
  exists d, original_names root = Some d /\
  (forall m, below root m -> exists p, name_of d (mid m) = Some p) /\
  (forall m p, below root m -> name_of d (mid m) = Some p -> p <> [] ->
     py_self root p = Some m /\ exists par n, get_submodule root p true = Some (m, par) /\ below root par /\ In (n, m) (mcs par)) /\
  (forall m, below root m -> name_of d (mid m) = Some [] -> m = root) /\
  (forall a b p, below root a -> below root b -> name_of d (mid a) = Some p -> name_of d (mid b) = Some p -> a = b).
Proof. exact names_partial. Qed.
Print Assumptions C150_names_partial.
Example C150_names_case : names_ok wit_net /\ ids_ok wit_net /\ exists d, original_names wit_net = Some d /\
  name_of d 4 = Some (lit "net[1][""k""]") /\ name_of d 7 = Some (lit "blk.get_submodule(""c-d"")[0]") /\ name_of d 2 = Some (lit "blk.w").
Proof. split; [apply wit_net_ok|]. split; [apply wit_net_ok|]. eexists. repeat split; vm_compute; reflexivity. Qed.

(** false when a Sequential is traced itself: its children are named "[0]", which neither evaluates nor is found *)
Theorem C150_root_refuted : exists root m d p,
  ids_ok root /\ (forall x, below root x -> kids_ok x) /\ below root m /\ original_names root = Some d /\ name_of d (mid m) = Some p /\ p <> [] /\
  py_self root p = None /\ get_submodule root p true = None.
Proof. exact names_root_refuted. Qed.
Print Assumptions C150_root_refuted.

(** false for a dash in the name of a child of the traced module: the lookup finds it, the generated code does not *)
Theorem C150_dash_refuted : exists root m d p,
  below root m /\ original_names root = Some d /\ name_of d (mid m) = Some p /\ py_self root p = None /\ get_submodule root p true = Some (m, root).
Proof. exact names_dash_refuted. Qed.
Print Assumptions C150_dash_refuted.

(** false for a Sequential whose numeric names are not the positions: the code refers to another module than the lookup *)
Theorem C150_order_refuted : exists root m m' par d p,
  below root m /\ original_names root = Some d /\ name_of d (mid m) = Some p /\ py_self root p = Some m' /\ m' <> m /\ get_submodule root p true = Some (m, par).
Proof. exact names_order_refuted. Qed.
Print Assumptions C150_order_refuted.

(** the other name holds none of the replaced characters and is no number, and a name without them stays as it is *)
Theorem C150_unique_partial : forall s,
  (forall c, In c (lit ".-/;") -> ~ In c (unique_name s)) /\ isnumeric (unique_name s) = false /\
  ((forall c, In c (lit ".-/;") -> ~ In c s) -> isnumeric s = false -> unique_name s = s).
Proof. exact (fun s => conj (proj1 (unique_chars s)) (conj (proj2 (unique_chars s)) (unique_same s))). Qed.
Print Assumptions C150_unique_partial.
Example C150_unique_case : unique_name (lit "a.b-c") = lit "a_b_c" /\ unique_name (lit "0") = lit "module_0".
Proof. split; reflexivity. Qed.

(** but that name is not unique *)
Theorem C150_unique_refuted : exists root p q a b,
  ids_ok root /\ names_ok root /\ dotted root p a /\ dotted root q b /\ a <> b /\ unique_name p = unique_name q.
Proof. exact names_unique_refuted. Qed.
Print Assumptions C150_unique_refuted.
