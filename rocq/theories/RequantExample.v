(** Cases of the fusion of requantize operators. *)
From Coq Require Import List Arith ZArith Bool Lia.
From Verif Require Import RequantModel RequantSpec RequantProofs.
Import ListNotations.

(** a graph from a list of operators and of the quantizations of the tensors *)
Definition g_of (ns : list rnode) (qs : list (nat * nat)) : rgraph :=
  mkRG (seq 0 (length ns)) (fun n => nth n ns (mkRN KOther [] 999))
    (flat_map (fun s => flat_map (fun d => map (fun _ => (s, d)) (filter (Nat.eqb (rout (nth s ns (mkRN KOther [] 999)))) (rins (nth d ns (mkRN KOther [] 999)))))
                (seq 0 (length ns))) (seq 0 (length ns)))
    (fun t => match find (fun e => fst e =? t) qs with Some e => Some (snd e) | None => None end) [].
(** the conditions, decided *)
Definition wf_b (g : rgraph) : bool :=
  forallb (fun d => forallb (fun t => existsb (fun s => rout (rn g s) =? t) (rids g)) (rins (rn g d))) (rids g) &&
  forallb (fun s => forallb (fun d => negb (r_mem (rout (rn g s)) (rins (rn g d))) || existsb (fun e => (fst e =? s) && (snd e =? d)) (redges g)) (rids g)) (rids g) &&
  forallb (fun e => r_mem (fst e) (rids g) && r_mem (snd e) (rids g) && r_mem (rout (rn g (fst e))) (rins (rn g (snd e)))) (redges g) &&
  forallb (fun s => forallb (fun s' => negb (rout (rn g s) =? rout (rn g s')) || (s =? s')) (rids g)) (rids g) &&
  forallb (fun a => negb (rkind_eqb (rk (rn g a)) KQuant) ||
     ((length (rins (rn g a)) =? 1) && (length (filter (fun e => snd e =? a) (redges g)) <=? 1) && match rtq g (rout (rn g a)) with Some _ => true | None => false end)) (rids g) &&
  match rdel g with [] => true | _ => false end.
Lemma wf_b_ok g : wf_b g = true -> r_wf g.
Proof.
  unfold wf_b. rewrite !andb_true_iff. intros (((((H1 & H2) & H3) & H4) & H5) & H6).
  rewrite forallb_forall in H1, H2, H3, H4, H5.
  assert (Q : forall a, In a (rids g) -> rk (rn g a) = KQuant -> length (rins (rn g a)) = 1 /\ length (filter (fun e => snd e =? a) (redges g)) <= 1 /\ rtq g (rout (rn g a)) <> None).
  { intros a A K. specialize (H5 a A). rewrite K in H5. cbn [rkind_eqb negb orb] in H5. rewrite !andb_true_iff in H5. destruct H5 as ((X & Y) & Z).
    apply Nat.eqb_eq in X. apply Nat.leb_le in Y. split; [exact X|]. split; [exact Y|]. destruct (rtq g (rout (rn g a))); congruence. }
  constructor.
  - intros d t D T. specialize (H1 d D). rewrite forallb_forall in H1. specialize (H1 t T). apply existsb_exists in H1. destruct H1 as (s & S & E).
    apply Nat.eqb_eq in E. eauto.
  - intros s d S D T. specialize (H2 s S). rewrite forallb_forall in H2. specialize (H2 d D). apply r_mem_in in T. rewrite T in H2. cbn [negb orb] in H2.
    apply existsb_exists in H2. destruct H2 as ([x y] & E & F). cbn in F. apply andb_true_iff in F. destruct F as [F1 F2]. apply Nat.eqb_eq in F1, F2. now subst.
  - intros s d E. specialize (H3 _ E). cbn [fst snd] in H3. rewrite !andb_true_iff, !r_mem_in in H3. tauto.
  - intros s s' S S' E. specialize (H4 s S). rewrite forallb_forall in H4. specialize (H4 s' S'). rewrite E, Nat.eqb_refl in H4. cbn [negb orb] in H4. now apply Nat.eqb_eq.
  - intros a A K. destruct (Q a A K) as [X _]. destruct (rins (rn g a)) as [|t [|]]; cbn [length] in X; try lia. eauto.
  - intros a A K. apply (Q a A K).
  - intros a A K. apply (Q a A K).
  - destruct (rdel g); [reflexivity|discriminate].
Qed.
Definition nc_b (g : rgraph) : bool :=
  forallb (fun p => negb (rkind_eqb (rk (rn g p)) KFuse) ||
    negb (existsb (fun a => rkind_eqb (rk (rn g a)) KQuant && r_mem (rout (rn g p)) (rins (rn g a))) (rids g)) ||
    negb (existsb (fun a => rkind_eqb (rk (rn g a)) KCopy && r_mem (rout (rn g p)) (rins (rn g a))) (rids g))) (rids g).
Lemma nc_b_ok g : nc_b g = true -> r_no_copies g.
Proof.
  unfold nc_b. rewrite forallb_forall. intros H p a d P A D K1 K2 T1 K3 T2. specialize (H p P). rewrite K1 in H. cbn [rkind_eqb negb orb] in H.
  assert (X : forall n k, In n (rids g) -> rk (rn g n) = k -> In (rout (rn g p)) (rins (rn g n)) ->
    existsb (fun a => rkind_eqb (rk (rn g a)) k && r_mem (rout (rn g p)) (rins (rn g a))) (rids g) = true).
  { intros n k N K T. apply existsb_exists. exists n. split; [exact N|]. apply andb_true_iff. split; [now apply kind_eqb_eq|now apply r_mem_in]. }
  rewrite (X a KQuant A K2 T1), (X d KCopy D K3 T2) in H. discriminate.
Qed.

(** A convolution read by two requantize operators with the same parameters and by a dequantize operator; behind them an
    operator and a reshape; a second convolution read by one requantize operator *)
Definition rq_nodes : list rnode :=
  [ mkRN KOther [] 10; mkRN KFuse [10] 11; mkRN KQuant [11] 12; mkRN KQuant [11] 13; mkRN KDeq [11] 14; mkRN KOther [12] 15;
    mkRN KCopy [13] 16; mkRN KFuse [15] 17; mkRN KQuant [17] 18; mkRN KOut [18] 19; mkRN KOut [16] 20; mkRN KOut [14] 21 ].
Definition rq_g : rgraph := g_of rq_nodes [(10, 1); (11, 1); (12, 2); (13, 2); (15, 3); (16, 2); (17, 3); (18, 4)].
Lemma rq_wf : r_wf rq_g. Proof. apply wf_b_ok. vm_compute. reflexivity. Qed.
Lemma rq_nc : r_no_copies rq_g. Proof. apply nc_b_ok. vm_compute. reflexivity. Qed.
Lemma rq_run : match fuse_requantize 20 rq_g with
  | Some g' => rids g' = [0; 1; 3; 4; 5; 6; 7; 9; 10; 11] /\ rins (rn g' 5) = [11] /\ rtq g' 11 = Some 2 /\ rout (rn g' 7) = 18 /\ rins (rn g' 6) = [13]
  | None => False end.
Proof. vm_compute. repeat split. Qed.

(** A convolution read by a requantize operator and by a reshape that is requantized with the same parameters *)
Definition rc_nodes : list rnode :=
  [ mkRN KOther [] 10; mkRN KFuse [10] 11; mkRN KQuant [11] 12; mkRN KCopy [11] 13; mkRN KQuant [13] 14; mkRN KOther [12] 15;
    mkRN KOut [14] 16; mkRN KOut [15] 17 ].
Definition rc_g : rgraph := g_of rc_nodes [(10, 1); (11, 1); (12, 2); (13, 1); (14, 2); (15, 3)].
Lemma copy_lemma :
  (forall q x, zp_reint q q x = x) /\
  exists g g' v n, r_wf g /\ r_computes sum_den (fun _ x => x) zp_reint g v /\ fuse_requantize 20 g = Some g' /\
    rk (rn g n) = KOut /\ In n (rids g') /\
    forall v', r_computes sum_den (fun _ x => x) zp_reint g' v' -> v' (rout (rn g' n)) <> v (rout (rn g n)).
Proof.
  split; [intros q x; unfold zp_reint; lia|].
  destruct (fuse_requantize 20 rc_g) as [g'|] eqn:E; [|vm_compute in E; discriminate].
  exists rc_g, g', (fun _ => 5%Z), 6. split; [apply wf_b_ok; vm_compute; reflexivity|].
  split; [intros n H; cbn in H; repeat (destruct H as [<-|H]; [vm_compute; reflexivity|]); destruct H|].
  split; [exact E|]. split; [reflexivity|].
  assert (I : rids g' = [0; 1; 3; 4; 5; 6; 7]) by (assert (X : option_map rids (fuse_requantize 20 rc_g) = Some [0; 1; 3; 4; 5; 6; 7]) by (vm_compute; reflexivity); rewrite E in X; now injection X as ->).
  split; [rewrite I; cbn; auto 10|]. intros v' C.
  assert (G : forall (A : Type) (f : rgraph -> A) x, option_map f (fuse_requantize 20 rc_g) = Some x -> f g' = x).
  { intros A f x X. rewrite E in X. cbn in X. now injection X. }
  assert (C0 := C 0 ltac:(rewrite I; cbn; auto)). assert (C1 := C 1 ltac:(rewrite I; cbn; auto)).
  assert (C3 := C 3 ltac:(rewrite I; cbn; auto)). assert (C4 := C 4 ltac:(rewrite I; cbn; auto 10)). assert (C6 := C 6 ltac:(rewrite I; cbn; auto 10)).
  rewrite (G _ (fun g => rn g 0) (mkRN KOther [] 10)) in C0 by (vm_compute; reflexivity).
  rewrite (G _ (fun g => rn g 1) (mkRN KFuse [10] 11)) in C1 by (vm_compute; reflexivity).
  rewrite (G _ (fun g => rn g 3) (mkRN KCopy [11] 13)) in C3 by (vm_compute; reflexivity).
  rewrite (G _ (fun g => rn g 4) (mkRN KQuant [13] 14)) in C4 by (vm_compute; reflexivity).
  rewrite (G _ (fun g => rn g 6) (mkRN KOut [14] 16)) in C6 by (vm_compute; reflexivity).
  rewrite (G _ (fun g => rn g 6) (mkRN KOut [14] 16)) by (vm_compute; reflexivity).
  cbn [rk rins rout] in *. rewrite (G _ (fun g => rtq g 11) (Some 2)) in C3 by (vm_compute; reflexivity).
  rewrite (G _ (fun g => rtq g 13) (Some 1)) in C3 by (vm_compute; reflexivity).
  cbn in C0, C1. unfold zp_reint in C3. rewrite C6, C4, C3, C1, C0. discriminate.
Qed.

(** One of two requantize operators makes an output of the model *)
Definition ro_nodes : list rnode :=
  [ mkRN KOther [] 10; mkRN KFuse [10] 11; mkRN KQuant [11] 12; mkRN KDeq [11] 13; mkRN KOut [12] 14; mkRN KOut [13] 15 ].
Definition ro_g : rgraph := g_of ro_nodes [(10, 1); (11, 1); (12, 2)].
Lemma output_lemma : exists g, r_wf g /\ r_no_copies g /\ forall fuel, fuse_requantize fuel g = None.
Proof.
  exists ro_g. split; [apply wf_b_ok; vm_compute; reflexivity|]. split; [apply nc_b_ok; vm_compute; reflexivity|].
  intros [|fuel]; reflexivity.
Qed.
