(** Example maps and counterexamples for the insertions after reserve. *)
From Coq Require Import NArith ZArith List Bool Lia Permutation.
From Coq Require Import ZifyBool ZifyNat ZifyN.
From Verif Require Import Base BaseFacts GroupModel TableModel TableInv MapSpec ReachModel WitnessModel WitnessFacts
  RobinModel RobinSpec RobinRefine RobinWitness Flat16Model Flat16Spec Flat16Witness
  Robin16Model Robin16Spec Robin16Refine Robin16Client Robin16Witness Robin16Example ReserveSpec.
Import ListNotations.
Open Scope N_scope.

(** The entries (k, k + 1) for the [n] keys r, r + m, r + 2 m, … *)
Definition pairs (n m r : N) : list (N * N) := map (fun k => (k, k + 1)) (keys n m r).
Definition adds (l : list (N * N)) : list (op N N) := map (fun e => OInsert N N (fst e) (snd e)) l.
Definition drops (l : list (N * N)) : list (op N N) := map (fun e => OErase N N (fst e)) l.

(** ** The robin hood map *)

(** Three keys for one slot, then five more. *)
Definition rv : rm := fst (chased 2 (adds (pairs 3 16 0))).
Definition rv_map : list (N * N) := snd (chased 2 (adds (pairs 3 16 0))).
Definition rv_more : list (N * N) := pairs 5 16 48.

Lemma rv_example : exists t', lawful idhash N.eqb /\ rreach 2 rv rv_map /\ sane some_alloc
  /\ spread_all N N idhash 2 rv_map /\ r_size _ _ rv = 3
  /\ rstep some_alloc (OReserve N N 8) rv = Ret t' (RUnit N N)
  /\ (r_slot_capacity N N rv, r_slot_capacity N N t') = (8, 16) /\ length rv_more = 5%nat
  /\ spread N N idhash (r_slot_capacity N N t') (all_put N N N.eqb rv_more rv_map).
Proof.
  eexists. split; [apply idlaw|]. split; [apply chased_reach; lia|]. split; [apply some_sane|].
  split; [apply few_spread; vm_compute; lia|]. split; [vm_compute; reflexivity|].
  split; [vm_compute; reflexivity|]. split; [vm_compute; reflexivity|]. split; [reflexivity|].
  match goal with |- spread _ _ _ (r_slot_capacity _ _ ?t) _ =>
    replace (r_slot_capacity N N t) with (2 ^ 4) by (vm_compute; reflexivity) end.
  apply (few_spread (K := N) (V := N) idhash); vm_compute; [lia|discriminate|discriminate].
Qed.

Lemma rv_loaded : exists t rs t',
  rrun [call (OMlf N N 154); call (OReserve N N 5)] (rnew N N) = Ok ([Some (RUnit N N); Some (RUnit N N)], t)
  /\ r_size _ _ t = 0 /\ rrun (inserts N N no_alloc (pairs 5 1 0)) t = Ok (rs, t') /\ nth_error rs 4 = Some None.
Proof.
  eexists _, _, _. split; [vm_compute; reflexivity|]. split; [reflexivity|].
  split; vm_compute; reflexivity.
Qed.

(** reserve(8) of a map with 16 slots that was moved to. *)
Lemma rv_moved : exists t t1 t2, rrun [call (OReserve N N 8)] (rnew N N) = Ok ([Some (RUnit N N)], t)
  /\ rstep some_alloc (OReserve N N 8) (fst (r_move N N t)) = Ret t1 (RUnit N N) /\ r_slot_capacity N N t1 = 16
  /\ r_size _ _ t1 = 0 /\ rstep no_alloc (OInsert N N 1 1) t1 = Throw t2
  /\ rreach 2 (fst (r_move N N t)) [].
Proof.
  eexists _, _, _. split; [vm_compute; reflexivity|]. split; [vm_compute; reflexivity|].
  split; [vm_compute; reflexivity|]. split; [reflexivity|]. split; [vm_compute; reflexivity|].
  apply reach_move.
  assert (R : rreach 2 (fst (chased 2 [OReserve N N 8])) (snd (chased 2 [OReserve N N 8]))) by (apply chased_reach; lia).
  vm_compute in R. exact R.
Qed.

(** ** The flat16 map *)

Definition fv : fm := fst (f_get (f_chased 4 (adds (pairs 5 1 0) ++ drops (pairs 2 1 1)))).
Definition fv_map : list (N * N) := snd (f_get (f_chased 4 (adds (pairs 5 1 0) ++ drops (pairs 2 1 1)))).
Definition fv_more : list (N * N) := pairs 37 64 64.

Lemma fv_example : exists t', lawful idhash N.eqb /\ fbuilt fv fv_map /\ f_sane f_some
  /\ f_mlf _ _ fv = 32768 /\ f_rev _ _ fv = 131072 /\ f_size _ _ fv = 3
  /\ fstep false f_some (OReserve N N 40) fv = Ret t' (RUnit N N)
  /\ (f_cap _ _ fv, f_cap _ _ t') = (16, 128) /\ length fv_more = 37%nat.
Proof.
  eexists. split; [apply idlaw|]. split.
  { apply (f_chased_built 4 (adds (pairs 5 1 0) ++ drops (pairs 2 1 1))); [lia|vm_compute; reflexivity]. }
  split; [apply f_some_sane|]. do 5 (split; [vm_compute; reflexivity|]). reflexivity.
Qed.

Lemma fv_loaded : exists t t1 rs t2, fnew f_some 4 = Ret t tt
  /\ frun false [f_do (OMlf N N 53687091); f_do (OReserve N N 13)] t
     = Ok ([Some (RUnit N N); Some (RUnit N N)], t1)
  /\ f_size _ _ t1 = 0 /\ frun false (inserts N N no_alloc2 (pairs 13 1 0)) t1 = Ok (rs, t2)
  /\ nth_error rs 12 = Some None.
Proof.
  eexists _, _, _, _. split; [vm_compute; reflexivity|]. split; [vm_compute; reflexivity|].
  split; [reflexivity|]. split; vm_compute; reflexivity.
Qed.

(** 32 keys in 64 slots, three erased: reserve(32) leaves everything as it is. *)
Lemma fv_erased : exists t m t1 t2, fbuilt t m /\ f_mlf _ _ t = 32768 /\ f_rev _ _ t = 131072
  /\ fstep false f_some (OReserve N N 32) t = Ret t1 (RUnit N N) /\ f_cap _ _ t1 = 64 /\ f_size _ _ t1 = 29
  /\ fstep false no_alloc2 (OInsert N N 100 1) t1 = Throw t2.
Proof.
  exists (fst (f_get (f_chased 64 (adds (pairs 32 1 0) ++ drops (pairs 3 1 0))))),
         (snd (f_get (f_chased 64 (adds (pairs 32 1 0) ++ drops (pairs 3 1 0))))).
  eexists _, _. split.
  { apply (f_chased_built 64 (adds (pairs 32 1 0) ++ drops (pairs 3 1 0))); [lia|vm_compute; reflexivity]. }
  do 5 (split; [vm_compute; reflexivity|]). vm_compute; reflexivity.
Qed.

(** ** The robin16 map *)

Definition qv (wide trivial : bool) : qm := fst (q_made wide trivial 4 (adds (pairs 5 1 1) ++ drops (pairs 2 1 2))).
Definition qv_map (wide trivial : bool) : list (N * N) := snd (q_made wide trivial 4 (adds (pairs 5 1 1) ++ drops (pairs 2 1 2))).
Definition qv_more : list (N * N) := pairs 37 64 64.

Lemma qv_example : forall wide trivial, exists t', lawful idhash N.eqb
  /\ q_built N N idhash N.eqb wide trivial (qv wide trivial) (qv_map wide trivial) /\ f_sane qal
  /\ q_mlf _ _ (qv wide trivial) = 32768 /\ q_rev _ _ (qv wide trivial) = 131072 /\ q_size _ _ (qv wide trivial) = 3
  /\ q_step N N idhash N.eqb wide trivial qal (OReserve N N 40) (qv wide trivial) = Ret t' (RUnit N N)
  /\ (q_cap _ _ (qv wide trivial), q_cap _ _ t') = (16, 128) /\ length qv_more = 37%nat
  /\ (forall e, In e qv_more -> q_seen N N idhash (fst e) t')
  /\ q_spread N N idhash (q_cap _ _ t') (all_put N N N.eqb qv_more (qv_map wide trivial)).
Proof.
  intros wide trivial.
  assert (B : q_built N N idhash N.eqb wide trivial (qv wide trivial) (qv_map wide trivial)).
  { apply q_made_built; [lia|vm_compute; reflexivity|destruct wide, trivial; vm_compute; reflexivity]. }
  destruct wide, trivial; (eexists; split; [apply idlaw|]; split; [exact B|]; split; [apply qal_sane|];
    do 5 (split; [vm_compute; reflexivity|]); split; [reflexivity|]; split; [intros e _; left; vm_compute; discriminate|];
    match goal with |- q_spread _ _ _ (q_cap _ _ ?t) _ =>
      replace (q_cap N N t) with (2 ^ 7) by (vm_compute; reflexivity) end;
    apply (few_fine idhash); vm_compute; discriminate).
Qed.

Lemma qv_loaded : forall wide trivial, exists t t1 rs t2, q_new N N qal 4 = Ret t tt
  /\ qrun wide trivial [qask (OMlf N N 53687091); qask (OReserve N N 13)] t
     = Ok ([Some (RUnit N N); Some (RUnit N N)], t1)
  /\ q_size _ _ t1 = 0 /\ qrun wide trivial (inserts N N no_alloc2 (pairs 13 1 0)) t1 = Ok (rs, t2)
  /\ nth_error rs 12 = Some None.
Proof.
  intros [] []; (eexists _, _, _, _; split; [vm_compute; reflexivity|]; split; [vm_compute; reflexivity|];
  split; [reflexivity|]; split; vm_compute; reflexivity).
Qed.
