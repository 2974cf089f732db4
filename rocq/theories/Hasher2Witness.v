(** Maps of 16 and 32 elements that have to grow, and hashers that throw. *)
From Coq Require Import NArith ZArith List Bool Lia Permutation.
From Coq Require Import ZifyBool ZifyNat ZifyN.
From Verif Require Import Base BaseFacts BitsModel GroupModel TableModel TableInv MapSpec ReachModel WitnessModel WitnessFacts
  RobinModel RobinSpec RobinWitness Flat16Model Flat16Spec Flat16Witness Robin16Model Robin16Spec Robin16Client
  Robin16Witness Robin16Example Hasher2Model Hasher2Spec.
Import ListNotations.
Open Scope N_scope.

(** ** robin_hash_map *)

Definition hx_robin : rm := fst (chased 2 (put_ops (seqN 16))).
Definition hx_robin_map : list (N * N) := snd (chased 2 (put_ops (seqN 16))).

Lemma hx_robin_lemma : lawful idhash N.eqb /\ rreach 2 hx_robin hx_robin_map /\ sane some_alloc
  /\ spread_all N N idhash 2 (put_new N N N.eqb 16 0 hx_robin_map)
  /\ (r_size _ _ hx_robin, r_mask _ _ hx_robin, length hx_robin_map) = (16, 31, 16%nat)
  /\ exists t' r, r_emplace N N idhash N.eqb 64 some_alloc false 16 0 hx_robin = Ret t' r /\ r_mask _ _ t' = 63.
Proof.
  split; [exact idlaw|]. split; [apply chased_reach; lia|]. split; [exact some_sane|].
  split; [apply fineb_spread; [lia|vm_compute; reflexivity]|]. split; [vm_compute; reflexivity|].
  do 2 eexists. split; vm_compute; reflexivity.
Qed.

(** The hasher throws at its sixth call: four elements have been moved. *)
Lemma hx_robin_loses : rreach 2 hx_robin hx_robin_map /\ sane some_alloc
  /\ exists t1 lost, r_emplace_h N N idhash N.eqb 64 5 some_alloc false 16 0 hx_robin = Throw (t1, lost)
  /\ r_size _ _ t1 = 4 /\ length lost = 12%nat
  /\ rstep some_alloc (OContains N N 15) hx_robin = Ret hx_robin (RBool N N true)
  /\ rstep some_alloc (OContains N N 15) t1 = Ret t1 (RBool N N false).
Proof.
  split; [apply chased_reach; lia|]. split; [exact some_sane|]. do 2 eexists.
  split; [vm_compute; reflexivity|]. split; [vm_compute; reflexivity|]. split; [vm_compute; reflexivity|].
  split; vm_compute; reflexivity.
Qed.

Lemma hx_robin_rehash_loses : rreach 2 hx_robin hx_robin_map /\ sane some_alloc
  /\ exists t1 lost, r_rehash_h N N idhash N.eqb 3 some_alloc 100 hx_robin = Throw (t1, lost)
  /\ r_size _ _ t1 = 3 /\ length lost = 13%nat.
Proof.
  split; [apply chased_reach; lia|]. split; [exact some_sane|]. do 2 eexists.
  split; [vm_compute; reflexivity|]. split; vm_compute; reflexivity.
Qed.

(** ** flat16_hash_map *)

Lemma hx_flat16_lemma : lawful idhash N.eqb /\ fbuilt fx_full fx_full_map /\ f_sane f_some
  /\ f_client N N idhash (OInsert N N 500 0) fx_full /\ f_client N N idhash (ORehash N N 100) fx_full
  /\ (length fx_full_map, f_cap _ _ fx_full) = (32%nat, 64)
  /\ exists t' r, f_emplace N N idhash N.eqb crc f_some false 500 0 fx_full = Ret t' r /\ f_cap _ _ t' = 128
  /\ f_emplace_h N N idhash N.eqb crc 34 f_some false 500 0 fx_full = Some (Ret t' r).
Proof.
  split; [exact idlaw|]. split; [exact fx_full_built|]. split; [exact f_some_sane|].
  split; [apply f_clientb_ok; vm_compute; reflexivity|]. split; [apply f_clientb_ok; vm_compute; reflexivity|].
  split; [vm_compute; reflexivity|]. do 2 eexists. split; [vm_compute; reflexivity|]. split; vm_compute; reflexivity.
Qed.

Lemma hx_flat16_ends : fbuilt fx_full fx_full_map /\ f_sane f_some
  /\ f_client N N idhash (OInsert N N 500 0) fx_full
  /\ (forall n, (n <= 33)%nat -> f_emplace_h N N idhash N.eqb crc n f_some false 500 0 fx_full = None)
  /\ f_rehash_h N N idhash crc 31 f_some 100 fx_full = None.
Proof.
  split; [exact fx_full_built|]. split; [exact f_some_sane|].
  split; [apply f_clientb_ok; vm_compute; reflexivity|]. split; [|vm_compute; reflexivity].
  intros n Hn.
  assert (H : forallb (fun n => match f_emplace_h N N idhash N.eqb crc n f_some false 500 0 fx_full with
    None => true | Some _ => false end) (seq 0 34) = true) by (vm_compute; reflexivity).
  rewrite forallb_forall in H. specialize (H n). rewrite in_seq in H. specialize (H ltac:(lia)).
  destruct (f_emplace_h N N idhash N.eqb crc n f_some false 500 0 fx_full); [discriminate|reflexivity].
Qed.

(** ** robin16_hash_map *)

(** 16 entries; the load factor is lowered, so that the next insertion doubles twice. *)
Definition hx_robin16_ops : list (op N N) := map (fun i => q_ins_ (i + 1)) (seqN 16) ++ [OMlf N N 14000000].
Definition hx_robin16 (wide trivial : bool) : qm := fst (q_made wide trivial 4 hx_robin16_ops).
Definition hx_robin16_map (wide trivial : bool) : list (N * N) := snd (q_made wide trivial 4 hx_robin16_ops).

Lemma hx_robin16_built wide trivial : qbuilt wide trivial (hx_robin16 wide trivial) (hx_robin16_map wide trivial).
Proof. apply q_made_built; [lia|vm_compute; reflexivity|]. destruct wide, trivial; vm_compute; reflexivity. Qed.

Lemma hx_robin16_fine wide trivial : q_fine N N idhash (put_new N N N.eqb 500 0 (hx_robin16_map wide trivial)).
Proof. apply few_fine. destruct wide, trivial; vm_compute; discriminate. Qed.

Lemma hx_robin16_lemma : forall wide trivial, lawful idhash N.eqb
  /\ qbuilt wide trivial (hx_robin16 wide trivial) (hx_robin16_map wide trivial) /\ f_sane qal
  /\ q_client N N idhash N.eqb (OInsert N N 500 0) (hx_robin16 wide trivial)
  /\ q_fine N N idhash (put_new N N N.eqb 500 0 (hx_robin16_map wide trivial))
  /\ (length (hx_robin16_map wide trivial), q_cap _ _ (hx_robin16 wide trivial)) = (16%nat, 32)
  /\ exists t' r, q_emplace N N idhash N.eqb wide trivial 64 qal false 500 0 (hx_robin16 wide trivial) = Ret t' r
  /\ q_cap _ _ t' = 128
  /\ q_emplace_h N N idhash N.eqb wide trivial 64 35 qal false 500 0 (hx_robin16 wide trivial) = Some (Ret t' r).
Proof.
  intros wide trivial. split; [exact idlaw|]. split; [apply hx_robin16_built|]. split; [exact qal_sane|].
  split; [apply q_clientb_ok; destruct wide, trivial; vm_compute; reflexivity|]. split; [apply hx_robin16_fine|].
  split; [destruct wide, trivial; vm_compute; reflexivity|].
  destruct wide, trivial; do 2 eexists; (split; [vm_compute; reflexivity|]); split; vm_compute; reflexivity.
Qed.

Lemma hx_robin16_ends : forall wide trivial,
  qbuilt wide trivial (hx_robin16 wide trivial) (hx_robin16_map wide trivial) /\ f_sane qal
  /\ q_client N N idhash N.eqb (OInsert N N 500 0) (hx_robin16 wide trivial)
  /\ q_fine N N idhash (put_new N N N.eqb 500 0 (hx_robin16_map wide trivial))
  /\ (forall n, (n <= 34)%nat ->
        q_emplace_h N N idhash N.eqb wide trivial 64 n qal false 500 0 (hx_robin16 wide trivial) = None)
  /\ q_rehash_h N N idhash N.eqb wide trivial 15 qal 100 (hx_robin16 wide trivial) = None.
Proof.
  intros wide trivial. split; [apply hx_robin16_built|]. split; [exact qal_sane|].
  split; [apply q_clientb_ok; destruct wide, trivial; vm_compute; reflexivity|]. split; [apply hx_robin16_fine|].
  split; [|destruct wide, trivial; vm_compute; reflexivity].
  intros n Hn.
  assert (H : forallb (fun n => match q_emplace_h N N idhash N.eqb wide trivial 64 n qal false 500 0
    (hx_robin16 wide trivial) with None => true | Some _ => false end) (seq 0 35) = true)
    by (destruct wide, trivial; vm_compute; reflexivity).
  rewrite forallb_forall in H. specialize (H n). rewrite in_seq in H. specialize (H ltac:(lia)).
  destruct (q_emplace_h N N idhash N.eqb wide trivial 64 n qal false 500 0 (hx_robin16 wide trivial));
    [discriminate|reflexivity].
Qed.
