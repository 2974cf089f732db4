(** A hasher that throws at the fifth element. *)
From Coq Require Import NArith List Bool Lia Permutation.
From Verif Require Import Base GroupModel TableModel TableInv CopyModel RunModel ReachModel WitnessModel
  WitnessFacts WitnessFacts2 ExampleFacts MapProps ArgWitness ThrowFacts HasherModel HasherSpec HasherFacts.
Import ListNotations.
Open Scope N_scope.

Definition full_of (kd : kind) : N := if kd_sent kd then 29 else 32.

Lemma full_built kd : group_kind kd -> built N N idhash N.eqb kd (arg_full kd (full_of kd)).
Proof. intros [-> | ->]; apply arg_full_built. Qed.

Lemma insert_loses kd : group_kind kd ->
  built N N idhash N.eqb kd (arg_full kd (full_of kd)) /\ sane roomy_alloc
  /\ t_size _ _ (arg_full kd (full_of kd)) = full_of kd
  /\ exists t' r t1 old,
    emplace_impl N N idhash N.eqb kd roomy_alloc false true (arg_full kd (full_of kd)) 500 0 = Ret t' r
    /\ capacity N N kd t' <> capacity N N kd (arg_full kd (full_of kd))
    /\ emplace_h N N idhash N.eqb kd 5 roomy_alloc false (arg_full kd (full_of kd)) 500 0 = Throw (t1, old)
    /\ t_size _ _ t1 = 4
    /\ lookup N N idhash N.eqb kd (arg_full kd (full_of kd)) 120 = Ok (Some (120, 120))
    /\ lookup N N idhash N.eqb kd t1 120 = Ok None
    /\ N.of_nat (length (elems old)) = full_of kd - 4.
Proof.
  intros H. split; [exact (full_built kd H)|]. split; [exact roomy_sane|].
  destruct H as [-> | ->]; (split; [vm_compute; reflexivity|]); eexists _, _, _, _;
    (split; [vm_compute; reflexivity|]);
    (split; [vm_compute; discriminate|]); (split; [vm_compute; reflexivity|]);
    (split; [reflexivity|]); (split; [vm_compute; reflexivity|]); (split; [vm_compute; reflexivity|]);
    vm_compute; reflexivity.
Qed.

Lemma rehash_loses kd : group_kind kd ->
  built N N idhash N.eqb kd (small kd) /\ sane roomy_alloc /\ t_size _ _ (small kd) = 10
  /\ exists t' t1 old,
  rehash_impl N N idhash kd roomy_alloc false (small kd) 100 = Ret t' tt
  /\ capacity N N kd t' <> capacity N N kd (small kd)
  /\ rehash_impl_h N N idhash kd 4 roomy_alloc false (small kd) 100 = Throw (t1, old)
  /\ t_size _ _ t1 = 4 /\ length (elems old) = 6%nat.
Proof.
  intros H. split; [exact (small_built kd H)|]. split; [exact roomy_sane|].
  destruct H as [-> | ->]; (split; [vm_compute; reflexivity|]); eexists _, _, _; (split; [vm_compute; reflexivity|]);
    (split; [vm_compute; discriminate|]); (split; [vm_compute; reflexivity|]);
    (split; [reflexivity|]); vm_compute; reflexivity.
Qed.

(** Forty insertions and thirty erasures: the copy is smaller. *)
Definition sparse_calls : list (call N N) := map ins (from_to 100 40) ++ map era (from_to 105 30).

Lemma sparse_built kd : group_kind kd -> built N N idhash N.eqb kd (result kd sparse_calls (new_map N N kd)).
Proof.
  intros H.
  assert (HS : Forall (fun c => sane (fst c)) sparse_calls)
    by (apply Forall_app; split; [apply sane_ins|apply sane_era]).
  destruct H as [-> | ->].
  - apply (run_built_new k15 sparse_calls (outs_of k15 sparse_calls (new_map N N k15)));
      [reflexivity|exact HS|vm_compute; reflexivity].
  - apply (run_built_new k16 sparse_calls (outs_of k16 sparse_calls (new_map N N k16)));
      [reflexivity|exact HS|vm_compute; reflexivity].
Qed.

Lemma copy_example kd : group_kind kd ->
  let t := result kd sparse_calls (new_map N N kd) in
  built N N idhash N.eqb kd t /\ sane roomy_alloc /\ t_size _ _ t = 10
  /\ exists t', copy_construct N N idhash kd roomy_alloc 0 t = Ret t' tt
  /\ capacity N N kd t' <> capacity N N kd t
  /\ copy_construct_h N N idhash kd 4 roomy_alloc 0 t = Throw (empty_table N N kd 224).
Proof.
  intros H. cbv zeta. split; [exact (sparse_built kd H)|]. split; [exact roomy_sane|].
  destruct H as [-> | ->]; (split; [vm_compute; reflexivity|]); eexists; (split; [vm_compute; reflexivity|]);
    (split; [vm_compute; discriminate|]); vm_compute; reflexivity.
Qed.

Lemma tmp_refuted kd : group_kind kd ->
  emplace_tmp N N idhash N.eqb kd roomy_alloc false (new_map N N kd) (5, 50) = Fail EUndef
  /\ emplace_tmp N N idhash N.eqb kd no_alloc false (new_map N N kd) (5, 50) = Fail ELeak.
Proof. intros [-> | ->]; split; vm_compute; reflexivity. Qed.

Lemma tmp_example kd : group_kind kd ->
  exists i, emplace_tmp N N idhash N.eqb kd roomy_alloc false (small kd) (3, 7) = Ret (small kd) (i, false).
Proof. intros [-> | ->]; eexists; vm_compute; reflexivity. Qed.
