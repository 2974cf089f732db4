(** Examples and counterexamples for LifeModel.v. *)
From Coq Require Import NArith List Bool Lia.
From Verif Require Import Base GroupModel TableModel TableInv MapSpec ReachModel WitnessModel
  RobinModel RobinSpec RobinWitness LifeModel LifeSpec LifeRefine.
Import ListNotations.
Open Scope N_scope.

(** robin_hash_map<int, int>. *)
Definition tr_int : traits := mkTraits true true true true true.

(** robin_hash_map<int, std::unique_ptr<T>>: member swap, 16 bytes, a destructor. *)
Definition tr_uptr : traits := mkTraits false true true false true.

(** With a layout policy that keeps elements in place: std::pair<const int, Big>, more
    than 16 bytes, without member swap, with a destructor; moving does not throw, or may
    throw. *)
Definition tr_big : traits := mkTraits false false false false true.
Definition tr_big_throwing : traits := mkTraits false false false false false.

Notation lrun := (l_run N N idhash N.eqb).
Notation llife := (l_life N N idhash N.eqb).

Lemma life_example_lemma :
  owns_spare tr_int = false /\ owns_spare tr_uptr = false /\ owns_spare tr_big_throwing = false
  /\ Forall (fun c => sane (fst c)) rx_calls
  /\ llife tr_uptr rx_calls = llife tr_int rx_calls
  /\ llife tr_big_throwing rx_calls = llife tr_int rx_calls
  /\ match llife tr_int rx_calls with Ok rs => length rs = 24%nat | Err _ => False end.
Proof.
  split; [reflexivity|]. split; [reflexivity|]. split; [reflexivity|].
  split. { apply Forall_forall. intros c H. apply in_map_iff in H. destruct H as (o & <- & _). exact some_sane. }
  split; [vm_compute; reflexivity|].
  split; vm_compute; reflexivity.
Qed.

(** A map with eleven entries at the positions 31 .. 41 and one at 30; the next one
    wants 30. *)
Definition lx_ops : list ((N -> bool) * op N N) := map call (put_ops (keys 11 32 31 ++ [30])).
Definition lx_full : rm := match rrun lx_ops (rnew N N) with Ok (_, t) => t | Err _ => rnew N N end.

Lemma lx_full_lemma :
  lrun tr_uptr lx_ops (rnew N N) = rrun lx_ops (rnew N N)
  /\ (r_size _ _ lx_full, r_slot_capacity _ _ lx_full) = (12, 32)
  /\ (exists C S, r_insert_to_place N N false lx_full 31 1 = Ok (C, S, false))
  /\ l_insert_to_place N N tr_uptr false lx_full 31 1 = Err EUndef
  /\ (exists C S, l_insert_to_place N N tr_int false lx_full 31 1 = Ok (C, S, false)).
Proof.
  split; [vm_compute; reflexivity|]. split; [vm_compute; reflexivity|].
  split; [eexists _, _; vm_compute; reflexivity|]. split; [vm_compute; reflexivity|].
  eexists _, _; vm_compute; reflexivity.
Qed.

Lemma puts_are_inserts l :
  Forall (fun c => exists k v, snd c = OInsert N N k v) (map call (put_ops l)).
Proof.
  apply Forall_forall. intros c H. apply in_map_iff in H. destruct H as (o & <- & H).
  apply in_map_iff in H. destruct H as (k & <- & _). cbn. eauto.
Qed.

Lemma no_place_lemma :
  exists calls, Forall (fun c => sane (fst c)) calls
    /\ (length calls <= 13)%nat
    /\ Forall (fun c => exists k v, snd c = OInsert N N k v) calls
    /\ (exists r, rrun calls (rnew N N) = Ok r /\ lrun tr_int calls (rnew N N) = Ok r)
    /\ lrun tr_uptr calls (rnew N N) = Err EUndef.
Proof.
  exists (map call (put_ops (keys 11 32 31 ++ [30; 62]))).
  split. { apply Forall_forall. intros c H. apply in_map_iff in H. destruct H as (o & <- & _). exact some_sane. }
  split; [vm_compute; repeat constructor|].
  split; [apply puts_are_inserts|].
  split. { eexists. split; [vm_compute; reflexivity|]. vm_compute. reflexivity. }
  vm_compute. reflexivity.
Qed.

(** Four insertions, the last of which displaces two elements. *)
Lemma spare_lemma :
  exists calls, Forall (fun c => sane (fst c)) calls
    /\ Forall (fun c => exists k v, snd c = OInsert N N k v) calls /\ (length calls = 4)%nat
    /\ owns_spare tr_big = true
    /\ (exists r, lrun tr_uptr calls (rnew N N) = Ok r)
    /\ (exists r, lrun tr_big_throwing calls (rnew N N) = Ok r)
    /\ lrun tr_big calls (rnew N N) = Err ELeak.
Proof.
  exists (map call (put_ops [1; 2; 8; 0])).
  split. { apply Forall_forall. intros c H. apply in_map_iff in H. destruct H as (o & <- & _). exact some_sane. }
  split; [apply puts_are_inserts|].
  split; [reflexivity|]. split; [reflexivity|].
  split; [eexists; vm_compute; reflexivity|]. split; [eexists; vm_compute; reflexivity|].
  vm_compute. reflexivity.
Qed.
