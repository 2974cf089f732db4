(** Executions in which arguments of insertions are moved from.  Keys and values are numbers
    that stand for strings, 0 for the empty one; a string that has been moved from is empty. *)
From Coq Require Import NArith List Bool Lia.
From Verif Require Import Base GroupModel TableModel TableInv IterModel CopyModel MapSpec RunModel
  ReachModel WitnessModel WitnessFacts ExampleFacts ArgModel ArgSpec.
Import ListNotations.
Open Scope N_scope.

Definition emptied (n : N) : N := 0.

Lemma arg_refuted : forall kd, group_kind kd ->
  exists t' i,
    emplace_pair N N idhash N.eqb kd emptied emptied roomy_alloc CLvalue false (new_map N N kd) (5, 50)
    = (Ret t' (i, true), (0, 0)).
Proof. intros kd [-> | ->]; do 2 eexists; vm_compute; reflexivity. Qed.

Lemma arg_other_refuted : forall kd, group_kind kd ->
  exists t' i,
    insert_or_assign_other N N idhash N.eqb kd emptied emptied roomy_alloc CLvalue CLvalue (new_map N N kd) 5 50
    = (Ret t' (i, true), (0, 50)).
Proof. intros kd [-> | ->]; do 2 eexists; vm_compute; reflexivity. Qed.

Lemma range_mut_refuted : forall kd, group_kind kd ->
  exists t',
    range_insert_mut N N idhash N.eqb kd emptied emptied roomy_alloc false [(5, 50); (6, 60)] (new_map N N kd)
    = (Ret t' tt, [(0, 0); (6, 60)])
    /\ lookup N N idhash N.eqb kd t' 0 = Ok (Some (0, 0))
    /\ lookup N N idhash N.eqb kd t' 5 = Ok (Some (5, 50))
    /\ lookup N N idhash N.eqb kd t' 6 = Ok None.
Proof.
  intros kd [-> | ->]; eexists; (split; [vm_compute; reflexivity|]);
    (split; [vm_compute; reflexivity|]); (split; [vm_compute; reflexivity|]); vm_compute; reflexivity.
Qed.

Definition arg_src (kd : kind) : table N N := result kd [ins 5; ins 6] (new_map N N kd).
(** As full as a map of 32 control bytes gets. *)
Definition arg_full (kd : kind) (n : N) : table N N := result kd (map ins (from_to 100 n)) (new_map N N kd).

Lemma arg_src_built kd : group_kind kd -> built N N idhash N.eqb kd (arg_src kd).
Proof.
  intros HK. apply (run_built_new kd [ins 5; ins 6] (outs_of kd [ins 5; ins 6] (new_map N N kd))).
  - reflexivity.
  - apply (sane_ins [5; 6]).
  - destruct HK as [-> | ->]; vm_compute; reflexivity.
Qed.

Lemma from_map_refuted : forall kd, group_kind kd ->
  exists src src' t', built N N idhash N.eqb kd src
    /\ insert_from_map N N idhash N.eqb kd emptied emptied roomy_alloc 2 src 0 (new_map N N kd) = (Ret t' tt, src')
    /\ lookup N N idhash N.eqb kd src 5 = Ok (Some (5, 5))
    /\ lookup N N idhash N.eqb kd src' 5 = Ok (Some (5, 0)).
Proof.
  intros kd HK. exists (arg_src kd).
  destruct HK as [-> | ->]; do 2 eexists;
    (split; [apply arg_src_built; unfold group_kind; auto|]);
    (split; [vm_compute; reflexivity|]); (split; [vm_compute; reflexivity|]); vm_compute; reflexivity.
Qed.

Lemma arg_full_built : built N N idhash N.eqb k15 (arg_full k15 29) /\ built N N idhash N.eqb k16 (arg_full k16 32).
Proof.
  split.
  - apply (run_built_new k15 (map ins (from_to 100 29)) (outs_of k15 (map ins (from_to 100 29)) (new_map N N k15)));
      [reflexivity|apply sane_ins|vm_compute; reflexivity].
  - apply (run_built_new k16 (map ins (from_to 100 32)) (outs_of k16 (map ins (from_to 100 32)) (new_map N N k16)));
      [reflexivity|apply sane_ins|vm_compute; reflexivity].
Qed.

Lemma ref_refuted : forall kd, group_kind kd ->
  exists t t' r, built N N idhash N.eqb kd t /\ geti (t_slots _ _ t) 0 = Some (Some (100, 100))
    /\ emplace_impl N N idhash N.eqb kd roomy_alloc false true t 500 100 = Ret t' r
    /\ emplace_ref N N idhash N.eqb kd roomy_alloc false t 500 0 = Fail EUndef.
Proof.
  intros kd [-> | ->].
  - exists (arg_full k15 29). do 2 eexists. split; [apply arg_full_built|].
    split; [vm_compute; reflexivity|]. (split; [vm_compute; reflexivity|]); vm_compute; reflexivity.
  - exists (arg_full k16 32). do 2 eexists. split; [apply arg_full_built|].
    split; [vm_compute; reflexivity|]. (split; [vm_compute; reflexivity|]); vm_compute; reflexivity.
Qed.

Lemma list_refuted : forall kd, group_kind kd ->
  exists t t', built N N idhash N.eqb kd t
    /\ assign_list N N idhash N.eqb kd roomy_alloc [(1, 10); (2, 20)] t = Ret t' tt
    /\ lookup N N idhash N.eqb kd t' 2 = Ok None.
Proof.
  intros kd HK. exists (arg_src kd).
  destruct HK as [-> | ->]; eexists;
    (split; [apply arg_src_built; unfold group_kind; auto|]);
    (split; [vm_compute; reflexivity|]); vm_compute; reflexivity.
Qed.

(** ** Examples *)

Lemma c167_example_lemma :
  lookup N N idhash N.eqb k15 ex15 1003 = Ok (Some (1003, 3))
  /\ lookup N N idhash N.eqb k15 ex15 500 = Ok None
  /\ snd (emplace_pair N N idhash N.eqb k15 emptied emptied roomy_alloc CRvalue true ex15 (1003, 9)) = (1003, 9)
  /\ snd (emplace_pair N N idhash N.eqb k15 emptied emptied roomy_alloc CLvalue true ex15 (500, 9)) = (500, 0)
  /\ snd (emplace_pair N N idhash N.eqb k15 emptied emptied roomy_alloc CConst true ex15 (500, 9)) = (500, 9)
  /\ snd (emplace_two N N idhash N.eqb k15 emptied emptied roomy_alloc true CRvalue CRvalue ex15 1003 9) = (1003, 0)
  /\ snd (emplace_two N N idhash N.eqb k15 emptied emptied roomy_alloc true CLvalue CRvalue ex15 500 9) = (500, 0).
Proof. do 6 (split; [vm_compute; reflexivity|]). vm_compute; reflexivity. Qed.

Lemma c168_example_lemma :
  (exists t', range_insert_mut N N idhash N.eqb k16 emptied emptied roomy_alloc true [(500, 1); (501, 2); (502, 3)] ex16
     = (Ret t' tt, [(500, 0); (501, 2); (502, 3)]) /\ t_size _ _ t' = 36)
  /\ (exists t', table_range_insert N N idhash N.eqb k16 emptied emptied roomy_alloc CLvalue false
                    [(500, 1); (501, 2); (500, 3); (1003, 4)] ex16
     = (Ret t' tt, [(0, 0); (0, 0); (500, 3); (1003, 4)]) /\ t_size _ _ t' = 37).
Proof. split; eexists; (split; [vm_compute; reflexivity|reflexivity]). Qed.

Lemma c169_example_lemma :
  exists t' src', geti (t_slots _ _ (arg_src k15)) 0 = Some (Some (5, 5))
  /\ lookup N N idhash N.eqb k15 ex15 5 = Ok None
  /\ insert_from_map N N idhash N.eqb k15 emptied emptied roomy_alloc 2 (arg_src k15) 0 ex15 = (Ret t' tt, src').
Proof. do 2 eexists. do 2 (split; [vm_compute; reflexivity|]). vm_compute; reflexivity. Qed.

Lemma c170_example_lemma :
  geti (t_slots _ _ ex15) 3 = Some (Some (1003, 3)) /\ t_size _ _ ex15 = 35 /\ t_thr _ _ ex15 = 209
  /\ (exists t' i, emplace_ref N N idhash N.eqb k15 roomy_alloc false ex15 500 3 = Ret t' (i, true)
        /\ lookup N N idhash N.eqb k15 t' 500 = Ok (Some (500, 3)))
  /\ t_size _ _ (arg_full k15 29) = 29 /\ t_thr _ _ (arg_full k15 29) = 29.
Proof.
  split; [vm_compute; reflexivity|]. split; [reflexivity|]. split; [reflexivity|].
  split; [|split; [vm_compute; reflexivity|vm_compute; reflexivity]].
  do 2 eexists. (split; [vm_compute; reflexivity|]); vm_compute; reflexivity.
Qed.

Lemma c171_example_lemma :
  (exists t', assign_list N N idhash N.eqb k15 roomy_alloc [(1, 10); (2, 20); (3, 30)] ex15 = Ret t' tt
     /\ t_size _ _ t' = 1)
  /\ capacity N N k15 (new_map N N k15) = 0.
Proof. split; [eexists; (split; [vm_compute; reflexivity|reflexivity])|reflexivity]. Qed.
