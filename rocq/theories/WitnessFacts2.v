(** More executions that end badly. *)
From Coq Require Import NArith ZArith List Bool Lia.
From Coq Require Import ZifyBool ZifyNat ZifyN.
From Verif Require Import Base BaseFacts BitsModel GroupModel TableModel TableInv MapSpec RunModel IterModel
  CopyModel ReachModel ReachFacts MapProps MapProps2 WitnessModel WitnessFacts ExampleFacts
  LedgerModel LedgerSpec.
Import ListNotations.
Open Scope N_scope.

(** ** clear() without storage *)

Lemma clear_nostorage15 alloc (hash : N -> N) keq :
  step N N hash keq k15 alloc (OClear N N false) new15 = Fail EUndef.
Proof. reflexivity. Qed.

(** ** A constructor that throws *)

(** The state that emplace leaves behind when the constructor of the new element
    throws, for key 5 in the empty map. *)
Definition after_throw (kd : kind) (t : table N N) (k : N) : table N N :=
  match emplace_impl N N idhash N.eqb kd roomy_alloc false false t k 0 with
  | Throw t1 => t1
  | _ => t
  end.

Lemma throw15 : emplace_impl N N idhash N.eqb k15 roomy_alloc false false ex15 5 0 = Throw (after_throw k15 ex15 5)
  /\ lookup N N idhash N.eqb k15 (after_throw k15 ex15 5) 5 = Err EUndef
  /\ destroy N N k15 (after_throw k15 ex15 5) = Err EUndef.
Proof. vm_compute. repeat split; reflexivity. Qed.

Lemma throw16 : emplace_impl N N idhash N.eqb k16 roomy_alloc false false ex16 5 0 = Throw (after_throw k16 ex16 5)
  /\ lookup N N idhash N.eqb k16 (after_throw k16 ex16 5) 5 = Err EUndef
  /\ destroy N N k16 (after_throw k16 ex16 5) = Err EUndef.
Proof. vm_compute. repeat split; reflexivity. Qed.

(** ** Copies *)

(** Ten entries in the smallest table. *)
Definition small (kd : kind) : table N N := result kd (map ins (from_to 0 10)) (new_map N N kd).

Lemma small_built kd : group_kind kd -> built N N idhash N.eqb kd (small kd).
Proof.
  intros [-> | ->]; unfold small, result.
  - destruct (run N N idhash N.eqb k15 _ _) as [[o t]|e] eqn:E; [|vm_compute in E; discriminate].
    exact (run_built_new k15 (map ins (from_to 0 10)) o t eq_refl (sane_ins _) E).
  - destruct (run N N idhash N.eqb k16 _ _) as [[o t]|e] eqn:E; [|vm_compute in E; discriminate].
    exact (run_built_new k16 (map ins (from_to 0 10)) o t eq_refl (sane_ins _) E).
Qed.

Lemma small_copy kd : group_kind kd ->
  t_size _ _ (small kd) = 10 /\
  exists t', copy_construct N N idhash kd roomy_alloc 0 (small kd) = Ret t' tt /\ t_size _ _ t' = 0
    /\ traverse N N kd 0 t' = Ok [].
Proof.
  intros [-> | ->]; vm_compute; (split; [reflexivity|]); eexists; repeat split.
Qed.

(** ** Ranges *)

Lemma range_wrong kd : group_kind kd -> exists t',
  range_insert N N idhash N.eqb kd roomy_alloc [(1, 10); (2, 20); (3, 30)] (new_map N N kd) = Ret t' tt
  /\ traverse N N kd 0 t' = Ok [(1, 10)].
Proof. intros [-> | ->]; vm_compute; eexists; split; reflexivity. Qed.

(** ** reserve *)

Lemma reserve_wraps kd : group_kind kd -> exists t',
  step N N idhash N.eqb kd roomy_alloc (OReserve N N (2 ^ 56)) (new_map N N kd) = Ret t' (RUnit N N)
  /\ capacity N N kd t' <= 32.
Proof. intros [-> | ->]; vm_compute; eexists; split; try reflexivity; discriminate. Qed.

(** ** clear() keeps the lowered growth limit *)

(** Sixteen entries and [n] rounds of churn, then clear(): the next 17 insertions. *)
Definition worn_calls : list (call N N) := churn_calls 13 ++ [(roomy_alloc, OClear N N false)].
Definition fill17 : list (call N N) := map ins (from_to 1 17).

Lemma worn_sane : Forall (fun c => sane (fst c)) worn_calls.
Proof. unfold worn_calls. apply Forall_app. split; [apply churn_sane|]. sane_calls. Qed.
Lemma worn_obeys : obeys N N idhash N.eqb k15 (client_ok N N k15) worn_calls new15.
Proof. apply obeys_client. vm_compute. reflexivity. Qed.

Lemma worn_grows :
  match run15 worn_calls new15, run15 [ins 0; (roomy_alloc, OClear N N false)] new15 with
  | Ok (_, t), Ok (_, u) =>
      (t_size _ _ t =? 0) && (t_size _ _ u =? 0) && (capacity _ _ k15 t =? 29) && (capacity _ _ k15 u =? 29) &&
      match run15 fill17 t, run15 fill17 u with
      | Ok (_, t'), Ok (_, u') => (capacity _ _ k15 t' =? 59) && (capacity _ _ k15 u' =? 29)
      | _, _ => false
      end
  | _, _ => false
  end = true.
Proof. vm_compute. reflexivity. Qed.

(** ** The second allocation of group16 fails *)

Definition yes_no : answers := mkAns (fun n => n <=? 2 ^ 20) (fun _ => false).
Definition yes_yes : answers := mkAns (fun n => n <=? 2 ^ 20) (fun n => n <=? 2 ^ 20).

Definition leak_calls : list (answers * op N N) :=
  [(yes_no, OInsert N N 1 10); (yes_yes, OInsert N N 1 10)].

Lemma leak16 :
  play [] (run_events N N idhash N.eqb k16 16 leak_calls 0 1 new16) = Some [mkBlock PGroup 1 3].
Proof. vm_compute. reflexivity. Qed.
