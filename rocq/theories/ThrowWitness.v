(** Insertions that throw, in the example maps. *)
From Coq Require Import NArith List Bool.
From Verif Require Import Base BitsModel TableModel TableInv MapSpec ReachModel WitnessModel Crc32Model RobinModel RobinSpec RobinWitness
  Flat16Model Flat16Spec Flat16Witness Robin16Model Robin16Spec Robin16Witness Robin16Example ThrowModel2.
Import ListNotations.
Open Scope N_scope.

(** Key 16 belongs where key 0 is: the others move. *)
Lemma rx_throw_lemma : exists t m k t2 i t1, r_reach N N idhash N.eqb 2 t m /\ length m = 3%nat
  /\ has N N N.eqb k m = false
  /\ r_emplace N N idhash N.eqb 64 some_alloc false k (k + 1) t = Ret t2 (i, true)
  /\ r_emplace_t N N idhash N.eqb 64 some_alloc false k (k + 1) t = Throw t1
  /\ r_size _ _ t1 = 3
  /\ r_contains N N idhash N.eqb t1 k = Err EUndef /\ r_traverse N N t1 = Err EUndef.
Proof.
  eexists rx_three, [(2, 3); (1, 2); (0, 1)], 16, _, _, _.
  split; [exact rx_three_reach|]. split; [reflexivity|]. split; [reflexivity|].
  split; [vm_compute; reflexivity|]. split; [vm_compute; reflexivity|].
  split; [vm_compute; reflexivity|]. split; vm_compute; reflexivity.
Qed.

Lemma fx_throwing_lemma : exists t m k t2 i t1, f_built N N idhash N.eqb crc t m /\ f_tidy N N t
  /\ length m = 40%nat /\ has N N N.eqb k m = false
  /\ f_emplace N N idhash N.eqb crc f_some false k (k + 1) t = Ret t2 (i, true)
  /\ f_emplace_t N N idhash N.eqb crc f_some false k (k + 1) t = Throw t1
  /\ f_find_index N N idhash N.eqb crc t1 k = Err EUndef /\ f_traverse N N t1 = Err EUndef
  /\ f_destroy N N t1 = Err EUndef.
Proof.
  eexists fx_busy, fx_busy_map, 12345, _, _, _.
  split; [exact fx_busy_built|]. split; [apply f_tidyb_ok; vm_compute; reflexivity|].
  split; [vm_compute; reflexivity|]. split; [vm_compute; reflexivity|].
  split; [vm_compute; reflexivity|]. split; [vm_compute; reflexivity|].
  split; [vm_compute; reflexivity|]. split; vm_compute; reflexivity.
Qed.

Lemma qx_throwing_lemma : forall wide, exists t m k t2 i t1,
  q_built N N idhash N.eqb wide false t m /\ q_seen N N idhash k t
  /\ has N N N.eqb k m = false
  /\ q_emplace N N idhash N.eqb wide false 64 qal false k (k + 1) t = Ret t2 (i, true)
  /\ q_emplace_t N N idhash N.eqb wide 64 qal false k (k + 1) t = Throw t1
  /\ q_find_index N N idhash N.eqb wide t1 k = Err EUndef /\ q_traverse N N wide t1 = Err EUndef
  /\ q_destroy N N false t1 = Err EUndef.
Proof.
  intros wide. eexists (qx_busy wide false), (qx_busy_map wide false), 12345, _, _, _.
  split; [apply qx_busy_built|].
  destruct wide.
  all: split; [apply q_seenb_ok; vm_compute; reflexivity|].
  all: split; [vm_compute; reflexivity|].
  all: split; [vm_compute; reflexivity|]. all: split; [vm_compute; reflexivity|].
  all: split; [vm_compute; reflexivity|]. all: split; vm_compute; reflexivity.
Qed.
