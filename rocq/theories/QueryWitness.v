(** Example maps for bucket(), at(), equal_range() and load_factor(). *)
From Coq Require Import NArith ZArith List Bool Lia Permutation.
From Coq Require Import ZifyBool ZifyNat ZifyN.
From Verif Require Import Base BaseFacts GroupModel TableModel TableInv MapSpec MapFacts
  ReachModel WitnessModel WitnessFacts ExampleFacts Crc32Model RobinModel RobinSpec RobinRefine RobinWitness
  Flat16Model Flat16Spec Flat16Runs Flat16Witness Robin16Model Robin16Spec Robin16Refine
  Robin16Witness Robin16Example QueryModel.
Import ListNotations.
Open Scope N_scope.

Notation crc := simple_int_hash_crc32.

(** Thirty entries in 1024 slots. *)
Definition fxq_wide : fm := fst (f_get (f_chased 1000 (puts (map (N.mul 20) (seqN 30))))).
Definition fxq_wide_map : list (N * N) := snd (f_get (f_chased 1000 (puts (map (N.mul 20) (seqN 30))))).

Lemma fxq_wide_built : f_built N N idhash N.eqb crc fxq_wide fxq_wide_map.
Proof. apply f_get_built; [lia|vm_compute; reflexivity]. Qed.

Lemma fxq_bucket_lemma : exists t m k b,
  f_built N N idhash N.eqb crc t m /\ has N N N.eqb k m = true
  /\ f_bucket N N idhash N.eqb crc t k = Ok b /\ f_bucket_count N N t <= b /\ b <> f_npos.
Proof.
  exists fxq_wide, fxq_wide_map.
  assert (E : exists k b, has N N N.eqb k fxq_wide_map = true
    /\ f_bucket N N idhash N.eqb crc fxq_wide k = Ok b /\ (16 <=? b) && negb (b =? f_npos) = true).
  { exists 580. eexists. split; [vm_compute; reflexivity|]. split; vm_compute; reflexivity. }
  destruct E as (k & b & E1 & E2 & E3). exists k, b. split; [apply fxq_wide_built|].
  do 2 (split; [auto|]). apply andb_true_iff in E3. destruct E3 as [E3 E4].
  unfold f_bucket_count. split; [lia|]. intros ->. rewrite N.eqb_refl in E4. discriminate.
Qed.

Lemma qxq_bucket_lemma : forall wide trivial, exists t m k b,
  q_built N N idhash N.eqb wide trivial t m /\ has N N N.eqb k m = true /\ q_seen N N idhash k t
  /\ q_bucket N N idhash N.eqb wide t k = Ok b /\ q_bucket_count N N t <= b.
Proof.
  intros wide trivial. exists (qx_busy wide trivial), (qx_busy_map wide trivial), 414.
  eexists. split; [apply qx_busy_built|]. split; [destruct wide, trivial; vm_compute; reflexivity|].
  split; [left; destruct wide, trivial; vm_compute; discriminate|].
  split; [destruct wide, trivial; vm_compute; reflexivity|]. vm_compute. discriminate.
Qed.

Lemma rxq_bucket_lemma : exists t m k b,
  r_reach N N idhash N.eqb 2 t m /\ has N N N.eqb k m = true
  /\ r_bucket N N idhash N.eqb t k = Ok b /\ r_bucket_count N N t <= b.
Proof.
  exists rx_crowd, (snd (chased 2 rx_crowd_ops)), 63. eexists. split; [apply chased_reach; lia|].
  split; [vm_compute; reflexivity|]. split; [vm_compute; reflexivity|]. vm_compute. discriminate.
Qed.

(** A map without storage. *)
Lemma rxq_range_lemma : exists k,
  r_reach N N idhash N.eqb 2 (rnew N N) []
  /\ r_equal_range N N idhash N.eqb (rnew N N) k = Ok (0, 4)
  /\ r_range N N idhash N.eqb (rnew N N) k = Err EUndef.
Proof. exists 7. split; [constructor|]. vm_compute. auto. Qed.

Lemma rxq_load_lemma : exists t, r_reach N N idhash N.eqb 2 t [] /\ r_load N N t = (0, 0).
Proof. exists (rnew N N). split; [constructor|]. reflexivity. Qed.

Lemma fxq_example_lemma :
  lawful idhash N.eqb /\ f_built N N idhash N.eqb crc fx_busy fx_busy_map
  /\ f_bucket N N idhash N.eqb crc fx_busy 129 = Ok 1
  /\ f_bucket N N idhash N.eqb crc fx_busy 500 = Ok f_npos
  /\ f_range N N idhash N.eqb crc fx_busy 7 = Ok [(7, 70)]
  /\ f_range N N idhash N.eqb crc fx_busy 500 = Ok []
  /\ f_load N N fx_busy = (40, 128).
Proof.
  split; [exact idlaw|]. split; [apply fx_busy_built|]. vm_compute. auto 8.
Qed.

Lemma qxq_example_lemma : forall wide trivial,
  lawful idhash N.eqb /\ q_built N N idhash N.eqb wide trivial (qx_busy wide trivial) (qx_busy_map wide trivial)
  /\ q_seen N N idhash 414 (qx_busy wide trivial)
  /\ q_at N N idhash N.eqb wide (qx_busy wide trivial) 414 = Ok (Some 415)
  /\ q_at N N idhash N.eqb wide (qx_busy wide trivial) 8 = Ok None
  /\ q_count N N idhash N.eqb wide (qx_busy wide trivial) 414 = Ok 1
  /\ q_count N N idhash N.eqb wide (qx_busy wide trivial) 8 = Ok 0
  /\ q_range N N idhash N.eqb wide (qx_busy wide trivial) 414 = Ok [(414, 415)]
  /\ q_range N N idhash N.eqb wide (qx_busy wide trivial) 8 = Ok []
  /\ q_bucket N N idhash N.eqb wide (qx_busy wide trivial) 8 = Ok 256
  /\ q_load N N (qx_busy wide trivial) = (67, 256).
Proof.
  intros wide trivial. split; [exact idlaw|]. split; [apply qx_busy_built|].
  split; [left; destruct wide, trivial; vm_compute; discriminate|].
  destruct wide, trivial; vm_compute; auto 12.
Qed.

Lemma rxq_example_lemma :
  lawful idhash N.eqb /\ r_reach N N idhash N.eqb 2 rx_crowd (snd (chased 2 rx_crowd_ops))
  /\ r_alloc _ _ rx_crowd = true
  /\ (exists b, r_bucket N N idhash N.eqb rx_crowd 63 = Ok b /\ b < r_end N N rx_crowd)
  /\ r_bucket N N idhash N.eqb rx_crowd 4 = Ok (r_end N N rx_crowd)
  /\ r_range N N idhash N.eqb rx_crowd 63 = Ok [(63, 5)]
  /\ r_range N N idhash N.eqb rx_crowd 4 = Ok []
  /\ r_load N N rx_crowd = (11, 32).
Proof.
  split; [exact idlaw|]. split; [apply chased_reach; lia|]. split; [reflexivity|].
  split; [eexists; split; vm_compute; reflexivity|]. vm_compute. auto.
Qed.
