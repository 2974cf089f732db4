(** bucket(), at(), count(), equal_range() and load_factor() of the flat16, robin16 and robin
    maps (C201-C205).  The model is QueryModel.v. *)
From Coq Require Import NArith List Bool Permutation.
From Verif Require Import Base TableModel TableInv MapSpec WitnessModel Crc32Model RobinModel RobinSpec RobinWitness
  Flat16Model Flat16Spec Flat16Witness Robin16Model Robin16Spec Robin16Witness Robin16Example
  QueryModel QueryFlat16 QueryRobin16 QueryRobin QueryWitness.
Import ListNotations.
Open Scope N_scope.

(** ** C201 *)

(** A present key whose bucket() is not below bucket_count(). *)
Theorem c201_a_flat16_bucket_is_below_bucket_count_refuted : exists t m k b,
  f_built N N idhash N.eqb simple_int_hash_crc32 t m /\ has N N N.eqb k m = true
  /\ f_bucket N N idhash N.eqb simple_int_hash_crc32 t k = Ok b /\ f_bucket_count N N t <= b /\ b <> f_npos.
Proof. exact fxq_bucket_lemma. Qed.
Print Assumptions c201_a_flat16_bucket_is_below_bucket_count_refuted.

Theorem c201_a_robin16_bucket_is_below_bucket_count_refuted : forall wide trivial, exists t m k b,
  q_built N N idhash N.eqb wide trivial t m /\ has N N N.eqb k m = true /\ q_seen N N idhash k t
  /\ q_bucket N N idhash N.eqb wide t k = Ok b /\ q_bucket_count N N t <= b.
Proof. exact qxq_bucket_lemma. Qed.
Print Assumptions c201_a_robin16_bucket_is_below_bucket_count_refuted.

Theorem c201_a_robin_bucket_is_below_bucket_count_refuted : exists t m k b,
  r_reach N N idhash N.eqb 2 t m /\ has N N N.eqb k m = true
  /\ r_bucket N N idhash N.eqb t k = Ok b /\ r_bucket_count N N t <= b.
Proof. exact rxq_bucket_lemma. Qed.
Print Assumptions c201_a_robin_bucket_is_below_bucket_count_refuted.

(** bucket() is the number of the group of the element, or npos if there is none. *)
Theorem c201_a_flat16_bucket_holds_the_key_partial :
  forall (K V : Type) (mix : N -> N) (hash : K -> N) (keq : K -> K -> bool), lawful hash keq ->
  forall t m k, f_built K V hash keq mix t m ->
  exists b, f_bucket K V hash keq mix t k = Ok b
  /\ (has K V keq k m = true -> b <> f_npos /\ b * 16 < f_cap K V t
        /\ exists i kv, i / 16 = b /\ geti (f_slots _ _ t) i = Some (Some kv) /\ keq k (fst kv) = true)
  /\ (has K V keq k m = false -> b = f_npos).
Proof. exact @f_bucket_spec. Qed.
Print Assumptions c201_a_flat16_bucket_holds_the_key_partial.

(** bucket() is the number of the slot of the element, or of the one past the last. *)
Theorem c201_a_robin16_bucket_holds_the_key_partial :
  forall (K V : Type) (wide trivial : bool) (hash : K -> N) (keq : K -> K -> bool), lawful hash keq ->
  forall t m k, q_built K V hash keq wide trivial t m -> q_seen K V hash k t ->
  exists b, q_bucket K V hash keq wide t k = Ok b
  /\ (has K V keq k m = true -> b < q_cap K V t
        /\ exists kv, geti (q_slots _ _ t) b = Some (Some kv) /\ keq k (fst kv) = true)
  /\ (has K V keq k m = false -> b = q_cap K V t).
Proof. exact @q_bucket_spec. Qed.
Print Assumptions c201_a_robin16_bucket_holds_the_key_partial.

Theorem c201_a_robin_bucket_holds_the_key_partial :
  forall (K V : Type) (hash : K -> N) (keq : K -> K -> bool), lawful hash keq ->
  forall q t m k, q = 1 \/ q = 2 -> r_reach K V hash keq q t m ->
  exists b, r_bucket K V hash keq t k = Ok b
  /\ (has K V keq k m = true -> b < r_end K V t
        /\ exists kv, geti (r_slots _ _ t) b = Some (Some kv) /\ keq k (fst kv) = true)
  /\ (has K V keq k m = false -> b = r_end K V t).
Proof. exact @r_bucket_spec. Qed.
Print Assumptions c201_a_robin_bucket_holds_the_key_partial.

(** ** C202 *)

(** at() returns the value of the entry with the key, and throws if there is none;
    count() is the number of entries with the key. *)
Theorem c202_robin16_at_and_count :
  forall (K V : Type) (wide trivial : bool) (hash : K -> N) (keq : K -> K -> bool), lawful hash keq ->
  forall t m k, q_built K V hash keq wide trivial t m -> q_seen K V hash k t ->
  q_at K V hash keq wide t k = Ok (match get K V keq k m with Some kv => Some (snd kv) | None => None end)
  /\ q_count K V hash keq wide t k = Ok (N.of_nat (length (filter (fun e => keq k (fst e)) m))).
Proof. exact @q_at_spec. Qed.
Print Assumptions c202_robin16_at_and_count.

(** ** C203 *)

(** What a loop over equal_range(k) visits. *)
Theorem c203_flat16_equal_range :
  forall (K V : Type) (mix : N -> N) (hash : K -> N) (keq : K -> K -> bool), lawful hash keq ->
  forall t m k, f_built K V hash keq mix t m ->
  f_range K V hash keq mix t k = Ok (filter (fun e => keq k (fst e)) m).
Proof. exact @f_range_spec. Qed.
Print Assumptions c203_flat16_equal_range.

Theorem c203_robin16_equal_range :
  forall (K V : Type) (wide trivial : bool) (hash : K -> N) (keq : K -> K -> bool), lawful hash keq ->
  forall t m k, q_built K V hash keq wide trivial t m -> q_seen K V hash k t ->
  q_range K V hash keq wide t k = Ok (filter (fun e => keq k (fst e)) m).
Proof. exact @q_range_spec. Qed.
Print Assumptions c203_robin16_equal_range.

(** ** C204 *)

(** In a map without storage the range is not empty, and a loop over it reads through a
    null pointer. *)
Theorem c204_robin_equal_range_refuted : exists k,
  r_reach N N idhash N.eqb 2 (rnew N N) []
  /\ r_equal_range N N idhash N.eqb (rnew N N) k = Ok (0, 4)
  /\ r_range N N idhash N.eqb (rnew N N) k = Err EUndef.
Proof. exact rxq_range_lemma. Qed.
Print Assumptions c204_robin_equal_range_refuted.

Theorem c204_robin_equal_range_with_storage_partial :
  forall (K V : Type) (hash : K -> N) (keq : K -> K -> bool), lawful hash keq ->
  forall q t m k, q = 1 \/ q = 2 -> r_reach K V hash keq q t m -> r_alloc _ _ t = true ->
  r_range K V hash keq t k = Ok (filter (fun e => keq k (fst e)) m).
Proof. exact @r_range_spec. Qed.
Print Assumptions c204_robin_equal_range_with_storage_partial.

(** ** C205 *)

(** load_factor() of a map without storage is 0 / 0. *)
Theorem c205_load_factor_is_a_number_refuted : exists t,
  r_reach N N idhash N.eqb 2 t [] /\ r_load N N t = (0, 0).
Proof. exact rxq_load_lemma. Qed.
Print Assumptions c205_load_factor_is_a_number_refuted.

Theorem c205_robin_load_factor_with_storage_partial :
  forall (K V : Type) (hash : K -> N) (keq : K -> K -> bool), lawful hash keq ->
  forall q t m, q = 1 \/ q = 2 -> r_reach K V hash keq q t m -> r_alloc _ _ t = true ->
  let (n, d) := r_load K V t in n = N.of_nat (length m) /\ q * n <= d /\ 0 < d.
Proof. exact @r_load_spec. Qed.
Print Assumptions c205_robin_load_factor_with_storage_partial.

Theorem c205_flat16_load_factor_partial :
  forall (K V : Type) (mix : N -> N) (hash : K -> N) (keq : K -> K -> bool), lawful hash keq ->
  forall t m, f_built K V hash keq mix t m ->
  let (n, d) := f_load K V t in n = N.of_nat (length m) /\ n <= d /\ 0 < d.
Proof. exact @f_load_spec. Qed.
Print Assumptions c205_flat16_load_factor_partial.

Theorem c205_robin16_load_factor_partial :
  forall (K V : Type) (wide trivial : bool) (hash : K -> N) (keq : K -> K -> bool), lawful hash keq ->
  forall t m, q_built K V hash keq wide trivial t m ->
  let (n, d) := q_load K V t in n = N.of_nat (length m) /\ n <= d /\ 0 < d.
Proof. exact @q_load_spec. Qed.
Print Assumptions c205_robin16_load_factor_partial.

(** ** Maps that the theorems apply to *)

Example c201_c203_c205_flat16_example :
  lawful idhash N.eqb /\ f_built N N idhash N.eqb simple_int_hash_crc32 fx_busy fx_busy_map
  /\ f_bucket N N idhash N.eqb simple_int_hash_crc32 fx_busy 129 = Ok 1
  /\ f_bucket N N idhash N.eqb simple_int_hash_crc32 fx_busy 500 = Ok f_npos
  /\ f_range N N idhash N.eqb simple_int_hash_crc32 fx_busy 7 = Ok [(7, 70)]
  /\ f_range N N idhash N.eqb simple_int_hash_crc32 fx_busy 500 = Ok []
  /\ f_load N N fx_busy = (40, 128).
Proof. exact fxq_example_lemma. Qed.

Example c201_c202_c203_c205_robin16_example : forall wide trivial,
  lawful idhash N.eqb /\ q_built N N idhash N.eqb wide trivial (qx_busy wide trivial) (qx_busy_map wide trivial)
  /\ q_seen N N idhash 414 (qx_busy wide trivial)
  /\ q_at N N idhash N.eqb wide (qx_busy wide trivial) 414 = Ok (Some 415)
  /\ q_at N N idhash N.eqb wide (qx_busy wide trivial) 8 = Ok None
  /\ q_count N N idhash N.eqb wide (qx_busy wide trivial) 414 = Ok 1
  /\ q_count N N idhash N.eqb wide (qx_busy wide trivial) 8 = Ok 0
  /\ q_range N N idhash N.eqb wide (qx_busy wide trivial) 414 = Ok [(414, 415)]
  /\ q_range N N idhash N.eqb wide (qx_busy wide trivial) 8 = Ok []
  /\ q_bucket N N idhash N.eqb wide (qx_busy wide trivial) 8 = Ok 256
  /\ q_load N N (qx_busy wide trivial) = (67, 256).
Proof. exact qxq_example_lemma. Qed.

Example c201_c204_c205_robin_example :
  lawful idhash N.eqb /\ r_reach N N idhash N.eqb 2 rx_crowd (snd (chased 2 rx_crowd_ops))
  /\ r_alloc _ _ rx_crowd = true
  /\ (exists b, r_bucket N N idhash N.eqb rx_crowd 63 = Ok b /\ b < r_end N N rx_crowd)
  /\ r_bucket N N idhash N.eqb rx_crowd 4 = Ok (r_end N N rx_crowd)
  /\ r_range N N idhash N.eqb rx_crowd 63 = Ok [(63, 5)]
  /\ r_range N N idhash N.eqb rx_crowd 4 = Ok []
  /\ r_load N N rx_crowd = (11, 32).
Proof. exact rxq_example_lemma. Qed.
