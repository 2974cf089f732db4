(** Hashers that throw, in the robin hood (C182), flat16 (C183) and robin16 (C184) maps.
    The specification is in Hasher2Spec.v. *)
From Coq Require Import NArith List Bool Permutation.
From Verif Require Import Base TableModel TableInv MapSpec ReachModel WitnessModel RobinModel RobinSpec RobinWitness
  Flat16Model Flat16Spec Flat16Witness Robin16Model Robin16Spec Robin16Witness Robin16Example
  Crc32Model Hasher2Model Hasher2Spec Hasher2Robin Hasher2Flat16 Hasher2Robin16 Hasher2Witness
  Hasher2Shrink.
Import ListNotations.
Open Scope N_scope.

(** ** C182 *)

(** An insertion whose hasher throws: nothing happens if it is the new key that is hashed;
    if the map is growing it keeps the elements hashed so far and loses the others. *)
Theorem c182_insert_with_a_throwing_hasher :
  forall (K V : Type) (hash : K -> N) keq, lawful hash keq ->
  forall q t m alloc update k v, q = 1 \/ q = 2 -> r_reach K V hash keq q t m -> sane alloc ->
  spread_all K V hash q (put_new K V keq k v m) ->
  r_emplace_h K V hash keq 64 0 alloc update k v t = Throw (t, [])
  /\ forall n, match r_emplace K V hash keq 64 alloc update k v t with
  | Ret t' r =>
      (r_size _ _ t <= N.of_nat n \/ r_mask _ _ t' = r_mask _ _ t ->
         r_emplace_h K V hash keq 64 (S n) alloc update k v t = Ret (t', []) r)
      /\ (r_mask _ _ t' <> r_mask _ _ t -> N.of_nat n < r_size _ _ t ->
         exists t1 kept lost, r_emplace_h K V hash keq 64 (S n) alloc update k v t = Throw (t1, lost)
           /\ r_behaves_as K V hash keq q t1 kept /\ r_mask _ _ t1 = r_mask _ _ t'
           /\ Permutation (kept ++ lost) m /\ length kept = n)
  | Throw t' => r_emplace_h K V hash keq 64 (S n) alloc update k v t = Throw (t', [])
  | Fail _ => False
  end.
Proof. intros K V hash keq LW. exact (robin_emplace_h hash keq LW). Qed.
Print Assumptions c182_insert_with_a_throwing_hasher.

Theorem c182_rehash_with_a_throwing_hasher :
  forall (K V : Type) (hash : K -> N) keq, lawful hash keq ->
  forall q t m alloc n more, q = 1 \/ q = 2 -> r_reach K V hash keq q t m -> sane alloc ->
  spread_all K V hash q m -> n <= 2 ^ 50 -> q = 1 \/ r_size _ _ t <= n ->
  match r_rehash K V hash keq alloc n t with
  | Ret t' _ =>
      (r_size _ _ t <= N.of_nat more \/ r_mask _ _ t' = r_mask _ _ t ->
         exists rest, r_rehash_h K V hash keq more alloc n t = Ret (t', []) rest)
      /\ (r_mask _ _ t' <> r_mask _ _ t -> N.of_nat more < r_size _ _ t ->
         exists t1 kept lost, r_rehash_h K V hash keq more alloc n t = Throw (t1, lost)
           /\ r_behaves_as K V hash keq q t1 kept /\ r_mask _ _ t1 = r_mask _ _ t'
           /\ Permutation (kept ++ lost) m /\ length kept = more)
  | Throw t' => r_rehash_h K V hash keq more alloc n t = Throw (t', [])
  | Fail _ => False
  end.
Proof. intros K V hash keq LW. exact (robin_rehash_h hash keq LW). Qed.
Print Assumptions c182_rehash_with_a_throwing_hasher.

Theorem c182_shrink_with_a_throwing_hasher :
  forall (K V : Type) (hash : K -> N) keq, lawful hash keq ->
  forall q t m alloc (read_only : bool) more, q = 1 \/ q = 2 -> r_reach K V hash keq q t m -> sane alloc ->
  spread_all K V hash q m -> q = 1 \/ read_only = false ->
  match r_shrink K V hash keq alloc read_only t with
  | Ret t' _ =>
      (r_size _ _ t <= N.of_nat more \/ r_mask _ _ t' = r_mask _ _ t ->
         exists rest, r_shrink_h K V hash keq more alloc read_only t = Ret (t', []) rest)
      /\ (r_mask _ _ t' <> r_mask _ _ t -> N.of_nat more < r_size _ _ t ->
         exists t1 kept lost, r_shrink_h K V hash keq more alloc read_only t = Throw (t1, lost)
           /\ r_behaves_as K V hash keq q t1 kept /\ r_mask _ _ t1 = r_mask _ _ t'
           /\ Permutation (kept ++ lost) m /\ length kept = more)
  | Throw t' => r_shrink_h K V hash keq more alloc read_only t = Throw (t', [])
  | Fail _ => False
  end.
Proof. intros K V hash keq LW. exact (robin_shrink_h hash keq LW). Qed.
Print Assumptions c182_shrink_with_a_throwing_hasher.

(** Eight elements in 256 slots; the hasher throws at its fourth call. *)
Theorem c182_a_failed_shrink_keeps_the_elements_refuted :
  r_reach N N idhash N.eqb 2 hx_wide hx_wide_map /\ sane some_alloc
  /\ spread_all N N idhash 2 hx_wide_map
  /\ (exists t', r_shrink N N idhash N.eqb some_alloc false hx_wide = Ret t' tt /\ r_mask _ _ t' = 15)
  /\ exists t1 lost, r_shrink_h N N idhash N.eqb 3 some_alloc false hx_wide = Throw (t1, lost)
  /\ r_size _ _ hx_wide = 8 /\ r_mask _ _ hx_wide = 255
  /\ r_size _ _ t1 = 3 /\ r_mask _ _ t1 = 15 /\ length lost = 5%nat.
Proof. exact hx_wide_lemma. Qed.
Print Assumptions c182_a_failed_shrink_keeps_the_elements_refuted.

(** Sixteen elements; the hasher throws at its sixth call. *)
Theorem c182_a_failed_insertion_keeps_the_elements_refuted :
  r_reach N N idhash N.eqb 2 hx_robin hx_robin_map /\ sane some_alloc
  /\ exists t1 lost, r_emplace_h N N idhash N.eqb 64 5 some_alloc false 16 0 hx_robin = Throw (t1, lost)
  /\ r_size _ _ t1 = 4 /\ length lost = 12%nat
  /\ r_step N N idhash N.eqb some_alloc (OContains N N 15) hx_robin = Ret hx_robin (RBool N N true)
  /\ r_step N N idhash N.eqb some_alloc (OContains N N 15) t1 = Ret t1 (RBool N N false).
Proof. exact hx_robin_loses. Qed.
Print Assumptions c182_a_failed_insertion_keeps_the_elements_refuted.

Theorem c182_a_failed_rehash_keeps_the_elements_refuted :
  r_reach N N idhash N.eqb 2 hx_robin hx_robin_map /\ sane some_alloc
  /\ exists t1 lost, r_rehash_h N N idhash N.eqb 3 some_alloc 100 hx_robin = Throw (t1, lost)
  /\ r_size _ _ t1 = 3 /\ length lost = 13%nat.
Proof. exact hx_robin_rehash_loses. Qed.
Print Assumptions c182_a_failed_rehash_keeps_the_elements_refuted.

Example c182_example : lawful idhash N.eqb /\ r_reach N N idhash N.eqb 2 hx_robin hx_robin_map /\ sane some_alloc
  /\ spread_all N N idhash 2 (put_new N N N.eqb 16 0 hx_robin_map)
  /\ (r_size _ _ hx_robin, r_mask _ _ hx_robin, length hx_robin_map) = (16, 31, 16%nat)
  /\ exists t' r, r_emplace N N idhash N.eqb 64 some_alloc false 16 0 hx_robin = Ret t' r /\ r_mask _ _ t' = 63.
Proof. exact hx_robin_lemma. Qed.

(** ** C183 *)

(** The number of calls of the hasher, and what happens if one of them throws. *)
Theorem c183_insert_with_a_throwing_hasher :
  forall (K V : Type) (hash : K -> N) keq mix, lawful hash keq ->
  forall t m alloc update k v n, f_built K V hash keq mix t m -> f_sane alloc ->
  f_client K V hash (OInsert K V k v) t ->
  hashed_until (f_cap K V) (f_cap K V t) (N.of_nat (length m)) (N.of_nat n)
    (f_emplace K V hash keq mix alloc update k v t) (f_emplace_h K V hash keq mix n alloc update k v t).
Proof. intros K V hash keq mix LW. exact (flat16_emplace_h hash keq mix LW). Qed.
Print Assumptions c183_insert_with_a_throwing_hasher.

Theorem c183_rehash_with_a_throwing_hasher :
  forall (K V : Type) (hash : K -> N) keq mix, lawful hash keq ->
  forall t m alloc n more, f_built K V hash keq mix t m -> f_sane alloc ->
  f_client K V hash (ORehash K V n) t ->
  rehashed_until (f_cap K V) (f_cap K V t) (N.of_nat (length m)) more
    (f_rehash K V hash mix alloc false n t) (f_rehash_h K V hash mix more alloc n t).
Proof. intros K V hash keq mix LW. exact (flat16_rehash_h hash keq mix LW). Qed.
Print Assumptions c183_rehash_with_a_throwing_hasher.

Theorem c183_an_exception_of_the_hasher_can_be_caught_refuted :
  f_built N N idhash N.eqb simple_int_hash_crc32 fx_full fx_full_map /\ f_sane f_some
  /\ f_client N N idhash (OInsert N N 500 0) fx_full
  /\ (forall n, (n <= 33)%nat ->
        f_emplace_h N N idhash N.eqb simple_int_hash_crc32 n f_some false 500 0 fx_full = None)
  /\ f_rehash_h N N idhash simple_int_hash_crc32 31 f_some 100 fx_full = None.
Proof. exact hx_flat16_ends. Qed.
Print Assumptions c183_an_exception_of_the_hasher_can_be_caught_refuted.

Example c183_example : lawful idhash N.eqb
  /\ f_built N N idhash N.eqb simple_int_hash_crc32 fx_full fx_full_map /\ f_sane f_some
  /\ f_client N N idhash (OInsert N N 500 0) fx_full /\ f_client N N idhash (ORehash N N 100) fx_full
  /\ (length fx_full_map, f_cap _ _ fx_full) = (32%nat, 64)
  /\ exists t' r, f_emplace N N idhash N.eqb simple_int_hash_crc32 f_some false 500 0 fx_full = Ret t' r
  /\ f_cap _ _ t' = 128
  /\ f_emplace_h N N idhash N.eqb simple_int_hash_crc32 34 f_some false 500 0 fx_full = Some (Ret t' r).
Proof. exact hx_flat16_lemma. Qed.

(** ** C184 *)

Theorem c184_insert_with_a_throwing_hasher :
  forall (K V : Type) (hash : K -> N) keq, lawful hash keq -> forall wide trivial,
  forall t m alloc update k v n, q_built K V hash keq wide trivial t m -> f_sane alloc ->
  q_client K V hash keq (OInsert K V k v) t -> q_fine K V hash (put_new K V keq k v m) ->
  hashed_until (q_cap K V) (q_cap K V t) (N.of_nat (length m)) (N.of_nat n)
    (q_emplace K V hash keq wide trivial 64 alloc update k v t)
    (q_emplace_h K V hash keq wide trivial 64 n alloc update k v t).
Proof. intros K V hash keq LW wide trivial. exact (robin16_emplace_h hash keq LW wide trivial). Qed.
Print Assumptions c184_insert_with_a_throwing_hasher.

Theorem c184_rehash_with_a_throwing_hasher :
  forall (K V : Type) (hash : K -> N) keq, lawful hash keq -> forall wide trivial,
  forall t m alloc n more, q_built K V hash keq wide trivial t m -> f_sane alloc -> n <= 2 ^ 44 ->
  rehashed_until (q_cap K V) (q_cap K V t) (N.of_nat (length m)) more
    (q_rehash K V hash keq wide trivial alloc false n t) (q_rehash_h K V hash keq wide trivial more alloc n t).
Proof. intros K V hash keq LW wide trivial. exact (robin16_rehash_h hash keq LW wide trivial). Qed.
Print Assumptions c184_rehash_with_a_throwing_hasher.

Theorem c184_an_exception_of_the_hasher_can_be_caught_refuted : forall wide trivial,
  q_built N N idhash N.eqb wide trivial (hx_robin16 wide trivial) (hx_robin16_map wide trivial) /\ f_sane qal
  /\ q_client N N idhash N.eqb (OInsert N N 500 0) (hx_robin16 wide trivial)
  /\ q_fine N N idhash (put_new N N N.eqb 500 0 (hx_robin16_map wide trivial))
  /\ (forall n, (n <= 34)%nat ->
        q_emplace_h N N idhash N.eqb wide trivial 64 n qal false 500 0 (hx_robin16 wide trivial) = None)
  /\ q_rehash_h N N idhash N.eqb wide trivial 15 qal 100 (hx_robin16 wide trivial) = None.
Proof. exact hx_robin16_ends. Qed.
Print Assumptions c184_an_exception_of_the_hasher_can_be_caught_refuted.

(** The load factor has been lowered: the capacity is doubled twice, 1 + 2 * 17 calls. *)
Example c184_example : forall wide trivial, lawful idhash N.eqb
  /\ q_built N N idhash N.eqb wide trivial (hx_robin16 wide trivial) (hx_robin16_map wide trivial) /\ f_sane qal
  /\ q_client N N idhash N.eqb (OInsert N N 500 0) (hx_robin16 wide trivial)
  /\ q_fine N N idhash (put_new N N N.eqb 500 0 (hx_robin16_map wide trivial))
  /\ (length (hx_robin16_map wide trivial), q_cap _ _ (hx_robin16 wide trivial)) = (16%nat, 32)
  /\ exists t' r, q_emplace N N idhash N.eqb wide trivial 64 qal false 500 0 (hx_robin16 wide trivial) = Ret t' r
  /\ q_cap _ _ t' = 128
  /\ q_emplace_h N N idhash N.eqb wide trivial 64 35 qal false 500 0 (hx_robin16 wide trivial) = Some (Ret t' r).
Proof. exact hx_robin16_lemma. Qed.
