(** Element constructors that throw while a map is copied or rehashed (C140-C141) or
    a key is inserted (C142-C144).  The functions are in ThrowModel.v and ThrowModel2.v,
    the example maps in WitnessFacts2.v and ThrowWitness.v. *)
From Coq Require Import NArith List Bool Permutation.
From Verif Require Import Base GroupModel TableModel TableInv CopyModel IterModel ReachModel MapSpec WitnessModel
  ExampleFacts WitnessFacts2 ThrowModel ThrowFacts Crc32Model RobinModel RobinSpec RobinWitness
  Flat16Model Flat16Spec Flat16Witness Robin16Model Robin16Spec Robin16Witness Robin16Example
  ThrowModel2 ThrowFacts2 ThrowFacts3 ThrowFacts4 ThrowWitness.
Import ListNotations.
Open Scope N_scope.

(** ** C140 *)

(** Copying a map whose elements' copy constructor throws at some element, whatever the
    map and the element: the exception does not reach the caller.  Either raw memory is
    destroyed as an element, or - if it is the very first element, in slot 0 - the
    arrays of the copy are lost.  If the constructors all succeed the copy is the usual
    one. *)
Theorem c140_copy_with_a_throwing_constructor :
  forall (K V : Type) (hash : K -> N) keq, lawful hash keq -> forall kd, group_kind kd ->
  forall t t' alloc past n, built K V hash keq kd t -> sane alloc -> t_size _ _ t <> 0 ->
  copy_construct K V hash kd alloc past t = Ret t' tt ->
  (t_size _ _ t <= N.of_nat n -> copy_construct_t K V hash kd n alloc past t = Ret t' tt)
  /\ (N.of_nat n < t_size _ _ t ->
      copy_construct_t K V hash kd n alloc past t = Fail EUndef
      \/ copy_construct_t K V hash kd n alloc past t = Fail ELeak
         /\ n = O /\ capacity K V kd t' = capacity K V kd t
         /\ exists kv, geti (t_slots _ _ t) 0 = Some (Some kv)).
Proof. intros K V hash keq LW kd HK. exact (built_copy_t hash keq LW kd HK). Qed.
Print Assumptions c140_copy_with_a_throwing_constructor.

(** Ten entries copied to a table of the same size: the copy succeeds with ten
    constructions, loses the arrays with none, and destroys raw memory with nine. *)
Theorem c140_exceptions_leave_the_copy_constructor_refuted : forall kd, group_kind kd ->
  built N N idhash N.eqb kd (small kd) /\ sane roomy_alloc /\ t_size _ _ (small kd) = 10
  /\ (exists t', copy_construct N N idhash kd roomy_alloc 0 (small kd) = Ret t' tt
     /\ copy_construct_t N N idhash kd 10 roomy_alloc 0 (small kd) = Ret t' tt)
  /\ copy_construct_t N N idhash kd 0 roomy_alloc 0 (small kd) = Fail ELeak
  /\ copy_construct_t N N idhash kd 9 roomy_alloc 0 (small kd) = Fail EUndef.
Proof. exact small_copy_t. Qed.
Print Assumptions c140_exceptions_leave_the_copy_constructor_refuted.

(** 35 entries copied to a smaller table. *)
Example c140_example : copy_construct_t N N idhash k15 3 roomy_alloc 0 ex15 = Fail EUndef
  /\ copy_construct_t N N idhash k16 3 roomy_alloc 0 ex16 = Fail EUndef.
Proof. exact ex15_copy_t. Qed.

(** ** C141 *)

(** Rehashing to another capacity with a constructor that throws after [m] elements: the
    map that the caller is left with counts the [m] elements, cannot be destroyed, and
    the others are in arrays that nothing points to any more.  Rehashing that keeps the
    capacity or whose constructors succeed is the usual one. *)
Theorem c141_rehash_with_a_throwing_constructor :
  forall (K V : Type) (hash : K -> N) keq, lawful hash keq -> forall kd, group_kind kd ->
  forall t t' alloc shrink n past m, built K V hash keq kd t -> sane alloc -> n <= 2 ^ 63 ->
  rehash_impl K V hash kd alloc shrink t n = Ret t' tt ->
  (t_size _ _ t <= N.of_nat m \/ capacity K V kd t' = capacity K V kd t ->
     rehash_impl_t K V hash kd m alloc shrink t n = Ret (t', []) tt)
  /\ (capacity K V kd t' <> capacity K V kd t -> N.of_nat m < t_size _ _ t ->
     exists t1 old l, rehash_impl_t K V hash kd m alloc shrink t n = Throw (t1, old)
       /\ t_size _ _ t1 = N.of_nat m /\ destroy K V kd t1 = Err EUndef
       /\ traverse K V kd past t = Ok l /\ Permutation (elems (t_slots _ _ t1) ++ elems old) l
       /\ length (elems (t_slots _ _ t1)) = m).
Proof. intros K V hash keq LW kd HK. exact (built_rehash_t hash keq LW kd HK). Qed.
Print Assumptions c141_rehash_with_a_throwing_constructor.

(** Ten entries, growing to at least 100 slots, the fifth construction throws: four
    elements are in the map and six are lost. *)
Theorem c141_a_failed_rehash_leaves_the_map_usable_refuted : forall kd, group_kind kd ->
  built N N idhash N.eqb kd (small kd) /\ sane roomy_alloc /\ t_size _ _ (small kd) = 10
  /\ exists t' t1 old,
    rehash_impl N N idhash kd roomy_alloc false (small kd) 100 = Ret t' tt
    /\ capacity N N kd t' <> capacity N N kd (small kd)
    /\ rehash_impl_t N N idhash kd 4 roomy_alloc false (small kd) 100 = Throw (t1, old)
    /\ t_size _ _ t1 = 4 /\ destroy N N kd t1 = Err EUndef
    /\ length (elems old) = 6%nat.
Proof. exact small_rehash_t. Qed.
Print Assumptions c141_a_failed_rehash_leaves_the_map_usable_refuted.

(** ** C142 *)

(** Inserting a key that a robin hood map does not have, with an element constructor
    that throws, whatever the map and the key: if the insertion would have succeeded the
    exception reaches the caller, the map counts what it counted before, but the slot is
    marked as used: looking up the key, erasing it, inserting it again, and traversing
    the map read raw memory.  If allocation throws first nothing changes. *)
Theorem c142_robin_insert_with_a_throwing_constructor :
  forall (K V : Type) (hash : K -> N) keq, lawful hash keq ->
  forall q t m alloc update k v, q = 1 \/ q = 2 -> r_reach K V hash keq q t m ->
  sane alloc -> has K V keq k m = false -> spread_all K V hash q ((k, v) :: m) ->
  match r_emplace K V hash keq 64 alloc update k v t with
  | Ret _ _ => exists t1, r_emplace_t K V hash keq 64 alloc update k v t = Throw t1
      /\ r_size _ _ t1 = N.of_nat (length m)
      /\ r_contains K V hash keq t1 k = Err EUndef /\ r_find K V hash keq t1 k = Err EUndef
      /\ r_erase K V hash keq k t1 = Fail EUndef /\ r_traverse K V t1 = Err EUndef
      /\ forall alloc update v, r_emplace K V hash keq 64 alloc update k v t1 = Fail EUndef
  | Throw t' => r_emplace_t K V hash keq 64 alloc update k v t = Throw t'
  | Fail _ => False
  end.
Proof. intros K V hash keq LW. exact (reach_insert_t hash keq LW). Qed.
Print Assumptions c142_robin_insert_with_a_throwing_constructor.

(** Three entries; the slot of the new key is taken, so the entry there would move. *)
Theorem c142_robin_map_is_usable_after_an_exception_refuted :
  exists t m k t2 i t1, r_reach N N idhash N.eqb 2 t m /\ length m = 3%nat
  /\ has N N N.eqb k m = false
  /\ r_emplace N N idhash N.eqb 64 some_alloc false k (k + 1) t = Ret t2 (i, true)
  /\ r_emplace_t N N idhash N.eqb 64 some_alloc false k (k + 1) t = Throw t1
  /\ r_size _ _ t1 = 3
  /\ r_contains N N idhash N.eqb t1 k = Err EUndef /\ r_traverse N N t1 = Err EUndef.
Proof. exact rx_throw_lemma. Qed.
Print Assumptions c142_robin_map_is_usable_after_an_exception_refuted.

(** ** C143 *)

(** The same in the flat16 map, where destroying the map is undefined as well. *)
Theorem c143_flat16_insert_with_a_throwing_constructor :
  forall (K V : Type) (hash : K -> N) keq (mix : N -> N), lawful hash keq ->
  forall t m alloc update k v, f_built K V hash keq mix t m -> f_sane alloc ->
  f_tidy K V t \/ f_roomy K V t -> has K V keq k m = false ->
  match f_emplace K V hash keq mix alloc update k v t with
  | Ret _ _ => exists t1, f_emplace_t K V hash keq mix alloc update k v t = Throw t1
      /\ Permutation (elems (f_slots _ _ t1)) m
      /\ f_find_index K V hash keq mix t1 k = Err EUndef /\ f_erase K V hash keq mix k t1 = Err EUndef
      /\ f_traverse K V t1 = Err EUndef /\ f_destroy K V t1 = Err EUndef
      /\ forall alloc update v, f_emplace K V hash keq mix alloc update k v t1 = Fail EUndef
  | Throw t' => f_emplace_t K V hash keq mix alloc update k v t = Throw t'
  | Fail _ => False
  end.
Proof. intros K V hash keq mix LW. exact (f_built_insert_t hash keq mix LW). Qed.
Print Assumptions c143_flat16_insert_with_a_throwing_constructor.

(** Forty entries. *)
Theorem c143_flat16_map_is_usable_after_an_exception_refuted :
  exists t m k t2 i t1, f_built N N idhash N.eqb simple_int_hash_crc32 t m /\ f_tidy N N t
  /\ length m = 40%nat /\ has N N N.eqb k m = false
  /\ f_emplace N N idhash N.eqb simple_int_hash_crc32 f_some false k (k + 1) t = Ret t2 (i, true)
  /\ f_emplace_t N N idhash N.eqb simple_int_hash_crc32 f_some false k (k + 1) t = Throw t1
  /\ f_find_index N N idhash N.eqb simple_int_hash_crc32 t1 k = Err EUndef
  /\ f_traverse N N t1 = Err EUndef /\ f_destroy N N t1 = Err EUndef.
Proof. exact fx_throwing_lemma. Qed.
Print Assumptions c143_flat16_map_is_usable_after_an_exception_refuted.

(** ** C144 *)

(** The same in the robin16 map. *)
Theorem c144_robin16_insert_with_a_throwing_constructor :
  forall (K V : Type) (hash : K -> N) keq, lawful hash keq ->
  forall wide t m alloc update k v, q_built K V hash keq wide false t m -> f_sane alloc ->
  q_seen K V hash k t -> has K V keq k m = false -> q_fine K V hash ((k, v) :: m) ->
  match q_emplace K V hash keq wide false 64 alloc update k v t with
  | Ret _ _ => exists t1, q_emplace_t K V hash keq wide 64 alloc update k v t = Throw t1
      /\ Permutation (elems (q_slots _ _ t1)) m
      /\ q_find_index K V hash keq wide t1 k = Err EUndef
      /\ q_erase K V hash keq wide false k t1 = Err EUndef
      /\ q_traverse K V wide t1 = Err EUndef /\ q_destroy K V false t1 = Err EUndef
      /\ forall alloc update v, q_emplace K V hash keq wide false 64 alloc update k v t1 = Fail EUndef
  | Throw t' => q_emplace_t K V hash keq wide 64 alloc update k v t = Throw t'
  | Fail _ => False
  end.
Proof. intros K V hash keq LW. exact (q_built_insert_t hash keq LW). Qed.
Print Assumptions c144_robin16_insert_with_a_throwing_constructor.

Theorem c144_robin16_map_is_usable_after_an_exception_refuted : forall wide, exists t m k t2 i t1,
  q_built N N idhash N.eqb wide false t m /\ q_seen N N idhash k t
  /\ has N N N.eqb k m = false
  /\ q_emplace N N idhash N.eqb wide false 64 qal false k (k + 1) t = Ret t2 (i, true)
  /\ q_emplace_t N N idhash N.eqb wide 64 qal false k (k + 1) t = Throw t1
  /\ q_find_index N N idhash N.eqb wide t1 k = Err EUndef /\ q_traverse N N wide t1 = Err EUndef
  /\ q_destroy N N false t1 = Err EUndef.
Proof. exact qx_throwing_lemma. Qed.
Print Assumptions c144_robin16_map_is_usable_after_an_exception_refuted.
