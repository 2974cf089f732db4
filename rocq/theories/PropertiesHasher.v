(** Hashers that throw (C173) and the insertion through a temporary slot (C174).  The
    specification is in HasherSpec.v. *)
From Coq Require Import NArith List Bool Permutation.
From Verif Require Import Base GroupModel TableModel TableInv CopyModel MapSpec RunModel ReachModel
  WitnessModel WitnessFacts2 ExampleFacts ArgWitness HasherModel HasherSpec HasherFacts HasherWitness.
Import ListNotations.
Open Scope N_scope.

(** ** C173 *)

(** An insertion whose hasher throws: nothing happens if it is the new key that is hashed;
    if the map is growing it keeps the elements hashed so far and loses the others, which
    nobody destroys. *)
Theorem c173_insert_with_a_throwing_hasher :
  forall (K V : Type) (hash : K -> N) keq, lawful hash keq -> forall kd, group_kind kd ->
  forall t alloc upd k v past, built K V hash keq kd t -> sane alloc ->
  emplace_h K V hash keq kd 0 alloc upd t k v = Throw (t, [])
  /\ forall m, match emplace_impl K V hash keq kd alloc upd true t k v with
  | Ret t' r =>
      (t_size _ _ t <= N.of_nat m \/ capacity K V kd t' = capacity K V kd t ->
         emplace_h K V hash keq kd (S m) alloc upd t k v = Ret (t', []) r)
      /\ (capacity K V kd t' <> capacity K V kd t -> N.of_nat m < t_size _ _ t ->
         exists t1 old kept l, emplace_h K V hash keq kd (S m) alloc upd t k v = Throw (t1, old)
         /\ behaves_as K V hash keq kd t1 kept /\ capacity K V kd t1 = capacity K V kd t'
         /\ traverse K V kd past t = Ok l /\ Permutation (kept ++ elems old) l /\ length kept = m)
  | Throw t' => emplace_h K V hash keq kd (S m) alloc upd t k v = Throw (t', [])
  | Fail _ => True
  end.
Proof. intros K V hash keq LW kd HK. exact (built_emplace_h hash keq LW kd HK). Qed.
Print Assumptions c173_insert_with_a_throwing_hasher.

Theorem c173_rehash_with_a_throwing_hasher :
  forall (K V : Type) (hash : K -> N) keq, lawful hash keq -> forall kd, group_kind kd ->
  forall t t' alloc shrink n past m, built K V hash keq kd t -> sane alloc -> n <= 2 ^ 63 ->
  rehash_impl K V hash kd alloc shrink t n = Ret t' tt ->
  (t_size _ _ t <= N.of_nat m \/ capacity K V kd t' = capacity K V kd t ->
     rehash_impl_h K V hash kd m alloc shrink t n = Ret (t', []) tt)
  /\ (capacity K V kd t' <> capacity K V kd t -> N.of_nat m < t_size _ _ t ->
     exists t1 old kept l, rehash_impl_h K V hash kd m alloc shrink t n = Throw (t1, old)
       /\ behaves_as K V hash keq kd t1 kept /\ capacity K V kd t1 = capacity K V kd t'
       /\ traverse K V kd past t = Ok l /\ Permutation (kept ++ elems old) l /\ length kept = m).
Proof. intros K V hash keq LW kd HK. exact (built_rehash_h hash keq LW kd HK). Qed.
Print Assumptions c173_rehash_with_a_throwing_hasher.

(** A copy of another capacity cleans up. *)
Theorem c173_copy_with_a_throwing_hasher :
  forall (K V : Type) (hash : K -> N) keq, lawful hash keq -> forall kd, group_kind kd ->
  forall t t' alloc past m, built K V hash keq kd t -> sane alloc -> t_size _ _ t <> 0 ->
  copy_construct K V hash kd alloc past t = Ret t' tt -> capacity K V kd t' <> capacity K V kd t ->
  copy_construct_h K V hash kd m alloc past t =
  if t_size _ _ t <=? N.of_nat m then Ret t' tt else Throw (empty_table K V kd (t_mlf _ _ t)).
Proof. intros K V hash keq LW kd HK. exact (built_copy_h hash keq LW kd HK). Qed.
Print Assumptions c173_copy_with_a_throwing_hasher.

(** A full map, one insertion, the fifth call of the hasher throws. *)
Theorem c173_a_failed_insertion_keeps_the_elements_refuted :
  forall kd, group_kind kd ->
  built N N idhash N.eqb kd (arg_full kd (full_of kd)) /\ sane roomy_alloc
  /\ t_size _ _ (arg_full kd (full_of kd)) = full_of kd
  /\ exists t' r t1 old,
    emplace_impl N N idhash N.eqb kd roomy_alloc false true (arg_full kd (full_of kd)) 500 0 = Ret t' r
    /\ capacity N N kd t' <> capacity N N kd (arg_full kd (full_of kd))
    /\ emplace_h N N idhash N.eqb kd 5 roomy_alloc false (arg_full kd (full_of kd)) 500 0 = Throw (t1, old)
    /\ t_size _ _ t1 = 4
    /\ lookup N N idhash N.eqb kd (arg_full kd (full_of kd)) 120 = Ok (Some (120, 120))
    /\ lookup N N idhash N.eqb kd t1 120 = Ok None
    /\ N.of_nat (length (elems old)) = full_of kd - 4.
Proof. exact insert_loses. Qed.
Print Assumptions c173_a_failed_insertion_keeps_the_elements_refuted.

Theorem c173_a_failed_rehash_keeps_the_elements_refuted :
  forall kd, group_kind kd ->
  built N N idhash N.eqb kd (small kd) /\ sane roomy_alloc /\ t_size _ _ (small kd) = 10
  /\ exists t' t1 old,
  rehash_impl N N idhash kd roomy_alloc false (small kd) 100 = Ret t' tt
  /\ capacity N N kd t' <> capacity N N kd (small kd)
  /\ rehash_impl_h N N idhash kd 4 roomy_alloc false (small kd) 100 = Throw (t1, old)
  /\ t_size _ _ t1 = 4 /\ length (elems old) = 6%nat.
Proof. exact rehash_loses. Qed.
Print Assumptions c173_a_failed_rehash_keeps_the_elements_refuted.

Example c173_copy_example :
  forall kd, group_kind kd ->
  let t := result kd sparse_calls (new_map N N kd) in
  built N N idhash N.eqb kd t /\ sane roomy_alloc /\ t_size _ _ t = 10
  /\ exists t', copy_construct N N idhash kd roomy_alloc 0 t = Ret t' tt
  /\ capacity N N kd t' <> capacity N N kd t
  /\ copy_construct_h N N idhash kd 4 roomy_alloc 0 t = Throw (empty_table N N kd 224).
Proof. exact copy_example. Qed.

(** ** C174 *)

(** The element in the temporary slot is destroyed twice whenever it is inserted, and never
    if an exception is thrown. *)
Theorem c174_temporary_slot :
  forall (K V : Type) (hash : K -> N) (keq : K -> K -> bool) kd alloc upd (t : table K V) k v,
  emplace_tmp K V hash keq kd alloc upd t (k, v) =
  match emplace_impl K V hash keq kd alloc upd true t k v with
  | Ret t' (i, true) => Fail EUndef
  | Ret t' (i, false) => Ret t' (i, false)
  | Throw _ => Fail ELeak
  | Fail e => Fail e
  end.
Proof. exact tmp_outcome. Qed.
Print Assumptions c174_temporary_slot.

Theorem c174_emplace_through_a_temporary_slot_is_defined_refuted :
  forall kd, group_kind kd ->
  emplace_tmp N N idhash N.eqb kd roomy_alloc false (new_map N N kd) (5, 50) = Fail EUndef
  /\ emplace_tmp N N idhash N.eqb kd no_alloc false (new_map N N kd) (5, 50) = Fail ELeak.
Proof. exact tmp_refuted. Qed.
Print Assumptions c174_emplace_through_a_temporary_slot_is_defined_refuted.

Example c174_example :
  forall kd, group_kind kd ->
  exists i, emplace_tmp N N idhash N.eqb kd roomy_alloc false (small kd) (3, 7) = Ret (small kd) (i, false).
Proof. exact tmp_example. Qed.
