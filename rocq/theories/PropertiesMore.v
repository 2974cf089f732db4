(** Further properties of the maps (C120-C123): move construction with an allocator, and
    insertions after reserve.  The calls are in ReserveSpec.v, the example maps in
    WitnessFacts2.v, ExampleFacts.v and ReserveWitness.v. *)
From Coq Require Import NArith List Bool Permutation.
From Verif Require Import Base GroupModel TableModel TableInv CopyModel IterModel ReachModel MapSpec WitnessModel ExampleFacts
  WitnessFacts2 MoveFacts RobinModel RobinSpec RobinWitness RobinReserve Flat16Model Flat16Spec Flat16Witness Flat16Reserve
  Robin16Model Robin16Spec Robin16Witness Robin16Reserve ReserveSpec ReserveWitness.
Import ListNotations.
Open Scope N_scope.

(** ** C120 *)

(** group_hash_map(group_hash_map && other, allocator): if the new table has another
    capacity than the old one, the elements are there, each once, and the source is
    empty. *)
Theorem c120_move_to_another_capacity :
  forall (K V : Type) (hash : K -> N) keq, lawful hash keq -> forall kd, group_kind kd ->
  forall t t1 t2 alloc past, built K V hash keq kd t -> sane alloc ->
  move_construct_alloc K V hash kd alloc t = Ret (t1, t2) tt ->
  (capacity K V kd t1 <> capacity K V kd t \/ t_size _ _ t = 0) ->
  t_size _ _ t1 = t_size _ _ t
  /\ (exists l l', traverse K V kd past t = Ok l /\ traverse K V kd past t1 = Ok l' /\ Permutation l' l)
  /\ t_size _ _ t2 = 0 /\ traverse K V kd past t2 = Ok [].
Proof. intros K V hash keq LW kd HK. exact (built_move_alloc_spec hash keq LW kd HK). Qed.
Print Assumptions c120_move_to_another_capacity.

(** 35 entries in a table of 239 or 256 slots: the new table is smaller. *)
Example c120_example : (exists t1 t2,
    move_construct_alloc N N idhash k15 roomy_alloc ex15 = Ret (t1, t2) tt
    /\ t_size _ _ t1 = 35 /\ capacity N N k15 t1 < capacity N N k15 ex15 /\ t_size _ _ t2 = 0)
  /\ exists t1 t2,
    move_construct_alloc N N idhash k16 roomy_alloc ex16 = Ret (t1, t2) tt
    /\ t_size _ _ t1 = 35 /\ capacity N N k16 t1 < capacity N N k16 ex16 /\ t_size _ _ t2 = 0.
Proof. exact busy_move. Qed.

(** If it has the same capacity, lookups find what they found before, but the new map
    says that it is empty, and iteration meets nothing. *)
Theorem c120_move_to_the_same_capacity :
  forall (K V : Type) (hash : K -> N) keq, lawful hash keq -> forall kd, group_kind kd ->
  forall t t1 t2 alloc past, built K V hash keq kd t -> sane alloc -> t_size _ _ t <> 0 ->
  move_construct_alloc K V hash kd alloc t = Ret (t1, t2) tt -> capacity K V kd t1 = capacity K V kd t ->
  t_size _ _ t1 = 0 /\ traverse K V kd past t1 = Ok []
  /\ (forall k, lookup K V hash keq kd t1 k = lookup K V hash keq kd t k)
  /\ t_size _ _ t2 = 0 /\ traverse K V kd past t2 = Ok [].
Proof. intros K V hash keq LW kd HK. exact (built_move_alloc_equal hash keq LW kd HK). Qed.
Print Assumptions c120_move_to_the_same_capacity.

(** Ten entries: the new map says 0 and iterates over nothing, finds the key 3, and
    has the size 2^64 - 1 after erasing it. *)
Theorem c120_moved_elements_are_counted_refuted : forall kd, group_kind kd ->
  built N N idhash N.eqb kd (small kd) /\ sane roomy_alloc /\ t_size _ _ (small kd) = 10
  /\ exists t1 t2 t3 r v, move_construct_alloc N N idhash kd roomy_alloc (small kd) = Ret (t1, t2) tt
    /\ t_size _ _ t1 = 0 /\ traverse N N kd 0 t1 = Ok []
    /\ lookup N N idhash N.eqb kd t1 3 = Ok (Some (3, v))
    /\ step N N idhash N.eqb kd roomy_alloc (OErase N N 3) t1 = Ret t3 r
    /\ t_size _ _ t3 = 18446744073709551615.
Proof. exact small_move. Qed.
Print Assumptions c120_moved_elements_are_counted_refuted.

(** ** C121 *)

(** The robin hood map with the default load factor: after reserve(n), insertions up to n
    elements ask for no storage - with an allocator that refuses everything none throws -
    and the map then has exactly the entries.  The growth limit must belong to the
    capacity: reserve changed the capacity, or the map was not moved to. *)
Theorem c121_robin_insertions_after_reserve :
  forall (K V : Type) (hash : K -> N) keq, lawful hash keq -> forall t m t' r alloc n l,
  r_reach K V hash keq 2 t m -> sane alloc -> spread_all K V hash 2 m -> r_size _ _ t <= n -> n <= 2 ^ 50 ->
  r_step K V hash keq alloc (OReserve K V n) t = Ret t' r ->
  r_slot_capacity K V t' <> r_slot_capacity K V t \/ r_slot_capacity K V t <= 2 * r_thr _ _ t ->
  r_size _ _ t + N.of_nat (length l) <= n -> spread K V hash (r_slot_capacity K V t') (all_put K V keq l m) ->
  exists rs t'' l', r_run K V hash keq (inserts K V no_alloc l) t' = Ok (rs, t'')
    /\ Forall (fun x => x <> None) rs /\ r_slot_capacity K V t'' = r_slot_capacity K V t'
    /\ r_traverse K V t'' = Ok l' /\ Permutation l' (all_put K V keq l m).
Proof. intros K V hash keq LW. exact (robin_reserve hash keq LW). Qed.
Print Assumptions c121_robin_insertions_after_reserve.

(** Three keys for one slot, reserve(8), five more keys for this slot. *)
Example c121_example : exists t', lawful idhash N.eqb /\ r_reach N N idhash N.eqb 2 rv rv_map /\ sane some_alloc
  /\ spread_all N N idhash 2 rv_map /\ r_size _ _ rv = 3
  /\ r_step N N idhash N.eqb some_alloc (OReserve N N 8) rv = Ret t' (RUnit N N)
  /\ (r_slot_capacity N N rv, r_slot_capacity N N t') = (8, 16) /\ length rv_more = 5%nat
  /\ spread N N idhash (r_slot_capacity N N t') (all_put N N N.eqb rv_more rv_map).
Proof. exact rv_example. Qed.

(** max_load_factor(0.6), reserve(5): the fifth insertion needs storage. *)
Theorem c121_for_other_load_factors_refuted : exists t rs t',
  r_run N N idhash N.eqb [call (OMlf N N 154); call (OReserve N N 5)] (rnew N N)
    = Ok ([Some (RUnit N N); Some (RUnit N N)], t)
  /\ r_size _ _ t = 0 /\ r_run N N idhash N.eqb (inserts N N no_alloc (pairs 5 1 0)) t = Ok (rs, t')
  /\ nth_error rs 4 = Some None.
Proof. exact rv_loaded. Qed.
Print Assumptions c121_for_other_load_factors_refuted.

(** reserve(8) of an empty map with 16 slots that was moved to: the first insertion
    needs storage. *)
Theorem c121_for_moved_maps_refuted : exists t t1 t2,
  r_run N N idhash N.eqb [call (OReserve N N 8)] (rnew N N) = Ok ([Some (RUnit N N)], t)
  /\ r_step N N idhash N.eqb some_alloc (OReserve N N 8) (fst (r_move N N t)) = Ret t1 (RUnit N N)
  /\ r_slot_capacity N N t1 = 16 /\ r_size _ _ t1 = 0
  /\ r_step N N idhash N.eqb no_alloc (OInsert N N 1 1) t1 = Throw t2
  /\ r_reach N N idhash N.eqb 2 (fst (r_move N N t)) [].
Proof. exact rv_moved. Qed.
Print Assumptions c121_for_moved_maps_refuted.

(** ** C122 *)

(** The flat16 map with the default load factor: after a reserve(n) that changes the
    capacity, insertions up to n elements ask for no storage, whatever the hash. *)
Theorem c122_flat16_insertions_after_reserve :
  forall (K V : Type) (hash : K -> N) keq (mix : N -> N), lawful hash keq -> forall trivial t m t' r alloc n l,
  f_built K V hash keq mix t m -> f_sane alloc -> f_mlf _ _ t = 32768 -> f_rev _ _ t = 131072 -> n <= 2 ^ 43 ->
  f_step K V hash keq mix trivial alloc (OReserve K V n) t = Ret t' r -> f_cap _ _ t' <> f_cap _ _ t ->
  f_size _ _ t + N.of_nat (length l) <= n ->
  exists rs t'' l', f_run K V hash keq mix trivial (inserts K V no_alloc2 l) t' = Ok (rs, t'')
    /\ Forall (fun x => x <> None) rs /\ f_cap _ _ t'' = f_cap _ _ t'
    /\ f_traverse K V t'' = Ok l' /\ Permutation l' (all_put K V keq l m).
Proof. intros K V hash keq mix LW. exact (flat16_reserve hash keq mix LW). Qed.
Print Assumptions c122_flat16_insertions_after_reserve.

(** Three entries in 16 slots, reserve(40), 37 keys for one slot. *)
Example c122_example : exists t', lawful idhash N.eqb /\ f_built N N idhash N.eqb crc fv fv_map /\ f_sane f_some
  /\ f_mlf _ _ fv = 32768 /\ f_rev _ _ fv = 131072 /\ f_size _ _ fv = 3
  /\ f_step N N idhash N.eqb crc false f_some (OReserve N N 40) fv = Ret t' (RUnit N N)
  /\ (f_cap _ _ fv, f_cap _ _ t') = (16, 128) /\ length fv_more = 37%nat.
Proof. exact fv_example. Qed.

(** max_load_factor(0.8), reserve(13): the last of 13 insertions needs storage. *)
Theorem c122_for_other_load_factors_refuted : exists t t1 rs t2, f_new N N f_some 4 = Ret t tt
  /\ f_run N N idhash N.eqb crc false [f_do (OMlf N N 53687091); f_do (OReserve N N 13)] t
     = Ok ([Some (RUnit N N); Some (RUnit N N)], t1)
  /\ f_size _ _ t1 = 0 /\ f_run N N idhash N.eqb crc false (inserts N N no_alloc2 (pairs 13 1 0)) t1 = Ok (rs, t2)
  /\ nth_error rs 12 = Some None.
Proof. exact fv_loaded. Qed.
Print Assumptions c122_for_other_load_factors_refuted.

(** 32 keys in 64 slots, three erased: reserve(32) does nothing, and the next insertion
    needs storage. *)
Theorem c122_after_erasing_refuted : exists t m t1 t2, f_built N N idhash N.eqb crc t m
  /\ f_mlf _ _ t = 32768 /\ f_rev _ _ t = 131072
  /\ f_step N N idhash N.eqb crc false f_some (OReserve N N 32) t = Ret t1 (RUnit N N)
  /\ f_cap _ _ t1 = 64 /\ f_size _ _ t1 = 29
  /\ f_step N N idhash N.eqb crc false no_alloc2 (OInsert N N 100 1) t1 = Throw t2.
Proof. exact fv_erased. Qed.
Print Assumptions c122_after_erasing_refuted.

(** ** C123 *)

(** The robin16 map with the default load factor: after reserve(n), insertions up to n
    elements ask for no storage. *)
Theorem c123_robin16_insertions_after_reserve :
  forall (K V : Type) (hash : K -> N) keq, lawful hash keq -> forall wide trivial t m t' r alloc n l,
  q_built K V hash keq wide trivial t m -> f_sane alloc -> q_mlf _ _ t = 32768 -> q_rev _ _ t = 131072 -> n <= 2 ^ 43 ->
  q_step K V hash keq wide trivial alloc (OReserve K V n) t = Ret t' r ->
  q_cap _ _ t' <> q_cap _ _ t \/ q_cap _ _ t <= 2 * q_thr _ _ t ->
  q_size _ _ t + N.of_nat (length l) <= n ->
  (forall e, In e l -> q_seen K V hash (fst e) t') ->
  q_spread K V hash (q_cap _ _ t') (all_put K V keq l m) ->
  exists rs t'' l', q_run K V hash keq wide trivial (inserts K V no_alloc2 l) t' = Ok (rs, t'')
    /\ Forall (fun x => x <> None) rs /\ q_cap _ _ t'' = q_cap _ _ t'
    /\ q_traverse K V wide t'' = Ok l' /\ Permutation l' (all_put K V keq l m).
Proof. intros K V hash keq LW wide trivial. exact (robin16_reserve hash keq LW wide trivial). Qed.
Print Assumptions c123_robin16_insertions_after_reserve.

(** Three entries in 16 slots, reserve(40), 37 keys for one slot. *)
Example c123_example : forall wide trivial, exists t', lawful idhash N.eqb
  /\ q_built N N idhash N.eqb wide trivial (qv wide trivial) (qv_map wide trivial) /\ f_sane qal
  /\ q_mlf _ _ (qv wide trivial) = 32768 /\ q_rev _ _ (qv wide trivial) = 131072 /\ q_size _ _ (qv wide trivial) = 3
  /\ q_step N N idhash N.eqb wide trivial qal (OReserve N N 40) (qv wide trivial) = Ret t' (RUnit N N)
  /\ (q_cap _ _ (qv wide trivial), q_cap _ _ t') = (16, 128) /\ length qv_more = 37%nat
  /\ (forall e, In e qv_more -> q_seen N N idhash (fst e) t')
  /\ q_spread N N idhash (q_cap _ _ t') (all_put N N N.eqb qv_more (qv_map wide trivial)).
Proof. exact qv_example. Qed.

(** max_load_factor(0.8), reserve(13): the last of 13 insertions needs storage. *)
Theorem c123_for_other_load_factors_refuted : forall wide trivial, exists t t1 rs t2, q_new N N qal 4 = Ret t tt
  /\ q_run N N idhash N.eqb wide trivial [qask (OMlf N N 53687091); qask (OReserve N N 13)] t
     = Ok ([Some (RUnit N N); Some (RUnit N N)], t1)
  /\ q_size _ _ t1 = 0
  /\ q_run N N idhash N.eqb wide trivial (inserts N N no_alloc2 (pairs 13 1 0)) t1 = Ok (rs, t2)
  /\ nth_error rs 12 = Some None.
Proof. exact qv_loaded. Qed.
Print Assumptions c123_for_other_load_factors_refuted.
