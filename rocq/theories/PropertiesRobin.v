(** Properties of the robin hood map (C43-C56).  The model is RobinModel.v; [r_client],
    [spread_all], [r_agrees] and [r_reach] are in RobinSpec.v.  The hypotheses of the
    theorems about reachable maps are met by [robin_example]. *)
From Coq Require Import NArith List Bool Permutation.
From Verif Require Import Base GroupModel TableModel TableInv MapSpec ReachModel WitnessModel
  RobinModel RobinSpec RobinRefine RobinWitness.
Import ListNotations.
Open Scope N_scope.

Example robin_example :
  lawful idhash N.eqb
  /\ r_reach N N idhash N.eqb 2 rx_crowd (snd (chased 2 rx_crowd_ops))
  /\ r_reach N N idhash N.eqb 2 rx_seq (snd (chased 2 (put_ops (seqN 40))))
  /\ r_reach N N idhash N.eqb 1 rx_dense (snd (chased 1 rx_dense_ops))
  /\ (r_size _ _ rx_crowd, r_slot_capacity _ _ rx_crowd, r_alloc _ _ rx_crowd) = (11, 32, true)
  /\ (r_size _ _ rx_seq, r_slot_capacity _ _ rx_seq, r_alloc _ _ rx_seq) = (40, 128, true)
  /\ (r_size _ _ rx_dense, r_slot_capacity _ _ rx_dense, r_alloc _ _ rx_dense) = (40, 64, true).
Proof. exact rx_example_lemma. Qed.

(** ** C43 *)

(** As long as the keys stay spread, every call returns what the abstract map says;
    no call reads or writes outside its arrays or runs for ever. *)
Theorem c43_robin_map_is_a_map_while_the_keys_are_spread :
  forall (K V : Type) (hash : K -> N) (keq : K -> K -> bool), lawful hash keq ->
  forall q calls, q = 1 \/ q = 2 -> Forall (fun c => sane (fst c)) calls ->
  r_agrees K V hash keq (spread_all K V hash q) q calls (rnew K V) [].
Proof. exact @robin_agrees. Qed.
Print Assumptions c43_robin_map_is_a_map_while_the_keys_are_spread.

Theorem c43_from_any_reachable_map :
  forall (K V : Type) (hash : K -> N) (keq : K -> K -> bool), lawful hash keq ->
  forall q t m calls, q = 1 \/ q = 2 -> r_reach K V hash keq q t m ->
  Forall (fun c => sane (fst c)) calls ->
  r_agrees K V hash keq (spread_all K V hash q) q calls t m.
Proof. exact @reach_agrees. Qed.
Print Assumptions c43_from_any_reachable_map.

(** ** C44 *)

(** With at most eleven entries nothing is required of the hash. *)
Theorem c44_eleven_entries_need_no_spread :
  forall (K V : Type) (hash : K -> N) (keq : K -> K -> bool), lawful hash keq ->
  forall calls, Forall (fun c => sane (fst c)) calls ->
  r_agrees K V hash keq (fun m => (length m <= 11)%nat) 2 calls (rnew K V) [].
Proof. exact @robin_few. Qed.
Print Assumptions c44_eleven_entries_need_no_spread.

Example c43_c44_example :
  Forall (fun c => sane (fst c)) rx_calls
  /\ match r_run N N idhash N.eqb rx_calls (rnew N N) with
     | Ok (rs, t) => skipn 11 rs =
         [Some (RNum N N 1); Some (REntry N N None); Some (REntry N N (Some (63, 64))); Some (RBool N N true);
          Some (RIns N N (95, 7) false); Some (REntry N N (Some (95, 7))); Some (RNum N N 10); Some (RUnit N N);
          Some (RUnit N N); Some (RUnit N N); Some (RNum N N 0); Some (RUnit N N); Some (RIns N N (5, 6) true)]
     | Err _ => False
     end.
Proof. exact rx_calls_lemma. Qed.

(** ** C45 *)

(** Insertions alone, with an allocator that never fails, leave the arrays: twelve
    keys that share the last position, or 129 keys that share the first. *)
Theorem c45_insertions_stay_inside_the_arrays_refuted :
  exists l, length l = 12%nat /\ Forall (fun c => sane (fst c)) (map ins l)
    /\ r_run N N idhash N.eqb (map ins l) (rnew N N) = Err EUndef.
Proof. exact rx_overflow_lemma. Qed.
Print Assumptions c45_insertions_stay_inside_the_arrays_refuted.

Theorem c45_distances_fit_into_the_control_byte_refuted :
  exists l, length l = 129%nat
    /\ r_run N N idhash N.eqb (call (OReserve N N 300) :: map ins l) (rnew N N) = Err EUndef
    /\ exists rs t, r_run N N idhash N.eqb (call (OReserve N N 300) :: map ins (firstn 128 l)) (rnew N N)
                    = Ok (rs, t) /\ r_slot_capacity _ _ t = 1024.
Proof. exact rx_distance_lemma. Qed.
Print Assumptions c45_distances_fit_into_the_control_byte_refuted.

(** ** C46 *)

(** A map without storage: find gives the position 0, end() is the position 4. *)
Theorem c46_find_of_an_absent_key_is_end_refuted :
  exists k : N, r_find N N idhash N.eqb (rnew N N) k = Ok 0 /\ r_end N N (rnew N N) = 4.
Proof. exact rx_find_new_lemma. Qed.
Print Assumptions c46_find_of_an_absent_key_is_end_refuted.

Theorem c46_find_of_an_absent_key_is_end_with_storage_partial :
  forall (K V : Type) (hash : K -> N) (keq : K -> K -> bool), lawful hash keq ->
  forall q t m k, q = 1 \/ q = 2 -> r_reach K V hash keq q t m -> r_alloc _ _ t = true ->
  has K V keq k m = false <-> r_find K V hash keq t k = Ok (r_end K V t).
Proof. exact @reach_find_end. Qed.
Print Assumptions c46_find_of_an_absent_key_is_end_with_storage_partial.

(** ** C47 *)

Theorem c47_iteration_visits_every_entry_once :
  forall (K V : Type) (hash : K -> N) (keq : K -> K -> bool), lawful hash keq ->
  forall q t m, q = 1 \/ q = 2 -> r_reach K V hash keq q t m ->
  exists l, r_traverse K V t = Ok l /\ Permutation l m /\ r_size _ _ t = N.of_nat (length l)
    /\ distinct_keys K V keq l.
Proof. exact @reach_traverse. Qed.
Print Assumptions c47_iteration_visits_every_entry_once.

(** ** C48 *)

Theorem c48_copy_has_the_same_entries :
  forall (K V : Type) (hash : K -> N) (keq : K -> K -> bool), lawful hash keq ->
  forall q t m alloc, q = 1 \/ q = 2 -> r_reach K V hash keq q t m -> sane alloc ->
  spread_all K V hash 2 m ->
  match r_copy K V hash keq alloc t with
  | Ret t' _ => exists l, r_traverse K V t' = Ok l /\ Permutation l m
  | Throw _ => True
  | Fail _ => False
  end.
Proof. exact @reach_copy_total. Qed.
Print Assumptions c48_copy_has_the_same_entries.

Example c48_example :
  spread_all N N idhash 2 (snd (chased 2 rx_crowd_ops)) /\ sane some_alloc
  /\ exists t', r_copy N N idhash N.eqb some_alloc rx_crowd = Ret t' tt /\ r_size _ _ t' = 11.
Proof. exact rx_copy_lemma. Qed.

(** ** C49 *)

Theorem c49_moved_to_map_has_the_entries_partial :
  forall (K V : Type) (hash : K -> N) (keq : K -> K -> bool), lawful hash keq ->
  forall q t m calls, q = 1 \/ q = 2 -> r_reach K V hash keq q t m ->
  Forall (fun c => sane (fst c)) calls ->
  (exists l, r_traverse K V (fst (r_move K V t)) = Ok l /\ Permutation l m)
  /\ r_agrees K V hash keq (spread_all K V hash q) q calls (fst (r_move K V t)) m.
Proof. exact @reach_move_agrees. Qed.
Print Assumptions c49_moved_to_map_has_the_entries_partial.

(** An insertion into the source of a move writes to the constant control bytes. *)
Theorem c49_moved_from_map_is_usable_refuted :
  exists t m, r_reach N N idhash N.eqb 2 t m
    /\ r_step N N idhash N.eqb some_alloc (OInsert N N 3 4) (snd (r_move N N t)) = Fail EUndef.
Proof. exact rx_moved_from_lemma. Qed.
Print Assumptions c49_moved_from_map_is_usable_refuted.

(** ** C50 *)

Theorem c50_swap_exchanges_the_entries_partial :
  forall (K V : Type) (hash : K -> N) (keq : K -> K -> bool) (a b : rmap K V),
  r_traverse K V (fst (r_swap K V a b)) = r_traverse K V b
  /\ r_traverse K V (snd (r_swap K V a b)) = r_traverse K V a
  /\ (forall k, r_contains K V hash keq (fst (r_swap K V a b)) k = r_contains K V hash keq b k)
  /\ (forall k, r_contains K V hash keq (snd (r_swap K V a b)) k = r_contains K V hash keq a k)
  /\ r_size _ _ (fst (r_swap K V a b)) = r_size _ _ b
  /\ r_size _ _ (snd (r_swap K V a b)) = r_size _ _ a.
Proof. exact @swap_swaps. Qed.
Print Assumptions c50_swap_exchanges_the_entries_partial.

(** After swap or assignment last_slot_ still points into the other array: find of
    an absent key and insertions that move entries are undefined. *)
Theorem c50_swapped_and_assigned_maps_are_usable_refuted :
  exists a ma b mb, r_reach N N idhash N.eqb 2 a ma /\ r_reach N N idhash N.eqb 2 b mb
    /\ r_step N N idhash N.eqb some_alloc (OFind N N 7) (fst (r_swap N N a b)) = Fail EUndef
    /\ r_step N N idhash N.eqb some_alloc (OInsert N N 8 0) (fst (r_swap N N a b)) = Fail EUndef
    /\ exists t, r_assign N N idhash N.eqb some_alloc a b = Ret t tt
         /\ r_step N N idhash N.eqb some_alloc (OFind N N 7) t = Fail EUndef
         /\ r_step N N idhash N.eqb some_alloc (OInsert N N 8 0) t = Fail EUndef.
Proof. exact rx_swapped_lemma. Qed.
Print Assumptions c50_swapped_and_assigned_maps_are_usable_refuted.

(** ** C51 *)

(** The lookup works before the insertion that throws, and is undefined after it. *)
Theorem c51_failed_growth_leaves_the_map_unchanged_refuted :
  exists t m t', r_reach N N idhash N.eqb 2 t m
    /\ r_step N N idhash N.eqb no_alloc (OInsert N N 3 4) t = Throw t'
    /\ r_step N N idhash N.eqb some_alloc (OFind N N 7) t = Ret t (REntry N N None)
    /\ r_step N N idhash N.eqb some_alloc (OFind N N 7) t' = Fail EUndef.
Proof. exact rx_failed_growth_lemma. Qed.
Print Assumptions c51_failed_growth_leaves_the_map_unchanged_refuted.

(** clear() after a reserve that throws writes behind the control bytes. *)
Theorem c51_failed_growth_leaves_a_clearable_map_refuted :
  exists t m t', r_reach N N idhash N.eqb 2 t m
    /\ r_step N N idhash N.eqb no_alloc (OReserve N N 40000) t = Throw t'
    /\ (exists t2, r_step N N idhash N.eqb some_alloc (OClear N N false) t = Ret t2 (RUnit N N))
    /\ r_step N N idhash N.eqb some_alloc (OClear N N false) t' = Fail EUndef.
Proof. exact rx_failed_clear_lemma. Qed.
Print Assumptions c51_failed_growth_leaves_a_clearable_map_refuted.

(** What remains after an insertion that throws: the entries themselves. *)
Theorem c51_failed_growth_keeps_the_entries_partial :
  forall (K V : Type) (hash : K -> N) (keq : K -> K -> bool), lawful hash keq ->
  forall q t m alloc o t' k, q = 1 \/ q = 2 -> r_reach K V hash keq q t m -> sane alloc ->
  r_client K V q o t -> spread_all K V hash q (fst (spec_step K V keq o m)) ->
  r_step K V hash keq alloc o t = Throw t' ->
  r_contains K V hash keq t' k = Ok (has K V keq k m) /\ r_size _ _ t' = r_size _ _ t
  /\ r_slots _ _ t' = r_slots _ _ t.
Proof. exact @reach_throw_keeps. Qed.
Print Assumptions c51_failed_growth_keeps_the_entries_partial.

(** ** C52 *)

Theorem c52_clear_of_an_empty_map_is_defined_refuted :
  r_step N N idhash N.eqb some_alloc (OClear N N false) (rnew N N) = Fail EUndef
  /\ r_step N N idhash N.eqb some_alloc (OClear N N true) (rnew N N) = Fail EUndef.
Proof. exact rx_clear_new. Qed.
Print Assumptions c52_clear_of_an_empty_map_is_defined_refuted.

Theorem c52_clear_with_storage_partial :
  forall (K V : Type) (hash : K -> N) (keq : K -> K -> bool), lawful hash keq ->
  forall q t m b, q = 1 \/ q = 2 -> r_reach K V hash keq q t m -> r_alloc _ _ t = true ->
  exists t', r_clear K V b t = Ret t' tt /\ r_traverse K V t' = Ok [] /\ r_size _ _ t' = 0
    /\ forall k, r_contains K V hash keq t' k = Ok false.
Proof. exact @reach_clear. Qed.
Print Assumptions c52_clear_with_storage_partial.

(** ** C53 *)

(** Ten entries, correctly stored: rehash(0) and shrink_to_fit(true) overflow the
    smaller arrays. *)
Theorem c53_shrinking_is_memory_safe_refuted :
  exists t m, r_reach N N idhash N.eqb 2 t m /\ length m = 10%nat
    /\ r_step N N idhash N.eqb some_alloc (OShrink N N true) t = Fail EUndef
    /\ r_step N N idhash N.eqb some_alloc (ORehash N N 0) t = Fail EUndef.
Proof. exact rx_shrink_lemma. Qed.
Print Assumptions c53_shrinking_is_memory_safe_refuted.

(** ** C54 *)

Theorem c54_capacity_is_a_power_of_two_and_at_least_half_empty :
  forall (K V : Type) (hash : K -> N) (keq : K -> K -> bool), lawful hash keq ->
  forall q t m, q = 1 \/ q = 2 -> r_reach K V hash keq q t m ->
  q * r_size _ _ t <= r_slot_capacity K V t
  /\ (r_alloc _ _ t = true -> exists b, r_slot_capacity K V t = 2 ^ b).
Proof. exact @reach_load. Qed.
Print Assumptions c54_capacity_is_a_power_of_two_and_at_least_half_empty.

(** ** C55 *)

(** [r_scan] with fuel n stops with an error after n positions; a search never needs
    more than room + 2 (for fewer than 65536 positions: 2 * log2(capacity) + 2). *)
Theorem c55_searches_are_short :
  forall (K V : Type) (hash : K -> N) (keq : K -> K -> bool), lawful hash keq ->
  forall q t m (cmp : bool) k, q = 1 \/ q = 2 -> r_reach K V hash keq q t m ->
  r_alloc _ _ t = true ->
  exists r, r_scan K V keq (N.to_nat (room (r_slot_capacity K V t) + 2)) (r_ctrls _ _ t) (r_slots _ _ t)
              (if cmp then Some k else None) (r_home K V hash t k) 0 = Ok r
         /\ r_search K V hash keq t cmp k = Ok r.
Proof. exact @reach_probe. Qed.
Print Assumptions c55_searches_are_short.

(** ** C56 *)

(** 40 entries in 128 positions exceed the new load factor 0.3, but the map neither
    grows nor lowers its limit of 64. *)
Theorem c56_max_load_factor_takes_effect_refuted :
  exists t m t', r_reach N N idhash N.eqb 2 t m
    /\ r_step N N idhash N.eqb some_alloc (OMlf N N 77) t = Ret t' (RUnit N N)
    /\ r_mlf _ _ t' = 77 /\ r_slot_capacity _ _ t' = 128 /\ r_size _ _ t' = 40 /\ r_thr _ _ t' = 64
    /\ r_slot_capacity _ _ t' * r_mlf _ _ t' < r_size _ _ t' * 256.
Proof. exact rx_load_lemma. Qed.
Print Assumptions c56_max_load_factor_takes_effect_refuted.
