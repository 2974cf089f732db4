(** Properties of the robin16 map (C103-C119).  The model is Robin16Model.v, the
    conditions are in Robin16Spec.v; the calls and the allocators of the counterexamples
    are in Robin16Witness.v, the example maps in Robin16Example.v. *)
From Coq Require Import NArith List Bool Permutation.
From Verif Require Import Base GroupModel TableModel TableInv MapSpec WitnessModel Flat16Spec
  Robin16Model Robin16Spec Robin16Witness Robin16Client Robin16Example.
Import ListNotations.
Open Scope N_scope.

(** ** C103 *)

(** erase() of an element whose followers go on in slot 0 reads and writes behind the
    slots: two keys for the last of 16 slots, and of the 4 slots of a default map. *)
Theorem c103_erase_stays_inside_the_slots_refuted : forall wide trivial,
  exists t, q_new N N qal 16 = Ret t tt
    /\ q_run N N idhash N.eqb wide trivial [qput 15; qput 31; qask (OErase N N 15)] t = Err EUndef.
Proof. exact qx_erase_lemma. Qed.
Print Assumptions c103_erase_stays_inside_the_slots_refuted.

Theorem c103_in_a_default_map_refuted : forall wide trivial,
  exists t, q_new N N qal 4 = Ret t tt
    /\ q_run N N idhash N.eqb wide trivial [qput 3; qput 7; qask (OErase N N 3)] t = Err EUndef
    /\ q_run N N idhash N.eqb wide trivial [qput 3; qput 7; qask (OErase N N 7)] t <> Err EUndef.
Proof. exact qx_erase_default_lemma. Qed.
Print Assumptions c103_in_a_default_map_refuted.

(** ** C104 *)

(** The words behind the copy of the first control words have the distance 254 and the
    hash 0: a key with the hash 0 matches them, and the slot compared is any slot.  An
    erased key is found again; with destructors the slot has no element. *)
Theorem c104_erased_keys_are_gone_refuted : forall wide,
  exists t rs t', q_new N N qal 8 = Ret t tt
    /\ q_run N N idhash N.eqb wide true
         (map qput [5; 13; 21; 2301] ++ [qask (OErase N N 2301); qask (OContains N N 2301)]) t
       = Ok (rs ++ [Some (RNum N N 1); qsays true], t')
    /\ q_size _ _ t' = 3.
Proof. exact qx_ghost_lemma. Qed.
Print Assumptions c104_erased_keys_are_gone_refuted.

Theorem c104_lookup_after_erase_reads_elements_only_refuted : forall wide,
  exists t, q_new N N qal 8 = Ret t tt
    /\ q_run N N idhash N.eqb wide false
         (map qput [5; 13; 21; 2301] ++ [qask (OErase N N 2301); qask (OContains N N 2301)]) t
       = Err EUndef.
Proof. exact qx_ghost_read_lemma. Qed.
Print Assumptions c104_lookup_after_erase_reads_elements_only_refuted.

Theorem c104_lookup_reads_elements_only_refuted : forall wide trivial,
  exists t, q_new N N qal 4 = Ret t tt
    /\ q_run N N idhash N.eqb wide trivial [qput 4; qput 8; qask (OContains N N 2856)] t = Err EUndef.
Proof. exact qx_end_mark_lemma. Qed.
Print Assumptions c104_lookup_reads_elements_only_refuted.

(** ** C105 *)

(** clear(false) leaves the copy of the first control words: afterwards 91 is reported
    as present before it is inserted, and its insertion is dropped. *)
Theorem c105_clear_removes_everything_refuted : forall wide,
  exists t t', q_new N N qal 16 = Ret t tt
    /\ q_run N N idhash N.eqb wide true
         (map qput [11; 27; 43; 59; 75; 91] ++ [qask (OClear N N false)]
          ++ map qput [11; 27; 43; 59] ++ [qask (OContains N N 91); qput 91; qask (OSize N N)]) t
       = Ok (map qnew_ [11; 27; 43; 59; 75; 91] ++ [Some (RUnit N N)] ++ map qnew_ [11; 27; 43; 59]
             ++ [qsays true; qold_ 91; Some (RNum N N 4)], t').
Proof. exact qx_clear_lemma. Qed.
Print Assumptions c105_clear_removes_everything_refuted.

Theorem c105_with_destructors_refuted : forall wide,
  exists t, q_new N N qal 16 = Ret t tt
    /\ q_run N N idhash N.eqb wide false
         (map qput [11; 27; 43; 59; 75; 91] ++ [qask (OClear N N false)]
          ++ map qput [11; 27; 43; 59] ++ [qask (OContains N N 91)]) t
       = Err EUndef.
Proof. exact qx_clear_read_lemma. Qed.
Print Assumptions c105_with_destructors_refuted.

(** ** C106 *)

(** max_load_factor(0.2) of an empty map with 16 slots has no effect: with eight elements
    the load is 0.5, the limit kept is 13108 / 65536. *)
Theorem c106_max_load_factor_is_kept_refuted : forall wide trivial,
  exists t rs t', q_new N N qal 16 = Ret t tt
    /\ q_run N N idhash N.eqb wide trivial
         (qask (OMlf N N 13421773) :: map qput [1; 2; 3; 4; 5; 6; 7; 8]) t = Ok (rs, t')
    /\ (q_size _ _ t', q_cap _ _ t', q_mlf _ _ t') = (8, 16, 13108)
    /\ q_mlf _ _ t' * q_cap _ _ t' < 2 * (qAmplify * q_size _ _ t').
Proof. exact qx_mlf_lemma. Qed.
Print Assumptions c106_max_load_factor_is_kept_refuted.

(** ** C107 *)

(** An insertion fails because no slots are granted: the elements are no longer found,
    the size still counts them, and destructors are not run. *)
Theorem c107_failed_insertion_changes_nothing_refuted : forall wide,
  exists t t', q_new N N qal 4 = Ret t tt
    /\ q_run N N idhash N.eqb wide true
         [qput 1; qput 2; (q_no_slots, OInsert N N 3 4); qask (OContains N N 1);
          qask (OContains N N 2); qask (OSize N N)] t
       = Ok ([qnew_ 1; qnew_ 2; None; qsays false; qsays false; Some (RNum N N 2)], t').
Proof. exact qx_slots_refused_lemma. Qed.
Print Assumptions c107_failed_insertion_changes_nothing_refuted.

Theorem c107_elements_are_destroyed_refuted : forall wide,
  exists t t', q_new N N qal 4 = Ret t tt
    /\ q_run N N idhash N.eqb wide false [qput 1; qput 2; (q_no_slots, OInsert N N 3 4)] t
       = Ok ([qnew_ 1; qnew_ 2; None], t')
    /\ q_destroy N N false t' = Err ELeak.
Proof. exact qx_slots_refused_leak_lemma. Qed.
Print Assumptions c107_elements_are_destroyed_refuted.

(** When already the groups are refused, the map stays as it is. *)
Theorem c107_refused_groups_change_nothing :
  forall (K V : Type) (hash : K -> N) keq wide trivial shrink always alloc t n,
  (forall m, alloc true m = false) ->
  match q_rehash_impl K V hash keq wide trivial shrink always alloc t n with
  | Ret t' _ | Throw t' => t' = t
  | Fail e => q_calc_capacity n = Err e
  end.
Proof. exact q_groups_refused. Qed.
Print Assumptions c107_refused_groups_change_nothing.

Example c107_refused_groups_example : forall wide trivial,
  exists t t', q_new N N qal 4 = Ret t tt
    /\ q_run N N idhash N.eqb wide trivial
         [qput 1; qput 2; (q_no_groups, OInsert N N 3 4); qask (OContains N N 1);
          qask (OContains N N 2); qask (OContains N N 3); qask (OSize N N)] t
       = Ok ([qnew_ 1; qnew_ 2; None; qsays true; qsays true; qsays false; Some (RNum N N 2)], t').
Proof. exact qx_groups_refused_lemma. Qed.

(** ** C108 *)

(** A map that was moved from has no control words; all but size() and clear() read them. *)
Theorem c108_moved_from_map_is_usable_refuted : forall wide trivial,
  exists t, q_new N N qal 4 = Ret t tt
    /\ forall o, In o [OContains N N 1; OFind N N 1; OErase N N 1; OInsert N N 1 2; OReserve N N 4] ->
       q_step N N idhash N.eqb wide trivial qal o (snd (q_move N N t)) = Fail EUndef.
Proof. exact qx_moved_lemma. Qed.
Print Assumptions c108_moved_from_map_is_usable_refuted.

Theorem c108_moved_from_map_is_empty_refuted : forall wide trivial,
  exists t, q_new N N qal 4 = Ret t tt
    /\ q_traverse N N wide (snd (q_move N N t)) = Err EUndef
    /\ q_copy N N idhash N.eqb wide trivial qal (snd (q_move N N t)) = Fail EUndef.
Proof. exact qx_moved_walk_lemma. Qed.
Print Assumptions c108_moved_from_map_is_empty_refuted.

(** ** C109 *)

(** 255 keys that share their position are found; the 256th, in an allocator that grants
    everything, has the distance 255, which says that its slot is free. *)
Theorem c109_inserted_keys_are_found_refuted : forall wide trivial,
  exists t, q_new N N qal 4 = Ret t tt
    /\ q_last (q_run N N idhash N.eqb wide trivial
                 (map qput (q_far 255) ++ [qask (OContains N N (4096 * 254))]) t)
       = Ok (qsays true, 255, 512)
    /\ q_last (q_run N N idhash N.eqb wide trivial
                 (map qput (q_far 256) ++ [qask (OContains N N (4096 * 255))]) t)
       = Ok (qsays false, 256, 512).
Proof. exact qx_far_lemma. Qed.
Print Assumptions c109_inserted_keys_are_found_refuted.

(** The next growth drops elements. *)
Theorem c109_growth_keeps_the_elements_refuted : forall wide,
  exists t, q_new N N qal 4 = Ret t tt
    /\ q_last (q_run N N idhash N.eqb wide true
                 (map qput (q_far 257) ++ [qask (OContains N N (4096 * 254))]) t)
       = Ok (qsays false, 255, 1024)
    /\ q_run N N idhash N.eqb wide false (map qput (q_far 257)) t = Err ELeak.
Proof. exact qx_far_grow_lemma. Qed.
Print Assumptions c109_growth_keeps_the_elements_refuted.

(** ** C110 *)

(** Under the conditions of Robin16Spec.v every call returns what a map returns. *)
Theorem c110_robin16_map_is_a_map_under_the_stated_conditions :
  forall (K V : Type) (hash : K -> N) keq, lawful hash keq ->
  forall wide trivial calls t m, (forall c, In c calls -> f_sane (fst c)) ->
  q_built K V hash keq wide trivial t m ->
  q_agrees K V hash keq wide trivial (q_fine K V hash) (q_client K V hash keq) calls t m.
Proof. intros K V hash keq LW wide trivial. exact (q_map_lemma hash keq LW wide trivial). Qed.
Print Assumptions c110_robin16_map_is_a_map_under_the_stated_conditions.

(** Maps that meet the hypotheses here and in C111, C113, C114, C116, C117 and C119: after
    insertions, erasures, assignments, reserve, shrink_to_fit and another load factor, and
    with 129 keys for one slot. *)
Example c110_example : forall wide trivial, lawful idhash N.eqb
  /\ qbuilt wide trivial (qx_busy wide trivial) (qx_busy_map wide trivial)
  /\ (q_size _ _ (qx_busy wide trivial), q_cap _ _ (qx_busy wide trivial)) = (67, 256)
  /\ qbuilt wide trivial (qx_crowd wide trivial) (qx_crowd_map wide trivial)
  /\ (q_size _ _ (qx_crowd wide trivial), q_cap _ _ (qx_crowd wide trivial)) = (129, 512)
  /\ geti (q_ctrls _ _ (qx_crowd wide trivial)) 128 = Some (128, q_tag N idhash (4096 * 128)).
Proof. exact qx_example_lemma. Qed.

(** ** C111 *)

(** Up to 129 entries, the hash function is free. *)
Theorem c111_no_condition_on_hashes_up_to_129_entries :
  forall (K V : Type) (hash : K -> N) keq, lawful hash keq ->
  forall wide trivial calls t m, (forall c, In c calls -> f_sane (fst c)) ->
  q_built K V hash keq wide trivial t m ->
  q_agrees K V hash keq wide trivial (fun m => N.of_nat (length m) <= 129) (q_client K V hash keq) calls t m.
Proof. intros K V hash keq LW wide trivial. exact (q_few_lemma hash keq LW wide trivial). Qed.
Print Assumptions c111_no_condition_on_hashes_up_to_129_entries.

Theorem c111_129_entries_are_spread : forall (K V : Type) (hash : K -> N) (m : list (K * V)),
  N.of_nat (length m) <= 129 -> q_fine K V hash m.
Proof. intros K V hash. exact (few_fine hash). Qed.
Print Assumptions c111_129_entries_are_spread.

(** ** C112 *)

(** With at least nine slots requested, insertions, assignments and lookups need no
    condition on the second hash, and with at most 129 entries none at all. *)
Theorem c112_without_erasing_no_condition_on_second_hashes :
  forall (K V : Type) (hash : K -> N) keq, lawful hash keq ->
  forall wide trivial calls alloc n t, (forall c, In c calls -> f_sane (fst c)) -> f_sane alloc ->
  9 <= n -> n <= 2 ^ 44 -> q_new K V alloc n = Ret t tt ->
  q_agrees K V hash keq wide trivial (q_fine K V hash) (fun o _ => q_adds K V o) calls t [].
Proof. intros K V hash keq LW wide trivial. exact (q_adds_lemma hash keq LW wide trivial). Qed.
Print Assumptions c112_without_erasing_no_condition_on_second_hashes.

Theorem c112_without_erasing_no_condition_up_to_129_entries :
  forall (K V : Type) (hash : K -> N) keq, lawful hash keq ->
  forall wide trivial calls alloc n t, (forall c, In c calls -> f_sane (fst c)) -> f_sane alloc ->
  9 <= n -> n <= 2 ^ 44 -> q_new K V alloc n = Ret t tt ->
  q_agrees K V hash keq wide trivial (fun m => N.of_nat (length m) <= 129) (fun o _ => q_adds K V o) calls t [].
Proof. intros K V hash keq LW wide trivial. exact (q_adds_few_lemma hash keq LW wide trivial). Qed.
Print Assumptions c112_without_erasing_no_condition_up_to_129_entries.

Example c112_example : forall wide trivial,
  q_new N N qal 9 = Ret (q_start 9) tt /\ Forall (fun c => f_sane (fst c) /\ q_adds N N (snd c)) q_adding
  /\ q_run N N idhash N.eqb wide trivial q_adding (q_start 9)
     = Ok (map qnew_ [5; 13; 21; 2301; 0; 2856]
           ++ [qsays true; Some (RIns N N (0, 9) false); Some (REntry N N (Some (0, 9))); Some (RNum N N 6)],
           match q_run N N idhash N.eqb wide trivial q_adding (q_start 9) with Ok (_, t) => t | _ => q_start 9 end).
Proof. exact qx_adding_lemma. Qed.

(** ** C113 *)

(** A walk from begin() to end() meets every entry once and ends. *)
Theorem c113_iteration_meets_every_entry_once :
  forall (K V : Type) (hash : K -> N) keq, lawful hash keq -> forall wide trivial t m,
  q_built K V hash keq wide trivial t m -> exists l, q_traverse K V wide t = Ok l /\ Permutation l m.
Proof. intros K V hash keq LW wide trivial. exact (q_traverse_lemma hash keq LW wide trivial). Qed.
Print Assumptions c113_iteration_meets_every_entry_once.

(** ** C114 *)

(** A copy has the same entries, or the allocator refused. *)
Theorem c114_copies_have_the_same_entries :
  forall (K V : Type) (hash : K -> N) keq, lawful hash keq -> forall wide trivial alloc t m, f_sane alloc ->
  q_built K V hash keq wide trivial t m ->
  match q_copy K V hash keq wide trivial alloc t with
  | Ret t' _ => q_size _ _ t' = N.of_nat (length m)
      /\ exists l, q_traverse K V wide t' = Ok l /\ Permutation l m
  | Throw _ => True
  | Fail _ => False
  end.
Proof. intros K V hash keq LW wide trivial. exact (q_copy_lemma hash keq LW wide trivial). Qed.
Print Assumptions c114_copies_have_the_same_entries.

Example c114_example : forall wide trivial, exists t',
  q_copy N N idhash N.eqb wide trivial qal (qx_busy wide trivial) = Ret t' tt
  /\ q_size _ _ t' = 67 /\ q_cap _ _ t' = 256
  /\ (exists l, q_traverse N N wide (qx_busy wide trivial) = Ok l /\ length l = 67%nat)
  /\ q_destroy N N trivial (qx_busy wide trivial) = Ok tt.
Proof. exact qx_copy_lemma. Qed.

(** ** C115 *)

(** In a map with a free slot, erase() of a present key is undefined exactly when the
    row of displaced elements behind it goes over the end of the slots. *)
Theorem c115_erase_is_defined_exactly_inside_the_slots :
  forall (K V : Type) (hash : K -> N) keq, lawful hash keq -> forall wide trivial t m k,
  q_built K V hash keq wide trivial t m -> q_seen K V hash k t -> q_size _ _ t < q_cap _ _ t ->
  has K V keq k m = true ->
  (q_cut K V keq k t -> exists t', q_erase K V hash keq wide trivial k t = Ok (t', 1)
     /\ exists l, q_traverse K V wide t' = Ok l /\ Permutation l (remove K V keq k m))
  /\ (~ q_cut K V keq k t -> q_erase K V hash keq wide trivial k t = Err EUndef).
Proof. intros K V hash keq LW wide trivial. exact (q_erase_exact_lemma hash keq LW wide trivial). Qed.
Print Assumptions c115_erase_is_defined_exactly_inside_the_slots.

Example c115_example : forall wide trivial,
  qbuilt wide trivial (qx_edge wide trivial) qx_edge_map
  /\ q_size _ _ (qx_edge wide trivial) < q_cap _ _ (qx_edge wide trivial)
  /\ (forall k, q_seen N N idhash k (qx_edge wide trivial))
  /\ has N N N.eqb 31 qx_edge_map = true /\ q_cut N N N.eqb 31 (qx_edge wide trivial)
  /\ has N N N.eqb 15 qx_edge_map = true /\ ~ q_cut N N N.eqb 15 (qx_edge wide trivial).
Proof. exact qx_edge_lemma. Qed.

(** ** C116 *)

(** The destructor destroys every element and nothing else. *)
Theorem c116_destructor_destroys_every_element :
  forall (K V : Type) (hash : K -> N) keq, lawful hash keq -> forall wide trivial t m,
  q_built K V hash keq wide trivial t m -> q_destroy K V trivial t = Ok tt.
Proof. intros K V hash keq LW wide trivial. exact (q_destroy_lemma hash keq LW wide trivial). Qed.
Print Assumptions c116_destructor_destroys_every_element.

(** ** C117 *)

(** Capacity and size; the distance and the tag of every used slot; no element is more
    than one further from its position than the one in front of it; the copy of the
    first control words. *)
Theorem c117_every_element_is_where_its_control_word_says :
  forall (K V : Type) (hash : K -> N) keq, lawful hash keq -> forall wide trivial t m,
  q_built K V hash keq wide trivial t m ->
  exists b, 2 <= b /\ b <= 44 /\ q_cap _ _ t = 2 ^ b /\ q_size _ _ t = N.of_nat (length m) /\ q_size _ _ t <= q_cap _ _ t
  /\ (forall i, i < q_cap _ _ t -> exists d x, geti (q_ctrls _ _ t) i = Some (d, x)
        /\ (d = 255 \/ (d <= 128 /\ exists kv, geti (q_slots _ _ t) i = Some (Some kv) /\ In kv m
             /\ (hash (fst kv) + d) mod q_cap _ _ t = i /\ x = q_tag K hash (fst kv)
             /\ (0 < d -> exists d0 x0, geti (q_ctrls _ _ t) ((i + (q_cap _ _ t - 1)) mod q_cap _ _ t) = Some (d0, x0)
                  /\ d0 <= 128 /\ d <= d0 + 1))))
  /\ (forall i, i < q_cap _ _ t -> i < 16 -> geti (q_ctrls _ _ t) (q_cap _ _ t + i) = geti (q_ctrls _ _ t) i).
Proof. intros K V hash keq LW wide trivial. exact (q_structure_lemma hash keq LW wide trivial). Qed.
Print Assumptions c117_every_element_is_where_its_control_word_says.

(** ** C118 *)

(** The code for AVX-512 ([wide]) and the code for AVX2 do the same in every state. *)
Theorem c118_both_instruction_sets_do_the_same :
  forall (K V : Type) (hash : K -> N) keq trivial alloc o t,
  q_step K V hash keq true trivial alloc o t = q_step K V hash keq false trivial alloc o t.
Proof. intros K V hash keq trivial. exact (step_same hash keq trivial). Qed.
Print Assumptions c118_both_instruction_sets_do_the_same.

Theorem c118_iteration_too : forall (K V : Type) (t : qmap K V), q_traverse K V true t = q_traverse K V false t.
Proof. intros K V. exact traverse_same. Qed.
Print Assumptions c118_iteration_too.

Theorem c118_copies_too : forall (K V : Type) (hash : K -> N) keq trivial alloc t,
  q_copy K V hash keq true trivial alloc t = q_copy K V hash keq false trivial alloc t.
Proof. intros K V hash keq trivial. exact (copy_same hash keq trivial). Qed.
Print Assumptions c118_copies_too.

(** ** C119 *)

(** A search ends after at most 2 single words (4 when inserting) and 8 groups. *)
Theorem c119_searches_end_within_eight_groups :
  forall (K V : Type) (hash : K -> N) keq, lawful hash keq -> forall wide trivial t m k singles,
  q_built K V hash keq wide trivial t m -> q_seen K V hash k t -> (singles = 2 \/ singles = 4)%nat ->
  rbind (q_singles K V keq singles t (Some k) (q_tag K hash k) (q_home K V hash t k) 0) (fun r =>
    match r with
    | inl s => Ok s
    | inr (i, d) => q_groups K V keq wide 8 t (Some k) (q_tag K hash k) (q_home K V hash t k) i d
    end) = q_search K V hash keq wide singles t (Some k) k.
Proof. intros K V hash keq LW wide trivial. exact (q_probes_lemma hash keq LW wide trivial). Qed.
Print Assumptions c119_searches_end_within_eight_groups.

(** All of them are needed for an absent key in the second map of C110. *)
Example c119_example : forall wide trivial,
  q_groups N N N.eqb wide 7 (qx_crowd wide trivial) (Some (4096 * 129)) (q_tag N idhash (4096 * 129)) 0 2 2 = Err ELoop
  /\ q_groups N N N.eqb wide 8 (qx_crowd wide trivial) (Some (4096 * 129)) (q_tag N idhash (4096 * 129)) 0 2 2
     = Ok (QStop 129 129)
  /\ q_search N N idhash N.eqb wide 2 (qx_crowd wide trivial) (Some (4096 * 129)) (4096 * 129) = Ok (QStop 129 129).
Proof. exact qx_eight_lemma. Qed.
