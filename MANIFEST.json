{
 "claims": [
  {
   "property": "C01",
   "status": "proved",
   "theorems": [
    "c01_group15_is_a_map",
    "c02_every_call_acts_on_the_content"
   ],
   "note": "All runs from a new group15 map that avoid shrink_to_fit (C08), reserve(0) (C32), clear() without storage (C15) and rehash(n>2^63); the allocator may fail anywhere but never grants more than 2^55 control bytes. Also shows that every such run returns. c02_every_call_acts_on_the_content is the one-call version for every state (copies, moved and swapped maps included)."
  },
  {
   "property": "C02",
   "status": "proved",
   "theorems": [
    "c02_group16_is_a_map_when_it_returns",
    "c02_every_call_acts_on_the_content"
   ],
   "note": "Both table kinds; runs that return (termination of group16 insertion is C09). Same exclusions as C01 but shrink_to_fit is allowed."
  },
  {
   "property": "C03",
   "status": "proved",
   "theorems": [
    "c03_keys_are_unique"
   ],
   "note": "On what iteration yields, for every state that construction, calls, copies (of different capacity), moves, swaps, range insertion, erase(iterator) and erase_if can produce."
  },
  {
   "property": "C04",
   "status": "proved",
   "theorems": [
    "c04_size_counts_entries",
    "c04_empty"
   ],
   "note": "size() against the traversal; empty() is size()==0 and holds exactly when the traversal is empty."
  },
  {
   "property": "C05",
   "status": "proved",
   "theorems": [
    "c05_c06_iteration_visits_every_entry_once"
   ],
   "note": "The traversal is limited to size() increments, so it also shows that end() is reached after exactly size() steps; reads outside the arrays are an error outcome of the model."
  },
  {
   "property": "C06",
   "status": "proved",
   "theorems": [
    "c05_c06_iteration_visits_every_entry_once"
   ],
   "note": "As C05; the byte after the control array that operator++ reads when it reaches the end has an arbitrary value in the model."
  },
  {
   "property": "C07",
   "status": "proved",
   "theorems": [
    "c07_group15_calls_return",
    "c07_group15_insertion_returns"
   ],
   "note": "Runs and single insertions from every constructible state; hashers arbitrary."
  },
  {
   "property": "C08",
   "status": "partial",
   "theorems": [
    "c08_shrink_then_insert_loops_refuted",
    "c08_shrink_read_only_loops_refuted",
    "c08_loop_is_endless"
   ],
   "note": "REFUTED: the statement is false of the code. 112 insertions, shrink_to_fit(), 105 erasures, 113 insertions: the last insertion never ends; shrink_to_fit(true) on 30 entries never ends. c08_loop_is_endless: the model's ELoop means an endless loop for every number of rounds."
  },
  {
   "property": "C09",
   "status": "partial",
   "theorems": [
    "c09_group16_insertion_terminates_partial",
    "c09_group16_insertion_loops_refuted",
    "c08_loop_is_endless"
   ],
   "note": "Proved for all runs without erase (the full statement drops that condition); REFUTED in general: with a single erasure an insertion loops for ever."
  },
  {
   "property": "C10",
   "status": "proved",
   "theorems": [
    "c10_resizing_preserves_content",
    "c02_every_call_acts_on_the_content"
   ],
   "note": "reserve(n>0), rehash(n<=2^63), shrink_to_fit, max_load_factor; automatic growth is in c02_every_call_acts_on_the_content."
  },
  {
   "property": "C11",
   "status": "proved",
   "theorems": [
    "c11_shrink_to_fit_returns",
    "c10_resizing_preserves_content"
   ],
   "note": "Content: c10_resizing_preserves_content covers both modes; termination of the default mode: c11_shrink_to_fit_returns. shrink_to_fit(true) may loop (C08)."
  },
  {
   "property": "C12",
   "status": "partial",
   "theorems": [
    "c12_reserve_limit",
    "c12_reserve_prevents_reallocation_partial",
    "c12_reserve_group15_partial",
    "c12_group15_reallocates_refuted",
    "c12_group16_reallocates_refuted"
   ],
   "note": "Proved exactly when (c12_reserve_limit): as long as the size is at most 7/8 of the capacity, or the capacity is at most 32. Hence proved for group16 with the default load factor, and for group15 with 15n/16-2 insertions; REFUTED in general: group15 n=112 default load factor, group16 n=33 with max_load_factor 131/256."
  },
  {
   "property": "C13",
   "status": "proved",
   "theorems": [
    "c13_size_at_most_capacity"
   ],
   "note": ""
  },
  {
   "property": "C14",
   "status": "proved",
   "theorems": [
    "c14_clear_removes_everything"
   ],
   "note": "Destruction exactly once: destroying a raw slot is an error outcome and all slots are raw afterwards. The map keeps the growth limit lowered by earlier erasures, see C42."
  },
  {
   "property": "C15",
   "status": "partial",
   "theorems": [
    "c15_clear_writes_to_constant_refuted"
   ],
   "note": "REFUTED: clear() on a map without storage always writes the end mark to the constant default groups (outcome EUndef)."
  },
  {
   "property": "C16",
   "status": "proved",
   "theorems": [
    "c16_runs_stay_defined",
    "c16_calls_stay_defined",
    "c16_destructor_destroys_everything"
   ],
   "note": "EUndef (raw slot read, assigned or destroyed; construction over a live slot; index out of range) and ELeak never occur; only ELoop (C08, C09) can. The destructor destroys every entry. Throwing element constructors are C18; a copy with the same capacity as its source is C19."
  },
  {
   "property": "C17",
   "status": "proved",
   "theorems": [
    "c17_allocation_failure_changes_nothing"
   ],
   "note": "Unchanged state; max_load_factor(m) has stored the new factor before the allocation fails, everything else is unchanged."
  },
  {
   "property": "C18",
   "status": "partial",
   "theorems": [
    "c18_throwing_constructor_refuted",
    "c18_throwing_constructor_always_breaks"
   ],
   "note": "REFUTED, and for every state: whenever the constructor of a new entry throws inside emplace/try_emplace the map can neither be searched for the key nor destroyed without undefined behaviour."
  },
  {
   "property": "C19",
   "status": "partial",
   "theorems": [
    "c19_copy_is_equal_partial",
    "c19_copy_is_empty_refuted",
    "c19_copy_of_same_capacity"
   ],
   "note": "Proved when the copy has a different capacity or the source is empty; REFUTED otherwise: the copy reports size 0 and iterates as empty although lookups find the entries."
  },
  {
   "property": "C20",
   "status": "proved",
   "theorems": [
    "c20_move_construction",
    "c20_move_assignment",
    "c20_swap"
   ],
   "note": "Move construction, move assignment with equal allocators, swap."
  },
  {
   "property": "C21",
   "status": "partial",
   "theorems": [
    "c21_range_insert_refuted",
    "c21_range_insert_inserts_first_only"
   ],
   "note": "REFUTED: only the first element of the range is inserted (shown for all ranges and states)."
  },
  {
   "property": "C22",
   "status": "proved",
   "theorems": [
    "c22_lookup_reads_each_group_at_most_once",
    "c22_lookup_terminates"
   ],
   "note": "The trace of groups read has no duplicates, is at most group_capacity() long and in range; lookups end."
  },
  {
   "property": "C23",
   "status": "proved",
   "theorems": [
    "c23_prober_visits_every_group",
    "c23_prober_stops_after_all_groups"
   ],
   "note": "Up to 2^64 groups for the visiting order, up to 2^63 for the stop condition (with 2^64 groups the step counter wraps)."
  },
  {
   "property": "C24",
   "status": "proved",
   "theorems": [
    "c24_group15_matching",
    "c24_group15_updates"
   ],
   "note": "All lists of sixteen bytes, all hashes."
  },
  {
   "property": "C25",
   "status": "proved",
   "theorems": [
    "c25_group16_matching",
    "c25_group16_updates"
   ],
   "note": "All lists of sixteen bytes, all hashes."
  },
  {
   "property": "C26",
   "status": "proved",
   "theorems": [
    "c26_reduced_hash_is_no_mark",
    "c26_stored_byte_group15",
    "c26_stored_byte_group16"
   ],
   "note": "Range of the reduced hash, and the byte stored for every entry of every state is the reduced hash of its key."
  },
  {
   "property": "C27",
   "status": "proved",
   "theorems": [
    "c27_home_group_exists"
   ],
   "note": ""
  },
  {
   "property": "C28",
   "status": "proved",
   "theorems": [
    "c28_is_pow2",
    "c28_round_up",
    "c28_round_down",
    "c28_round_to",
    "c28_next_pow2",
    "c28_prev_pow2",
    "c28_log2_int",
    "c28_round_up_not_representable",
    "c28_next_pow2_not_representable"
   ],
   "note": "Each function against a specification by least/greatest power of two; arguments without a representable result give a shift by the word width."
  },
  {
   "property": "C29",
   "status": "partial",
   "theorems": [
    "c29_popcount32_partial",
    "c29_leading32_partial",
    "c29_trailing32_partial",
    "c29_zero32_partial",
    "c29_wide_partial",
    "c29_popcnt64_refuted",
    "c29_ctz64_refuted",
    "c29_clz64_refuted",
    "c29_bsr32_refuted",
    "c29_bsf64_refuted",
    "c29_generic_bsf32_partial",
    "c29_generic_bsr32_counts_leading_zeros",
    "c29_generic_scans_64_refuted"
   ],
   "note": "Proved for the 32-bit functions and some of the 64-bit ones; REFUTED for popcnt64, ctz64, clz64, the generic bsr32 and bsf64 on 32-bit machines."
  },
  {
   "property": "C30",
   "status": "proved",
   "theorems": [
    "c30_groups_fit_in_slot_block",
    "c30_groups_fit_in_group_block",
    "c30_size_wraps_refuted"
   ],
   "note": "Provided the size in bytes fits in size_t; without that bound the size computation wraps (refuted)."
  },
  {
   "property": "C31",
   "status": "partial",
   "theorems": [
    "c31_churn_grows_without_bound_refuted"
   ],
   "note": "REFUTED for every capacity: at most 16 live entries, capacity 15*2^k-1 for every k up to 51."
  },
  {
   "property": "C32",
   "status": "partial",
   "theorems": [
    "c32_reserve_zero_loses_everything_refuted",
    "c32_reserve_zero_always_clears",
    "c10_resizing_preserves_content"
   ],
   "note": "n>0 is c10_resizing_preserves_content; n=0 REFUTED: reserve(0) destroys all entries in every state."
  },
  {
   "property": "C33",
   "status": "partial",
   "theorems": [
    "c33_setting_same_load_factor_refuted",
    "c33_setting_load_factor_always_grows"
   ],
   "note": "REFUTED: any successful max_load_factor call increases the capacity in every state."
  },
  {
   "property": "C34",
   "status": "partial",
   "theorems": [
    "c34_reserve_provides_capacity_partial",
    "c34_reserve_wraps_refuted"
   ],
   "note": "Proved for n < 2^56; REFUTED for n = 2^56."
  },
  {
   "property": "C35",
   "status": "proved",
   "theorems": [
    "c35_erase_iterator_group16"
   ],
   "note": "group16; the result iterator continues with exactly the entries that followed."
  },
  {
   "property": "C36",
   "status": "proved",
   "theorems": [
    "c36_insertion_keeps_positions",
    "c36_erasure_keeps_positions"
   ],
   "note": ""
  },
  {
   "property": "C37",
   "status": "proved",
   "theorems": [
    "c37_duplicates"
   ],
   "note": ""
  },
  {
   "property": "C38",
   "status": "proved",
   "theorems": [
    "c38_lookups_without_storage"
   ],
   "note": ""
  },
  {
   "property": "C39",
   "status": "proved",
   "theorems": [
    "c39_blocks_are_returned_once_with_their_size",
    "c39_sizes_match_even_if_allocations_fail",
    "c39_group16_leaks_when_slots_fail_refuted"
   ],
   "note": "Ledger of allocator calls over a whole run ending with the destructor: every block is returned once with its size. Holds for group16 if the slot allocation never fails after the group allocation succeeded; otherwise the group block leaks (refuted part) but sizes still match."
  },
  {
   "property": "C40",
   "status": "partial",
   "theorems": [
    "c40_erase_if_group16_partial",
    "c40_erase_if_group15_refuted",
    "c40_erase_if_group15_never_works"
   ],
   "note": "Proved for group16; REFUTED for group15, where erase_if decrements end(), a null pointer, on every non-empty map."
  },
  {
   "property": "C41",
   "status": "proved",
   "theorems": [
    "c41_iterators_group15",
    "c41_iterators_group16"
   ],
   "note": "Iterators reached from begin() by ++."
  },
  {
   "property": "C42",
   "status": "partial",
   "theorems": [
    "c42_clear_restores_growth_limit_refuted"
   ],
   "note": "REFUTED: of two empty maps with equal capacity, both just cleared, one grows while receiving the same 17 keys and the other does not."
  },
  {
   "property": "C43",
   "status": "proved",
   "theorems": [
    "c43_robin_map_is_a_map_while_the_keys_are_spread",
    "c43_from_any_reachable_map"
   ],
   "note": "r_agrees for q = 1 (all calls) and q = 2 (calls that keep half of the positions free), from a new map and from any reachable one (copies and moved-to maps included). The spread condition is on the key set only; C45 shows that some condition is needed."
  },
  {
   "property": "C44",
   "status": "proved",
   "theorems": [
    "c44_eleven_entries_need_no_spread"
   ],
   "note": "The bound 11 is sharp: c45 has 12."
  },
  {
   "property": "C45",
   "status": "partial",
   "theorems": [
    "c45_insertions_stay_inside_the_arrays_refuted",
    "c45_distances_fit_into_the_control_byte_refuted"
   ],
   "note": "REFUTED for the faithful model: 12 keys congruent to 31 modulo 32 with std::hash<int>, and 129 keys with one home position (the distance reads as negative). What holds is C43/C44."
  },
  {
   "property": "C46",
   "status": "partial",
   "theorems": [
    "c46_find_of_an_absent_key_is_end_refuted",
    "c46_find_of_an_absent_key_is_end_with_storage_partial"
   ],
   "note": "REFUTED on a default-constructed map: find gives index 0 (difference of null pointers), end() has index 4. Proved for every reachable map with storage."
  },
  {
   "property": "C47",
   "status": "proved",
   "theorems": [
    "c47_iteration_visits_every_entry_once"
   ],
   "note": ""
  },
  {
   "property": "C48",
   "status": "proved",
   "theorems": [
    "c48_copy_has_the_same_entries"
   ],
   "note": "For entries that are spread at load factor 1/2. reach_copy in r_reach makes C43 apply to copies."
  },
  {
   "property": "C49",
   "status": "partial",
   "theorems": [
    "c49_moved_to_map_has_the_entries_partial",
    "c49_moved_from_map_is_usable_refuted"
   ],
   "note": "REFUTED for the source: slot_threshold_ is taken from other.slot_size_ and the source keeps its threshold, so an insertion writes to the constant control bytes. Proved for the new map."
  },
  {
   "property": "C50",
   "status": "partial",
   "theorems": [
    "c50_swap_exchanges_the_entries_partial",
    "c50_swapped_and_assigned_maps_are_usable_refuted"
   ],
   "note": "REFUTED: after swap or copy assignment find of an absent key and insertions that displace compare pointers into different arrays. Proved: iteration, contains and size are exchanged."
  },
  {
   "property": "C51",
   "status": "partial",
   "theorems": [
    "c51_failed_growth_leaves_the_map_unchanged_refuted",
    "c51_failed_growth_leaves_a_clearable_map_refuted",
    "c51_failed_growth_keeps_the_entries_partial"
   ],
   "note": "REFUTED: end() moves, so find of an absent key is no longer end(). Proved: entries, size and contains are unchanged. Also REFUTED: after a reserve that throws, clear() fills more control groups than there are."
  },
  {
   "property": "C52",
   "status": "partial",
   "theorems": [
    "c52_clear_of_an_empty_map_is_defined_refuted",
    "c52_clear_with_storage_partial"
   ],
   "note": "REFUTED on a default-constructed map (also clear(true)). Proved with storage."
  },
  {
   "property": "C53",
   "status": "partial",
   "theorems": [
    "c53_shrinking_is_memory_safe_refuted"
   ],
   "note": "REFUTED: 10 entries in 32 positions, rehash(0) and shrink_to_fit(true) overflow. C43 gives safety when the keys are spread in the smaller table."
  },
  {
   "property": "C54",
   "status": "proved",
   "theorems": [
    "c54_capacity_is_a_power_of_two_and_at_least_half_empty"
   ],
   "note": ""
  },
  {
   "property": "C55",
   "status": "proved",
   "theorems": [
    "c55_searches_are_short"
   ],
   "note": "Stated with the fuel of r_scan, which counts the positions."
  },
  {
   "property": "C56",
   "status": "partial",
   "theorems": [
    "c56_max_load_factor_takes_effect_refuted"
   ],
   "note": "REFUTED: 40 entries of 128 with the new factor 0.3; slot_threshold_ stays at 64 and no rehash happens."
  },
  {
   "property": "C57",
   "status": "proved",
   "theorems": [
    "c57_flat16_map_is_a_map_under_the_stated_conditions"
   ],
   "note": "The conditions are f_client in Flat16Spec.v; each is needed, see C60, C61, C63, C64. An allocator that never grants more than 2^44 slots."
  },
  {
   "property": "C58",
   "status": "proved",
   "theorems": [
    "c58_without_erasing_no_condition_on_keys"
   ],
   "note": ""
  },
  {
   "property": "C59",
   "status": "proved",
   "theorems": [
    "c59_eight_entries_no_condition_on_keys"
   ],
   "note": ""
  },
  {
   "property": "C60",
   "status": "partial",
   "theorems": [
    "c60_erase_keeps_the_other_entries_refuted",
    "c57_flat16_map_is_a_map_under_the_stated_conditions",
    "c59_eight_entries_no_condition_on_keys"
   ],
   "note": "REFUTED: seventeen keys with one home slot; erasing one loses another. Proved for entries within sixteen slots (C57) and for at most eight entries (C59)."
  },
  {
   "property": "C61",
   "status": "partial",
   "theorems": [
    "c61_insertion_after_erasures_is_defined_refuted",
    "c61_insertion_after_max_load_factor_is_defined_refuted",
    "c57_flat16_map_is_a_map_under_the_stated_conditions",
    "c58_without_erasing_no_condition_on_keys"
   ],
   "note": "REFUTED: 32 insertions and 8 erasures, or reserve(32), max_load_factor(0.8) and 33 insertions. Proved without erasures (C58) and while tidy or roomy (C57)."
  },
  {
   "property": "C62",
   "status": "proved",
   "theorems": [
    "c62_iteration_visits_every_entry_once"
   ],
   "note": ""
  },
  {
   "property": "C63",
   "status": "partial",
   "theorems": [
    "c63_clear_empties_the_map_refuted",
    "c63_iteration_after_clear_is_defined_refuted",
    "c57_flat16_map_is_a_map_under_the_stated_conditions"
   ],
   "note": "REFUTED for clear(). Proved for clear(true) with more than four slots (C57)."
  },
  {
   "property": "C64",
   "status": "partial",
   "theorems": [
    "c64_capacity_requests_end_refuted",
    "c64_capacity_requests_end_partial",
    "c57_flat16_map_is_a_map_under_the_stated_conditions"
   ],
   "note": "REFUTED: four entries, shrink_to_fit(true), reserve(0) and rehash(2). Proved for shrink_to_fit(), for requests of at least size(), and for all requests and shrink_to_fit(true) while size() is below four or not a power of two (C57); reserve and rehash then provide n slots."
  },
  {
   "property": "C65",
   "status": "proved",
   "theorems": [
    "c65_copy_has_the_same_entries"
   ],
   "note": ""
  },
  {
   "property": "C66",
   "status": "partial",
   "theorems": [
    "c66_copy_can_be_inserted_into_refuted",
    "c57_flat16_map_is_a_map_under_the_stated_conditions"
   ],
   "note": "REFUTED: 33 insertions into the copy of a map with 32 entries. Copies are in f_built, so C57 says when a copy is usable."
  },
  {
   "property": "C67",
   "status": "partial",
   "theorems": [
    "c67_failed_insertion_keeps_the_map_refuted",
    "c67_refused_control_bytes_keep_the_map_partial"
   ],
   "note": "REFUTED for refused slots. Proved for refused control bytes, except in clear and max_load_factor."
  },
  {
   "property": "C68",
   "status": "partial",
   "theorems": [
    "c68_load_stays_below_the_maximum_refuted",
    "c68_load_stays_below_the_maximum_while_inserting_partial"
   ],
   "note": "REFUTED. Proved for insertions and lookups from a new map."
  },
  {
   "property": "C69",
   "status": "partial",
   "theorems": [
    "c69_match_empty_finds_exactly_the_empty_marks",
    "c69_match_used_finds_exactly_the_used_slots",
    "c69_match_empty_or_deleted_excludes_the_end_mark_refuted"
   ],
   "note": "REFUTED for matchEmptyOrDeleted. Proved for matchEmpty and matchUsed."
  },
  {
   "property": "C70",
   "status": "proved",
   "theorems": [
    "c70_destructor_destroys_every_entry_once"
   ],
   "note": ""
  },
  {
   "property": "C71",
   "status": "proved",
   "theorems": [
    "c71_bkdr_is_the_polynomial_of_the_bytes",
    "c71_times31std_is_the_polynomial_of_the_bytes",
    "c71_djb_is_the_polynomial_of_the_bytes"
   ],
   "note": ""
  },
  {
   "property": "C72",
   "status": "proved",
   "theorems": [
    "c72_ap_alternates_over_all_bytes"
   ],
   "note": ""
  },
  {
   "property": "C73",
   "status": "proved",
   "theorems": [
    "c73_simple_crc_is_crc32c"
   ],
   "note": ""
  },
  {
   "property": "C74",
   "status": "partial",
   "theorems": [
    "c74_hash_crc32_reads_only_the_key_refuted",
    "c74_reads_beyond_exactly_for_other_lengths_partial"
   ],
   "note": "REFUTED for every length that is not a multiple of 8 (x86: 4). Proved: exactly the bytes up to the next multiple must be readable, and they do not influence the value, which is the CRC-32C register of the key filled up with zeros."
  },
  {
   "property": "C75",
   "status": "partial",
   "theorems": [
    "c75_hash_crc32_depends_on_the_length_refuted"
   ],
   "note": "REFUTED: appending zeros up to the next multiple of eight bytes never changes the hash."
  },
  {
   "property": "C76",
   "status": "partial",
   "theorems": [
    "c76_primary_hash_reads_only_the_key_refuted",
    "c76_primary_hash_ignores_what_follows_partial",
    "c76_primary_hash_separates_zeros_at_the_end"
   ],
   "note": "REFUTED for the reads. Proved: the value does not depend on what follows; zeros at the end change it; C80 for every byte."
  },
  {
   "property": "C77",
   "status": "partial",
   "theorems": [
    "c77_primary_hash_is_a_function_of_the_key_refuted",
    "c77_primary_hash_ignores_what_precedes_refuted"
   ],
   "note": "REFUTED: one key at two alignments; one key with two bytes before it."
  },
  {
   "property": "C78",
   "status": "partial",
   "theorems": [
    "c78_arm_multiplication_is_the_128_bit_product",
    "c78_portable_mum_is_the_folded_product",
    "c78_mum_hash_is_the_folded_product",
    "c78_generic_multiplication_is_the_128_bit_product_refuted",
    "c78_generic_multiplication_value"
   ],
   "note": "REFUTED for the generic uint128_mul, whose exact value is proved (the high half is 2^32 too small when a carry is lost). Proved for the other three."
  },
  {
   "property": "C79",
   "status": "partial",
   "theorems": [
    "c79_msvc_fnv_1a_is_fnv_1a_refuted",
    "c79_msvc_fnv_1a_is_fnv_1a_for_other_lengths_partial"
   ],
   "note": "REFUTED for lengths 4 and 8. Proved for all others."
  },
  {
   "property": "C80",
   "status": "proved",
   "theorems": [
    "c80_bkdr_notices_every_byte",
    "c80_times31_notices_every_byte",
    "c80_times31std_notices_every_byte",
    "c80_djb_notices_every_byte",
    "c80_ap_notices_every_byte",
    "c80_openssl_notices_every_byte",
    "c80_msvc_fnv_1a_notices_every_byte",
    "c80_simple_crc_notices_every_byte",
    "c80_crc_notices_every_byte",
    "c80_primary_hash_notices_every_byte"
   ],
   "note": "BKDRHash (131), Times31, Times31Std, DJBHash, APHash, OpenSSL_Hash, msvc_fnv_1a, both CRCs and primaryHash; the last three with enough readable bytes behind the key (C74, C76)."
  },
  {
   "property": "C81",
   "status": "proved",
   "theorems": [
    "c81_index_of_mum_policy_is_below_the_capacity"
   ],
   "note": "Capacities 2 to 2^63, as the asserts of calc_next_capacity demand."
  },
  {
   "property": "C82",
   "status": "partial",
   "theorems": [
    "c82_fibonacci_policy_uses_all_slots_refuted",
    "c82_policies_use_all_slots_for_strings_refuted"
   ],
   "note": "REFUTED: the index is constant."
  },
  {
   "property": "C83",
   "status": "partial",
   "theorems": [
    "c83_crc_of_integers_separates_32_bit_keys_partial",
    "c83_crc_of_integers_separates_64_bit_keys_refuted",
    "c83_halves_of_the_hash_are_independent_refuted"
   ],
   "note": "REFUTED for 64-bit keys: every key has another with the same hash; the halves of int_hash_crc32 differ by a constant. Proved for keys below 2^32."
  },
  {
   "property": "C84",
   "status": "partial",
   "theorems": [
    "c84_equal_floating_point_keys_hash_equally_refuted",
    "c84_float_keys_are_read_inside_the_object_refuted"
   ],
   "note": "REFUTED: +0.0 and -0.0 as double for all three functions; a float is read beyond its end by hash_crc32."
  },
  {
   "property": "C85",
   "status": "partial",
   "theorems": [
    "c85_wide_strings_are_read_inside_the_string_refuted",
    "c85_crc_of_wide_strings_partial"
   ],
   "note": "REFUTED for every wide string that is not empty."
  },
  {
   "property": "C86",
   "status": "partial",
   "theorems": [
    "c86_rocksdb_hash_is_defined_refuted",
    "c86_rocksdb_hash_is_defined_for_ascii_partial"
   ],
   "note": "REFUTED: two bytes, the second 128 or more. Proved: defined if and only if the second and third byte after the last whole word are below 128."
  },
  {
   "property": "C87",
   "status": "partial",
   "theorems": [
    "c87_hash_of_a_pointer_depends_on_the_pointer_only_refuted",
    "c87_pointer_keys_are_read_inside_the_object_refuted"
   ],
   "note": "REFUTED: for all three hash functions; pointers to objects of four bytes are read beyond the object."
  },
  {
   "property": "C88",
   "status": "proved",
   "theorems": [
    "c88_yoshimura_reads_only_the_key",
    "c88_triad_reads_only_the_key",
    "c88_penumbra_reads_only_the_key"
   ],
   "note": ""
  },
  {
   "property": "C89",
   "status": "partial",
   "theorems": [
    "c89_yoshimura_notices_every_byte_refuted",
    "c89_triad_notices_every_byte_refuted",
    "c89_yoshimura_notices_every_byte_partial",
    "c89_triad_notices_every_byte_partial",
    "c89_last_byte_is_signed"
   ],
   "note": "REFUTED: keys of 20 bytes (Yoshimura) and 28 bytes (the other two). Proved for lengths below 16 and multiples of 16 (Yoshimura), below 24 and multiples of 24 that do not reach the xmm loop (the other two)."
  },
  {
   "property": "C90",
   "status": "partial",
   "theorems": [
    "c90_xmm_uses_every_byte_refuted",
    "c90_triad_xmm_drops_five_bytes",
    "c90_penumbra_xmm_drops_five_bytes"
   ],
   "note": "REFUTED: for keys of 96 (TRIADii) and 192 bytes (penumbra), bytes 11 to 15 never matter."
  },
  {
   "property": "C91",
   "status": "proved",
   "theorems": [
    "c91_sha1_x86_is_the_compression_function",
    "c91_sha1_x86_from_the_initial_state"
   ],
   "note": "The instructions are modelled from their definition; keys shorter than 2^63 bytes."
  },
  {
   "property": "C92",
   "status": "partial",
   "theorems": [
    "c92_sha1_x86_notices_a_trailing_zero_refuted",
    "c92_sha1_x86_ignores_a_trailing_zero"
   ],
   "note": "REFUTED: \"abc\" and \"abc\\0\" collide for every state; in general a zero behind a key that does not fill its last block."
  },
  {
   "property": "C93",
   "status": "partial",
   "theorems": [
    "c93_sha1_msg2_reads_only_the_key_refuted",
    "c93_sha1_msg2_reads_whole_registers",
    "c93_sha1_msg2_depends_only_on_the_key_partial"
   ],
   "note": "REFUTED: a key of 3 bytes. It reads exactly up to the next multiple of 16; proved that the bytes behind the key do not change the value."
  },
  {
   "property": "C94",
   "status": "partial",
   "theorems": [
    "c94_sha1_msg2_notices_two_bits_refuted",
    "c94_sha1_msg2_two_bits_cancel",
    "c94_sha1_msg2_ignores_a_trailing_zero"
   ],
   "note": "REFUTED: for every key of 64 bytes, flipping bit 0 of byte 0 and bit 1 of byte 36 leaves the hash unchanged."
  },
  {
   "property": "C95",
   "status": "partial",
   "theorems": [
    "c95_memcmp_variant_decides_equality",
    "c95_word_variant_decides_equality_partial",
    "c95_sse_variant_decides_equality_partial",
    "c95_libc_variant_decides_equality_partial",
    "c95_libc_variant_decides_equality_refuted",
    "c95_c_strings",
    "c95_string_stl_equality_has_no_result",
    "c95_string_stl_equality_refuted"
   ],
   "note": "Proved for memcmp, all character types. Word variant: char, last 8 bytes readable. SSE: one- and two-byte types it fits, last 16 bytes readable, fewer than 2^31 characters. REFUTED for the C library variant (\"a\\0b\" equals \"a\\0c\"; proved without zeros) and for stl::StrEqual with two lengths (no return)."
  },
  {
   "property": "C96",
   "status": "partial",
   "theorems": [
    "c96_memcmp_variant_reads_the_strings_only",
    "c96_libc_variant_reads_the_strings_only",
    "c96_word_variant_reads_behind_the_strings",
    "c96_sse_variant_reads_behind_the_strings",
    "c96_word_variant_reads_the_strings_only_refuted",
    "c96_sse_variant_reads_the_strings_only_refuted"
   ],
   "note": "Proved for memcmp and the C library. REFUTED for the word and the SSE variant: any string whose length is no multiple of 8 or 16 bytes, compared with an equal one."
  },
  {
   "property": "C97",
   "status": "partial",
   "theorems": [
    "c97_sse_variant_looks_at_long_strings_refuted",
    "c97_sse_variant_reads_nothing_of_long_strings"
   ],
   "note": "REFUTED for every length from 2^31 to 2^32: two strings that differ in the first character are equal; nothing is read."
  },
  {
   "property": "C98",
   "status": "partial",
   "theorems": [
    "c98_word_variant_ignores_wide_characters",
    "c98_sse_variant_decides_equality_of_wide_strings_refuted",
    "c98_sse_variant_ignores_half_of_wide_strings",
    "c98_word_variant_decides_equality_of_wide_strings_refuted"
   ],
   "note": "REFUTED for the word variant (the second of two characters) and for SSE with wchar_t of 4 bytes and char16_t (everything behind the first 16 bytes of each block). Proved for memcmp under C95."
  },
  {
   "property": "C99",
   "status": "partial",
   "theorems": [
    "c99_memcmp_variant_orders_strings",
    "c99_memcmp_variant_orders_wide_strings_refuted",
    "c99_sse_variant_orders_strings_partial",
    "c99_sse_variant_orders_strings_of_short_refuted",
    "c99_libc_variant_orders_strings_partial",
    "c99_libc_variant_orders_strings_refuted"
   ],
   "note": "Proved for memcmp and one-byte characters; for SSE by unsigned value (same conditions as C95); for the C library without zeros. REFUTED for memcmp with two-byte characters (256 and 1), SSE with short (-1 and 1), C library with zeros."
  },
  {
   "property": "C100",
   "status": "partial",
   "theorems": [
    "c100_less_and_greater_with_sse_partial",
    "c100_less_and_greater_with_memcmp_partial",
    "c100_less_and_greater_with_memcmp_refuted",
    "c100_at_most_is_reflexive_refuted",
    "c100_at_most_follows_the_order_refuted",
    "c100_not_equal_with_memcmp",
    "c100_not_equal_with_sse_partial"
   ],
   "note": "REFUTED: a <= a is false in all variants; a < b and b > a are false for \"a\" and \"c\" with a memcmp that returns the difference. Proved: !=, with memcmp and SSE; < and > with SSE, and with a memcmp that returns -1, 0 and 1 only."
  },
  {
   "property": "C101",
   "status": "partial",
   "theorems": [
    "c101_substr_partial",
    "c101_substr_refuted",
    "c101_equality_of_parts_partial",
    "c101_order_of_parts_partial",
    "c101_one_part_is_cut_at_the_end_refuted",
    "c101_one_part_is_compared_with_all_of_the_other_refuted",
    "c101_copy_copies_and_returns_zero",
    "c101_copy_copies_zeros_refuted",
    "c101_copy_leaves_zeros",
    "c101_copy_returns_the_number_refuted",
    "c101_copy_to_zeros_refuted"
   ],
   "note": "Proved for substr and for equality and order of two parts if pos + count < 2^64. REFUTED: substr(2, 2^64 - 2) of \"abc\" has 2^64 - 2 characters; copy returns 0, loses what is behind a zero, and for other characters copies nothing onto zeros; is_equal(pos, count, sv) reads past the end and does not look at the length of sv."
  },
  {
   "property": "C102",
   "status": "partial",
   "theorems": [
    "c102_default_views",
    "c102_empty_strings_are_equal",
    "c102_empty_views_are_equal_refuted"
   ],
   "note": "REFUTED: string_view() is smaller than itself and not equal to string_view(\"\"). Proved for views with a pointer."
  },
  {
   "property": "C103",
   "status": "partial",
   "theorems": [
    "c103_erase_stays_inside_the_slots_refuted",
    "c103_in_a_default_map_refuted"
   ],
   "note": "REFUTED: keys 15 and 31 in 16 slots, then erase(15); also 3 and 7 in a default map."
  },
  {
   "property": "C104",
   "status": "partial",
   "theorems": [
    "c104_erased_keys_are_gone_refuted",
    "c104_lookup_after_erase_reads_elements_only_refuted",
    "c104_lookup_reads_elements_only_refuted"
   ],
   "note": "REFUTED with 8 slots: 2301 is found after it was erased (or raw memory is compared); with 4 slots: contains(2856) reads a slot without element."
  },
  {
   "property": "C105",
   "status": "partial",
   "theorems": [
    "c105_clear_removes_everything_refuted",
    "c105_with_destructors_refuted"
   ],
   "note": "REFUTED for clear(false) with 16 slots: key 91 is present in the cleared map after four other insertions, and inserting it is ignored."
  },
  {
   "property": "C106",
   "status": "partial",
   "theorems": [
    "c106_max_load_factor_is_kept_refuted"
   ],
   "note": "REFUTED: max_load_factor(0.2) on an empty map with 16 slots, then 8 insertions leave the load at 0.5."
  },
  {
   "property": "C107",
   "status": "partial",
   "theorems": [
    "c107_failed_insertion_changes_nothing_refuted",
    "c107_elements_are_destroyed_refuted",
    "c107_refused_groups_change_nothing"
   ],
   "note": "REFUTED when the slots are refused: size() is 2 and nothing is found; elements are not destroyed. Proved for refused groups, for all maps."
  },
  {
   "property": "C108",
   "status": "partial",
   "theorems": [
    "c108_moved_from_map_is_usable_refuted",
    "c108_moved_from_map_is_empty_refuted"
   ],
   "note": "REFUTED: find, contains, erase, insert, reserve, iteration and copying read through null pointers."
  },
  {
   "property": "C109",
   "status": "partial",
   "theorems": [
    "c109_inserted_keys_are_found_refuted",
    "c109_growth_keeps_the_elements_refuted"
   ],
   "note": "REFUTED with 256 keys that are multiples of 4096; 255 of them are found. The 257th insertion grows the map and loses two elements."
  },
  {
   "property": "C110",
   "status": "proved",
   "theorems": [
    "c110_robin16_map_is_a_map_under_the_stated_conditions"
   ],
   "note": "For every map of q_built; the conditions are needed: C103-C105 and C109 refute the claim without them. The bound 128 is not the largest possible (255 colliding keys still work)."
  },
  {
   "property": "C111",
   "status": "proved",
   "theorems": [
    "c111_no_condition_on_hashes_up_to_129_entries",
    "c111_129_entries_are_spread"
   ],
   "note": ""
  },
  {
   "property": "C112",
   "status": "proved",
   "theorems": [
    "c112_without_erasing_no_condition_on_second_hashes",
    "c112_without_erasing_no_condition_up_to_129_entries"
   ],
   "note": ""
  },
  {
   "property": "C113",
   "status": "proved",
   "theorems": [
    "c113_iteration_meets_every_entry_once"
   ],
   "note": "begin, operator++ and end."
  },
  {
   "property": "C114",
   "status": "proved",
   "theorems": [
    "c114_copies_have_the_same_entries"
   ],
   "note": "Constructors of elements do not throw in the model."
  },
  {
   "property": "C115",
   "status": "proved",
   "theorems": [
    "c115_erase_is_defined_exactly_inside_the_slots"
   ],
   "note": "For all maps of q_built with a free slot."
  },
  {
   "property": "C116",
   "status": "proved",
   "theorems": [
    "c116_destructor_destroys_every_element"
   ],
   "note": ""
  },
  {
   "property": "C117",
   "status": "proved",
   "theorems": [
    "c117_every_element_is_where_its_control_word_says"
   ],
   "note": ""
  },
  {
   "property": "C118",
   "status": "proved",
   "theorems": [
    "c118_both_instruction_sets_do_the_same",
    "c118_iteration_too",
    "c118_copies_too"
   ],
   "note": "No condition on the state at all."
  },
  {
   "property": "C119",
   "status": "proved",
   "theorems": [
    "c119_searches_end_within_eight_groups"
   ],
   "note": "The example shows that 7 groups are not enough."
  },
  {
   "property": "C120",
   "status": "partial",
   "theorems": [
    "c120_move_to_another_capacity",
    "c120_move_to_the_same_capacity",
    "c120_moved_elements_are_counted_refuted"
   ],
   "note": "REFUTED when the new table has the capacity of the old one: size() is 0, iteration meets nothing, lookups find the elements, erasing one leads to the size 2^64 - 1. Proved for another capacity, and what happens for the same one."
  },
  {
   "property": "C121",
   "status": "partial",
   "theorems": [
    "c121_robin_insertions_after_reserve",
    "c121_for_other_load_factors_refuted",
    "c121_for_moved_maps_refuted"
   ],
   "note": "Proved for the default load factor when reserve changes the capacity or the growth limit belongs to it. REFUTED for the load factor 0.6 (rounding), and for a map that was moved to (its growth limit is 0)."
  },
  {
   "property": "C122",
   "status": "partial",
   "theorems": [
    "c122_flat16_insertions_after_reserve",
    "c122_for_other_load_factors_refuted",
    "c122_after_erasing_refuted"
   ],
   "note": "Proved for the default load factor when reserve changes the capacity. REFUTED for the load factor 0.8, and when the capacity stays and elements have been erased."
  },
  {
   "property": "C123",
   "status": "partial",
   "theorems": [
    "c123_robin16_insertions_after_reserve",
    "c123_for_other_load_factors_refuted"
   ],
   "note": "Proved for the default load factor, under the conditions of C110. REFUTED for the load factor 0.8."
  },
  {
   "property": "C124",
   "status": "proved",
   "theorems": [
    "c124_integer_logarithm"
   ],
   "note": ""
  },
  {
   "property": "C125",
   "status": "partial",
   "theorems": [
    "c125_digits_of_unsigned_partial",
    "c125_digits_of_signed_partial",
    "c125_digits_of_booleans_partial",
    "c125_digits_of_booleans_refuted",
    "c125_digits_of_addresses",
    "c125_digits_of_two_bytes_refuted",
    "c125_digits_of_two_bytes_exactly",
    "c125_least_integers_refuted"
   ],
   "note": "Proved for 1, 4 and 8 bytes except the least signed integers, for booleans and for addresses (two more than the numeral). REFUTED for two bytes (at most 3 digits are counted; right exactly below 1000) for the least integers (negation overflows), and for booleans with delta other than 0 (it is ignored)."
  },
  {
   "property": "C126",
   "status": "partial",
   "theorems": [
    "c126_itoa_32_partial",
    "c126_itoa_32_on_a_view",
    "c126_wide_characters_refuted",
    "c126_wide_characters_always_undefined"
   ],
   "note": "Proved for characters of one byte except INT_MIN. REFUTED for wider characters: sizeof(buf) counts bytes, so every call writes outside the buffer."
  },
  {
   "property": "C127",
   "status": "partial",
   "theorems": [
    "c127_itoa_64_refuted",
    "c127_itoa_64_exactly",
    "c127_itoa_64_on_a_view_refuted",
    "c127_itoa_signed_64_refuted",
    "c127_itoa_signed_64_exactly",
    "c127_itoa_of_the_least_number",
    "c127_itoa_of_other_arguments"
   ],
   "note": "REFUTED: the last two digits are lost, numbers of one digit are undefined behaviour, twenty digits throw when the length is given. What it does is proved for all numbers, with and without sign."
  },
  {
   "property": "C128",
   "status": "partial",
   "theorems": [
    "c128_hexadecimal_text_refuted",
    "c128_hexadecimal_text_exactly"
   ],
   "note": "REFUTED for every byte: the arguments of the string(count, char) constructor are swapped. What it returns is proved for all bytes."
  },
  {
   "property": "C129",
   "status": "partial",
   "theorems": [
    "c129_sprintf_no_prepare_partial",
    "c129_other_specifiers_refuted",
    "c129_mismatched_specifiers_are_copied"
   ],
   "note": "Proved for text, %%, %d and %u with arguments of 32 bits other than INT_MIN. REFUTED for %c (prints a number) and %i, %x (print nothing). Strings and pointers do not compile."
  },
  {
   "property": "C130",
   "status": "partial",
   "theorems": [
    "c130_sprintf_calc_space",
    "c130_sprintf_direct_partial",
    "c130_sprintf_direct_refuted",
    "c130_announced_length_refuted"
   ],
   "note": "The length is proved for text, %%, %d, %u; the output without %% and with arguments of type int and unsigned. REFUTED with %% (ends the output) and other argument types (the sizes and the output disagree)."
  },
  {
   "property": "C131",
   "status": "partial",
   "theorems": [
    "c131_sprintf_never_returns",
    "c131_sprintf_refuted"
   ],
   "note": "REFUTED: sprintf never returns; it writes behind the string, or throws when the format ends with a specifier. Proved for all formats and arguments."
  },
  {
   "property": "C132",
   "status": "partial",
   "theorems": [
    "c132_rand_refuted",
    "c132_first_call_always_undefined",
    "c132_first_loop_partial",
    "c132_first_loop_64_partial",
    "c132_sequences_exist"
   ],
   "note": "REFUTED for every seed and both widths: next_state reads p[N - M] where p[M - N] is meant, that is, behind the state array; so the first rand() and every srand() are undefined. Proved: the words written by its first loop are the right ones (32 bits), and those of the recurrence with r = 63 (64 bits)."
  },
  {
   "property": "C133",
   "status": "partial",
   "theorems": [
    "c133_seeding_32_partial",
    "c133_seeding_64_refuted",
    "c133_seeding_64_exactly"
   ],
   "note": "Proved for 32 bits and seeds other than 0 (0 means the time). REFUTED for 64 bits: the shift is 30 instead of 62 (exact words proved)."
  },
  {
   "property": "C134",
   "status": "partial",
   "theorems": [
    "c134_twist_32_partial",
    "c134_twist_64_refuted",
    "c134_twist_64_exactly"
   ],
   "note": "Proved for 32 bits. REFUTED for 64 bits: the masks are those of r = 63, the comment says 31."
  },
  {
   "property": "C135",
   "status": "proved",
   "theorems": [
    "c135_tempering"
   ],
   "note": ""
  },
  {
   "property": "C136",
   "status": "partial",
   "theorems": [
    "c136_keys_partial",
    "c136_no_keys_refuted"
   ],
   "note": "Proved for key lists that are not empty. REFUTED for the empty list, whose first element is read."
  },
  {
   "property": "C137",
   "status": "partial",
   "theorems": [
    "c137_signed_range_partial",
    "c137_unsigned_range_partial",
    "c137_nextInt32_partial",
    "c137_nextInt_partial",
    "c137_undefined_exactly",
    "c137_wide_range_refuted",
    "c137_nextInt_refuted"
   ],
   "note": "Proved for ranges that fit, with the exact condition. REFUTED for ranges of half the numbers of a signed type (overflow), for all numbers of an unsigned type (remainder by 0), and for nextInt(maxValue) with a negative bound."
  },
  {
   "property": "C138",
   "status": "proved",
   "theorems": [
    "c138_double53"
   ],
   "note": ""
  },
  {
   "property": "C139",
   "status": "partial",
   "theorems": [
    "c139_rand32_15_bits_partial",
    "c139_rand32_16_bits_partial",
    "c139_rand32_31_bits_refuted",
    "c139_joined_bits"
   ],
   "note": "Proved for RAND_MAX 2^15 - 1 and 2^16 - 1. REFUTED for 2^31 - 1 (glibc): the draws overlap and are joined by or."
  },
  {
   "property": "C140",
   "status": "partial",
   "theorems": [
    "c140_copy_with_a_throwing_constructor",
    "c140_exceptions_leave_the_copy_constructor_refuted"
   ],
   "note": "REFUTED for every map and every element: raw memory is destroyed as an element, or, when the first element is in slot 0, the arrays are lost. Proved: this is the outcome for all of them, and without an exception the copy is the usual one."
  },
  {
   "property": "C141",
   "status": "partial",
   "theorems": [
    "c141_rehash_with_a_throwing_constructor",
    "c141_a_failed_rehash_leaves_the_map_usable_refuted"
   ],
   "note": "REFUTED for every map and every new capacity: the map counts the elements moved so far, destroying it destroys raw memory, and the old arrays are lost. Proved for all of them, with what is where."
  },
  {
   "property": "C142",
   "status": "partial",
   "theorems": [
    "c142_robin_insert_with_a_throwing_constructor",
    "c142_robin_map_is_usable_after_an_exception_refuted"
   ],
   "note": "REFUTED for every map and every absent key: the slot is marked as used before the element is constructed; afterwards looking up, erasing or inserting the key and traversing the map read raw memory. Proved for all of them (hash codes spread as in C46), with the size unchanged; a refused allocation comes first and changes what C51 says."
  },
  {
   "property": "C143",
   "status": "partial",
   "theorems": [
    "c143_flat16_insert_with_a_throwing_constructor",
    "c143_flat16_map_is_usable_after_an_exception_refuted"
   ],
   "note": "REFUTED for every map and every absent key, as C142; destroying the map is undefined as well. Proved for all of them under the conditions of C57."
  },
  {
   "property": "C144",
   "status": "partial",
   "theorems": [
    "c144_robin16_insert_with_a_throwing_constructor",
    "c144_robin16_map_is_usable_after_an_exception_refuted"
   ],
   "note": "REFUTED for every map and every absent key, as C143, with 16 and with 8 control bytes compared at a time. Proved for all of them under the conditions of C110."
  },
  {
   "property": "C145",
   "status": "proved",
   "theorems": [
    "c145_indirect_map_is_a_map_while_the_keys_are_spread",
    "c145_eleven_entries_need_no_spread",
    "c145_iteration_size_and_contains"
   ],
   "note": "For all sequences of calls from every reachable map (i_fine: keys spread as in C46, at most 2^32 entries); at most eleven entries need no condition on the hash. find of absent keys is C146."
  },
  {
   "property": "C146",
   "status": "partial",
   "theorems": [
    "c146_find_of_an_absent_key_is_end_refuted",
    "c146_find_of_an_absent_key_is_never_end",
    "c146_find_of_a_present_key_partial"
   ],
   "note": "REFUTED for every reachable map with storage and every absent key: find returns the slot behind the whole slot array, end() is the slot behind the last entry. Proved: find of a present key gives its entry and differs from end()."
  },
  {
   "property": "C147",
   "status": "partial",
   "theorems": [
    "c147_copy_has_the_same_entries_refuted",
    "c147_no_copy_of_a_non_empty_map_returns",
    "c147_copy_of_an_empty_map_partial"
   ],
   "note": "REFUTED for every map with an entry: the loop that looks for an empty control compares the whole 64-bit control, which is positive for empty controls, and leaves the array. Proved: copying an empty map works."
  },
  {
   "property": "C148",
   "status": "partial",
   "theorems": [
    "c148_erase_removes_the_key_refuted",
    "c148_erase_keeps_the_other_keys_refuted",
    "c148_insertions_stay_inside_the_arrays_refuted"
   ],
   "note": "REFUTED three times: 12 keys at the last home, erase of the twelfth returns 0 and does nothing; 129 keys at one home, erase of one loses another (the distance is kept in 8 bits); 18 keys at the last home, the search leaves the controls. With spread keys C145 holds."
  },
  {
   "property": "C149",
   "status": "proved",
   "theorems": [
    "c149_iteration_follows_the_order_of_insertion"
   ],
   "note": "order_step of IndirectSpec.v, for all covered calls on all reachable maps."
  },
  {
   "property": "C150",
   "status": "partial",
   "theorems": [
    "c150_failed_growth_leaves_a_usable_map_refuted",
    "c150_failed_growth_keeps_the_entries_partial"
   ],
   "note": "REFUTED: the mask is replaced before the allocation, so clear() after an insertion that threw writes behind the controls. Proved: traversal, size, contains and find give the same as before for all calls that throw."
  },
  {
   "property": "C151",
   "status": "partial",
   "theorems": [
    "c151_moved_to_map_has_the_entries_partial",
    "c151_moved_from_map_is_usable_refuted"
   ],
   "note": "REFUTED: inserting into the source of a move writes to the constant default controls. Proved: the new map has the entries and keeps agreeing with the abstract map, the old one traverses as empty."
  },
  {
   "property": "C152",
   "status": "proved",
   "theorems": [
    "c152_swapped_maps_exchange_their_entries_and_work"
   ],
   "note": "Both maps traverse as the other did and agree with the other's abstract map for all sequences of calls; other than in C50 the iterators do not refer to the controls."
  },
  {
   "property": "C153",
   "status": "partial",
   "theorems": [
    "c153_extraction_reads_the_word",
    "c153_insertion_of_16_bits",
    "c153_insertion_of_64_bits",
    "c153_insertion_of_32_bits_partial",
    "c153_insertion_of_32_bits_refuted",
    "c153_odd_words_become_zero"
   ],
   "note": "REFUTED for mm256_insert_epi32 with AVX2 and every odd index: the 64-bit broadcast of a 32-bit number puts 0 there. Proved: all extractions, 16 and 64 bit insertions in both branches, 32 bit insertions with AVX or an even index."
  },
  {
   "property": "C154",
   "status": "partial",
   "theorems": [
    "c154_halves_of_the_lowest_word",
    "c154_high_half_of_256_bits_refuted",
    "c154_high_half_of_256_bits_partial",
    "c154_repeated_numbers",
    "c154_repeated_numbers_are_vectors"
   ],
   "note": "REFUTED for mm256_cvtsi256_si32_high: it shifts a signed number, so the upper sixteen bits of the result are copies of the sign (exact value proved). The others are proved."
  },
  {
   "property": "C155",
   "status": "proved",
   "theorems": [
    "c155_comparison_of_signed_bytes"
   ],
   "note": "For all vectors; the code is used by flat16_hash_map.h."
  },
  {
   "property": "C156",
   "status": "partial",
   "theorems": [
    "c156_truncate_and_recover",
    "c156_attached_again_or_moved",
    "c156_nested_helpers",
    "c156_helpers_in_any_order_refuted",
    "c156_copies_are_harmless_refuted",
    "c156_detach_clears_the_reference_refuted",
    "c156_detach_clears_the_reference_partial"
   ],
   "note": "REFUTED: helpers recovered in another than the reverse order leave a terminator in the buffer; the destructor of a copy writes the old character again; detach keeps the reference if nothing is truncated. Proved: one helper with any writes elsewhere, any number of helpers in reverse order."
  },
  {
   "property": "C157",
   "status": "partial",
   "theorems": [
    "c157_destruction_after_any_calls",
    "c157_nothing_leaks_partial",
    "c157_nothing_leaks_refuted"
   ],
   "note": "REFUTED: clear, pop_back and shrinking with resize leak. Proved: nothing is deleted twice and the leaked elements are exactly those no longer in the array; none leak without these three."
  },
  {
   "property": "C158",
   "status": "partial",
   "theorems": [
    "c158_bucket_sizes_add_up_to_the_size_refuted",
    "c158_bucket_sizes_add_up_to_the_capacity_partial"
   ],
   "note": "REFUTED for both maps: bucket_size is always 1, the sum is the capacity (proved for all tables)."
  },
  {
   "property": "C159",
   "status": "partial",
   "theorems": [
    "c159_counts_of_the_analyzer_partial",
    "c159_counts_of_the_analyzer_for_tables",
    "c159_counts_of_the_analyzer_for_tables_refuted"
   ],
   "note": "Proved for all containers whose bucket sizes add up to their size. REFUTED for the group15 and group16 maps (C158): total is the capacity, the assert in read_bucket_sizes fails, and the number of unused buckets wraps for every table that is not full."
  },
  {
   "property": "C160",
   "status": "proved",
   "theorems": [
    "c160_templates_round_up",
    "c160_templates_round_to",
    "c160_templates_round_down",
    "c160_templates_next",
    "c160_alignment_constants"
   ],
   "note": "For all 64-bit numbers and both families; 0 gives 0, and numbers without a representable answer give 2^64-1."
  },
  {
   "property": "C161",
   "status": "partial",
   "theorems": [
    "c161_template_leading_zeros",
    "c161_template_trailing_zeros_partial",
    "c161_template_trailing_zeros_refuted",
    "c161_template_trailing_zeros_of_other_numbers"
   ],
   "note": "REFUTED for countTrailingZeros: right for powers of two only, wrong for every other number (it is the logarithm rounded up). Leading zeros are proved for every number except 0."
  },
  {
   "property": "C162",
   "status": "partial",
   "theorems": [
    "c162_narrow_rounding",
    "c162_narrow_rounding_up",
    "c162_narrow_next",
    "c162_narrow_logarithm_partial",
    "c162_narrow_logarithm_refuted",
    "c162_narrow_bits_partial",
    "c162_narrow_leading_zeros_refuted"
   ],
   "note": "REFUTED: log2_int gives 2^w-1 instead of w above 2^(w-1), and countLeadingZeros counts 32 bits for 8 and 16 bit types. All rounding functions, bit scans, trailing zeros and the logarithm of smaller numbers are proved."
  },
  {
   "property": "C163",
   "status": "proved",
   "theorems": [
    "c163_space_is_proportional",
    "c163_size_determines_capacity"
   ],
   "note": "With the default load factor. With erasures the capacity is not bounded by the size: C31."
  },
  {
   "property": "C164",
   "status": "proved",
   "theorems": [
    "c164_growth_is_amortised"
   ],
   "note": "With the default load factor; every call returns. Moved elements: all present ones at every change of capacity."
  },
  {
   "property": "C165",
   "status": "partial",
   "theorems": [
    "c165_integers_have_different_hashes_partial",
    "c165_integers_have_different_hashes_refuted",
    "c165_collisions",
    "c165_filtered_hashes_are_valid"
   ],
   "note": "Proved for types of at most 32 bits, with the exact collisions; REFUTED for 64-bit types."
  },
  {
   "property": "C166",
   "status": "partial",
   "theorems": [
    "c166_one_hash_for_one_string_partial",
    "c166_one_hash_for_one_string_refuted",
    "c166_hashes_of_the_empty_string",
    "c166_hash_without_a_pointer"
   ],
   "note": "Proved for all non-empty strings; REFUTED for the empty one with CRC32C, all hashes of the empty string are given."
  },
  {
   "property": "C167",
   "status": "partial",
   "theorems": [
    "c167_lvalues_are_kept_refuted",
    "c167_converted_keys_are_kept_refuted",
    "c167_outcome_of_a_pair",
    "c167_outcome_of_key_and_value",
    "c167_present_key_moves_nothing",
    "c167_absent_key_moves_the_pair",
    "c167_failure_moves_nothing",
    "c167_key_and_value"
   ],
   "note": "REFUTED: lvalue pairs and converted keys are moved from. Proved: the map does not depend on the category; const pairs, pairs whose key is present, failed insertions and lvalue keys and values keep their arguments; the exact remains."
  },
  {
   "property": "C168",
   "status": "partial",
   "theorems": [
    "c168_mutable_range_refuted",
    "c168_mutable_range",
    "c168_table_range"
   ],
   "note": "REFUTED for iterators that are not const: the moved-from first pair is inserted as well. The exact result is proved, and that the tables' own insert inserts the whole range."
  },
  {
   "property": "C169",
   "status": "partial",
   "theorems": [
    "c169_source_map_is_kept_refuted",
    "c169_value_is_taken_from_the_source"
   ],
   "note": "REFUTED for every source map: the value of its first element is moved out."
  },
  {
   "property": "C170",
   "status": "partial",
   "theorems": [
    "c170_references_into_the_map_refuted",
    "c170_without_growth",
    "c170_with_growth"
   ],
   "note": "REFUTED: undefined exactly when the insertion grows the map. Proved in all other states."
  },
  {
   "property": "C171",
   "status": "partial",
   "theorems": [
    "c171_list_assignment_refuted",
    "c171_only_the_first_element",
    "c171_without_storage"
   ],
   "note": "REFUTED: only the first element is inserted; undefined for group15 maps without storage. The exact result is proved."
  },
  {
   "property": "C172",
   "status": "partial",
   "theorems": [
    "c172_load_factor_within_maximum_refuted",
    "c172_load_factor_of_larger_group16_maps_refuted",
    "c172_load_factor_after_a_failed_setting_refuted",
    "c172_group15_load_factor",
    "c172_group15_one_element_more_refuted"
   ],
   "note": "REFUTED in four ways with witnesses. Proved for group15 maps above the smallest capacity, built without shrink_to_fit and failed settings: at most one element above the maximum."
  },
  {
   "property": "C173",
   "status": "partial",
   "theorems": [
    "c173_insert_with_a_throwing_hasher",
    "c173_rehash_with_a_throwing_hasher",
    "c173_copy_with_a_throwing_hasher",
    "c173_a_failed_insertion_keeps_the_elements_refuted",
    "c173_a_failed_rehash_keeps_the_elements_refuted"
   ],
   "note": "REFUTED when the map grows. Proved: unchanged map if the new key's hash throws; exact loss otherwise, and that what is left behaves as a map of the elements hashed so far; copies clean up."
  },
  {
   "property": "C174",
   "status": "partial",
   "theorems": [
    "c174_temporary_slot",
    "c174_emplace_through_a_temporary_slot_is_defined_refuted"
   ],
   "note": "REFUTED for every insertion of a new key. The exact outcome is proved for all calls."
  },
  {
   "property": "C175",
   "status": "partial",
   "theorems": [
    "c175_elements_live_and_die_once_while_the_keys_are_spread",
    "c175_eleven_entries_need_no_spread",
    "c175_destructors_make_no_difference_in_reachable_maps",
    "c175_displacement_that_finds_a_place",
    "c175_displacement_without_destructors",
    "c175_insertion_without_destructors",
    "c175_displacement_that_finds_no_place_is_undefined",
    "c175_insertions_keep_elements_alive_refuted"
   ],
   "note": "REFUTED when a displacement finds no place (thirteen insertions reach it); that outcome is proved undefined for every such state. Proved: all sequences of calls while the keys are spread, with up to eleven entries for every hash, and every displacement that finds a place in any state."
  },
  {
   "property": "C176",
   "status": "partial",
   "theorems": [
    "c176_spare_slot_is_constructed_and_destroyed_once_refuted"
   ],
   "note": "REFUTED for elements of more than 16 bytes without member swap that move without throwing, which are in place only with a custom layout policy."
  },
  {
   "property": "C177",
   "status": "partial",
   "theorems": [
    "c177_temporary_is_destroyed_while_the_keys_are_spread",
    "c177_temporary_is_always_destroyed_refuted"
   ],
   "note": "REFUTED when the first attempt finds no place. Proved for every reachable map while the keys stay spread, for every hash with up to eleven entries by C145's condition. An exception also leaves the temporary."
  },
  {
   "property": "C178",
   "status": "partial",
   "theorems": [
    "c178_short_keys_hash_alike_partial",
    "c178_hash_does_not_depend_on_the_build_refuted"
   ],
   "note": "REFUTED for keys of 96 (TRIADii) and 192 (penumbra) bytes: no two of the three builds agree. Proved for all shorter keys. The build with 32-bit lanes is one with __AVX__ or __SSE4_1__ but without __SSE2__, as with MSVC."
  },
  {
   "property": "C179",
   "status": "partial",
   "theorems": [
    "c179_blocks_are_returned_partial",
    "c179_controls_are_returned_refuted",
    "c179_sizes_are_right_refuted"
   ],
   "note": "REFUTED when a request is refused. Proved for all defined runs in which no call throws, without a condition on the keys."
  },
  {
   "property": "C180",
   "status": "partial",
   "theorems": [
    "c180_blocks_are_returned_partial",
    "c180_groups_are_returned_refuted",
    "c180_constructor_returns_groups_refuted"
   ],
   "note": "REFUTED when slots are refused. Proved for all defined runs in which every exception comes from operator new[] and outside clear(), without a condition on the keys."
  },
  {
   "property": "C181",
   "status": "partial",
   "theorems": [
    "c181_blocks_are_returned_partial",
    "c181_groups_are_returned_refuted",
    "c181_constructor_returns_groups_refuted"
   ],
   "note": "REFUTED when slots are refused. Proved for all defined runs in which every exception comes from operator new[] and outside clear(), without a condition on the keys."
  },
  {
   "property": "C182",
   "status": "partial",
   "theorems": [
    "c182_insert_with_a_throwing_hasher",
    "c182_rehash_with_a_throwing_hasher",
    "c182_shrink_with_a_throwing_hasher",
    "c182_a_failed_shrink_keeps_the_elements_refuted",
    "c182_a_failed_insertion_keeps_the_elements_refuted",
    "c182_a_failed_rehash_keeps_the_elements_refuted"
   ],
   "note": "REFUTED when the map grows, shrinks or is rehashed. Proved: unchanged map if the new key's hash throws; exact loss otherwise, and that what is left behaves as a map of the elements hashed so far."
  },
  {
   "property": "C183",
   "status": "partial",
   "theorems": [
    "c183_insert_with_a_throwing_hasher",
    "c183_rehash_with_a_throwing_hasher",
    "c183_an_exception_of_the_hasher_can_be_caught_refuted"
   ],
   "note": "REFUTED: std::terminate. Proved: the exact number of calls of the hasher, 1 + g (s + 1) for an insertion that doubles the capacity g times with s entries, s for a rehash that changes the capacity, and that the call ends the program if and only if one of these throws."
  },
  {
   "property": "C184",
   "status": "partial",
   "theorems": [
    "c184_insert_with_a_throwing_hasher",
    "c184_rehash_with_a_throwing_hasher",
    "c184_an_exception_of_the_hasher_can_be_caught_refuted"
   ],
   "note": "REFUTED: std::terminate. Proved: the exact number of calls of the hasher, as in C183."
  },
  {
   "property": "C185",
   "status": "proved",
   "theorems": [
    "c185_group15_with_any_key_equality"
   ],
   "note": "Any function of the comparisons made so far in the call, with exceptions, in place of the equality."
  },
  {
   "property": "C186",
   "status": "proved",
   "theorems": [
    "c186_no_key_equality_corrupts_the_map"
   ],
   "note": "The only failure left is an insertion that does not end (C09); see C185 for group15."
  },
  {
   "property": "C187",
   "status": "proved",
   "theorems": [
    "c187_exceptions_change_nothing",
    "c187_only_comparisons_throw"
   ],
   "note": "Includes refused memory; max_load_factor() is left out, which keeps the new factor when its rehash throws."
  },
  {
   "property": "C188",
   "status": "proved",
   "theorems": [
    "c188_no_element_is_compared_twice"
   ],
   "note": "The list of compared keys is part of what the search returns in the model."
  },
  {
   "property": "C189",
   "status": "proved",
   "theorems": [
    "c189_flat16_with_any_key_equality"
   ],
   "note": "Any function of the comparisons made so far in the call, with exceptions, in place of the equality; the sequence ends when memory is refused."
  },
  {
   "property": "C190",
   "status": "partial",
   "theorems": [
    "c190_lookups_and_erasures_change_nothing_partial",
    "c190_insertions_keep_the_entries_partial",
    "c190_exceptions_change_nothing_refuted"
   ],
   "note": "REFUTED: an insertion into a full map grows it and compares again; if that comparison throws, the capacity has doubled. Proved: erasures and look-ups change nothing, insertions keep the entries and the size."
  },
  {
   "property": "C191",
   "status": "partial",
   "theorems": [
    "c191_no_element_is_compared_twice_refuted",
    "c191_larger_maps_compare_once_partial"
   ],
   "note": "REFUTED: in a map of four slots the group of sixteen control bytes shows the mirrored byte too, and the only element is compared twice. Proved for maps of sixteen slots or more."
  },
  {
   "property": "C192",
   "status": "partial",
   "theorems": [
    "c192_robin_with_any_key_equality_refuted",
    "c192_robin_with_spread_keys_partial"
   ],
   "note": "REFUTED: a key that differs from itself (a NaN) can be inserted again and again, and the twelfth insertion of the key 31 moves past the last position. Proved as long as the stored keys, each counted as often as it is there, are spread as C43 asks (any eleven are)."
  },
  {
   "property": "C193",
   "status": "proved",
   "theorems": [
    "c193_exceptions_change_nothing"
   ],
   "note": "Comparisons are made before anything is changed, and not again after growing."
  },
  {
   "property": "C194",
   "status": "proved",
   "theorems": [
    "c194_no_element_is_compared_twice"
   ],
   "note": "Any function of the comparisons made so far, with exceptions, in place of the equality."
  },
  {
   "property": "C195",
   "status": "partial",
   "theorems": [
    "c195_robin16_with_any_key_equality_refuted",
    "c195_robin16_with_spread_keys_partial"
   ],
   "note": "REFUTED: a key that differs from itself (a NaN) can be inserted again and again, and 257 insertions, each of which reports success, leave 255 elements, or lose one that is not destroyed. Proved as long as the stored keys, each counted as often as it is there, meet the conditions of C110 (any 129 are spread well enough); for an erasure every element with the control byte of the key counts."
  },
  {
   "property": "C196",
   "status": "partial",
   "theorems": [
    "c196_exceptions_keep_the_entries_partial",
    "c196_exceptions_change_nothing_refuted"
   ],
   "note": "REFUTED: an insertion compares the key again after growing, so that an exception may leave a map with more slots. Proved: the entries and the size are kept, and look-ups and erasures that throw change nothing at all."
  },
  {
   "property": "C197",
   "status": "proved",
   "theorems": [
    "c197_no_element_is_compared_twice"
   ],
   "note": "Any function of the comparisons made so far, with exceptions, in place of the equality. In maps with less than sixteen slots the control byte of the key is not zero (q_seen), as in C104."
  },
  {
   "property": "C198",
   "status": "partial",
   "theorems": [
    "c198_a_flat16_copy_finds_what_the_original_finds_refuted",
    "c198_a_flat16_copy_has_different_keys_refuted",
    "c198_a_flat16_copy_has_the_elements_partial",
    "c198_a_flat16_copy_is_a_map_partial"
   ],
   "note": "REFUTED: the copy constructor default-constructs the hasher and the key equality (flat16_hash_map.h:989-1010), so that the copy does not find a key that the original finds, or holds two equal keys. Proved: size and elements are those of the original, and if the default equality tells the keys apart the copy is the same map for its own functions."
  },
  {
   "property": "C199",
   "status": "partial",
   "theorems": [
    "c199_a_robin16_copy_finds_what_the_original_finds_refuted",
    "c199_a_robin16_copy_has_different_keys_refuted",
    "c199_a_robin16_copy_is_a_map_partial"
   ],
   "note": "REFUTED: the copy constructor default-constructs the hasher and the key equality (robin16_hash_map.h:1363-1386), with the effects of C198. Proved: if the default equality tells the keys apart, and the default hasher spreads them as C110 needs, the copy is the same map for its own functions."
  },
  {
   "property": "C200",
   "status": "proved",
   "theorems": [
    "c200_a_robin_copy_keeps_the_functions",
    "c200_a_moved_robin_map_keeps_the_functions",
    "c200_a_moved_robin16_map_keeps_the_functions",
    "c200_group_assignment_takes_the_functions",
    "c200_group_move_assignment_takes_the_functions",
    "c200_group_swap_exchanges_the_functions",
    "c200_robin16_swap_exchanges_the_functions"
   ],
   "note": "For group copy assignment the contents are the subject of earlier properties; here the functions, and the contents where the capacities differ or the source is empty. The robin copy needs the spread of C48. Function objects are taken to be copied by move."
  },
  {
   "property": "C201",
   "status": "partial",
   "theorems": [
    "c201_a_flat16_bucket_is_below_bucket_count_refuted",
    "c201_a_robin16_bucket_is_below_bucket_count_refuted",
    "c201_a_robin_bucket_is_below_bucket_count_refuted",
    "c201_a_flat16_bucket_holds_the_key_partial",
    "c201_a_robin16_bucket_holds_the_key_partial",
    "c201_a_robin_bucket_holds_the_key_partial"
   ],
   "note": "REFUTED for all three maps: bucket_count() is the constant 16 (flat16, robin16) or the number of elements (robin), while bucket() is the number of a group or of a slot. Proved: bucket() is the group (flat16) or slot (robin16, robin) that holds the key, and npos or one past the last slot exactly when the key is absent."
  },
  {
   "property": "C202",
   "status": "proved",
   "theorems": [
    "c202_robin16_at_and_count"
   ],
   "note": "With q_seen for the key, as in C104 and C110."
  },
  {
   "property": "C203",
   "status": "proved",
   "theorems": [
    "c203_flat16_equal_range",
    "c203_robin16_equal_range"
   ],
   "note": "For robin16 with q_seen for the key."
  },
  {
   "property": "C204",
   "status": "partial",
   "theorems": [
    "c204_robin_equal_range_refuted",
    "c204_robin_equal_range_with_storage_partial"
   ],
   "note": "REFUTED for a map without storage: find() is not end() (C46), the range is [0, 4), and reading its first element follows a null pointer. Proved for maps with storage."
  },
  {
   "property": "C205",
   "status": "partial",
   "theorems": [
    "c205_load_factor_is_a_number_refuted",
    "c205_robin_load_factor_with_storage_partial",
    "c205_flat16_load_factor_partial",
    "c205_robin16_load_factor_partial"
   ],
   "note": "REFUTED for a robin map without storage: 0 / 0. Proved for robin maps with storage (at most one half, unless the load factor was raised or the map shrunk) and for flat16 and robin16 maps. Conversion to float and rounding are not modelled."
  },
  {
   "property": "C206",
   "status": "proved",
   "theorems": [
    "c206_flat16_from_a_list",
    "c206_robin16_from_a_list",
    "c206_robin_from_a_list"
   ],
   "note": "For robin16 with spread keys (q_fine), and with q_seen: at least sixteen slots, or no key with a zero tag; for robin with spread keys. The range is modelled as a list that can be walked twice."
  },
  {
   "property": "C207",
   "status": "partial",
   "theorems": [
    "c207_a_flat16_constructor_that_throws_leaves_nothing_refuted",
    "c207_a_robin16_constructor_that_throws_leaves_nothing_refuted",
    "c207_a_robin_constructor_that_throws_leaves_nothing_refuted"
   ],
   "note": "REFUTED for all three maps: these constructors have no try block, and the destructor does not run. When memory is refused no element exists yet (C206)."
  },
  {
   "property": "C208",
   "status": "proved",
   "theorems": [
    "c208_flat16_growth_amortised"
   ],
   "note": "A call that throws ends the count. Cost is counted in reallocations and moved elements, not in comparisons."
  },
  {
   "property": "C209",
   "status": "proved",
   "theorems": [
    "c209_robin16_growth_amortised"
   ],
   "note": "As C208; keys as in C110 (q_fine, q_seen)."
  },
  {
   "property": "C210",
   "status": "proved",
   "theorems": [
    "c210_robin_growth_amortised"
   ],
   "note": "As C208; keys as in the robin refinement (spread_all 2)."
  },
  {
   "property": "C211",
   "status": "partial",
   "theorems": [
    "c211_flat16_clear_is_noexcept_refuted",
    "c211_robin16_clear_is_noexcept_refuted",
    "c211_flat16_clear_throws_exactly_when_partial",
    "c211_robin16_clear_throws_exactly_when_partial",
    "c211_robin_clear_is_noexcept"
   ],
   "note": "REFUTED for flat16 and robin16: clear(true) first destroys the old table and then allocates a new one. Proved: the exact condition for them, and that clear of a robin map never throws."
  },
  {
   "property": "C212",
   "status": "partial",
   "theorems": [
    "c212_moved_with_an_allocator_refuted",
    "c212_move_assigned_maps_are_usable_refuted",
    "c212_taking_over_is_defined_partial",
    "c212_taken_maps_have_the_entries_partial",
    "c212_function_objects_go_along_partial"
   ],
   "note": "REFUTED: the moved or assigned map has a null or foreign last_slot_, find of an absent key is undefined. Proved: the operations are defined and change nothing if memory is refused; iteration, size, contains and the function objects are those of the source; with different allocators the source keeps its elements."
  },
  {
   "property": "C213",
   "status": "partial",
   "theorems": [
    "c213_another_capacity_repairs_partial",
    "c213_clear_repairs_partial",
    "c213_reserve_repairs_moved_from_maps_partial",
    "c213_every_reserve_repairs_refuted"
   ],
   "note": "REFUTED for calls that keep the capacity. Proved: every call that changes the capacity, and clear(true) of a map with storage, gives a map that agrees with the abstract map for all further calls; any reserve repairs the source of a move."
  },
  {
   "property": "C214",
   "status": "proved",
   "theorems": [
    "c214_backwards_is_the_reverse",
    "c214_decrement_undoes_increment"
   ],
   "note": "For the layout without indirection; begin() itself is not decremented. std::erase_if, which walks like this, does not compile (erase(iterator))."
  },
  {
   "property": "C215",
   "status": "partial",
   "theorems": [
    "c215_least_multiple_partial",
    "c215_wraps_to_zero",
    "c215_not_below_refuted",
    "c215_check_alignment",
    "c215_other_alignments_abort"
   ],
   "note": "REFUTED: within one alignment of 2^64 both return 0 without any failed assertion. Proved for every argument whose rounded value fits, and that the wrap-around gives 0 for all others; check_alignment and the rejected alignments without exception."
  },
  {
   "property": "C216",
   "status": "partial",
   "theorems": [
    "c216_ranges_are_exchanged_partial",
    "c216_assertion_always_fails",
    "c216_assertion_holds_refuted"
   ],
   "note": "REFUTED if NDEBUG is not defined: first1 has reached last1 when the assertion computes their distance, so that every call with a non-empty range aborts. Proved without assertions; iterators are pointers into one memory."
  },
  {
   "property": "C217",
   "status": "partial",
   "theorems": [
    "c217_mum_is_the_folded_product",
    "c217_fibonacci_is_injective_with_long_of_64_bits",
    "c217_fibonacci_is_injective_with_long_of_32_bits_refuted"
   ],
   "note": "REFUTED where unsigned long has 32 bits: the product is cut and twelve bits are shifted out. Proved: both mum variants; fibonacci_hash32 is injective with 64-bit longs."
  },
  {
   "property": "C218",
   "status": "partial",
   "theorems": [
    "c218_index_of_mum_policy_is_below_the_capacity",
    "c218_fibonacci_policy_uses_few_slots",
    "c218_every_slot_is_some_index_refuted"
   ],
   "note": "REFUTED for the fibonacci policy: fibonacci_hash32 has twenty bits, so that only slots below capacity / 4096 are indices, as with 64 bits (C82). Proved: the range, for the mum policy with and without excluded keys. That every slot is an index under the mum policy is not claimed."
  },
  {
   "property": "C219",
   "status": "proved",
   "theorems": [
    "c219_both_directions_visit_the_characters",
    "c219_subscripts",
    "c219_differences_and_order",
    "c219_steps"
   ],
   "note": "Pointers are positions in one array; positions outside are undefined behaviour. string_iterator repeats const_string_iterator; one model serves both."
  },
  {
   "property": "C220",
   "status": "partial",
   "theorems": [
    "c220_postfix_moves_the_iterator",
    "c220_postfix_results_are_dead",
    "c220_postfix_loops_are_undefined",
    "c220_postfix_loop_is_the_prefix_loop_refuted",
    "c220_postfix_of_reverse_iterators"
   ],
   "note": "REFUTED for both string iterators: *it++ uses a dead object, in every call. Proved: the iterator itself moves; reverse_iterator returns the old iterator."
  },
  {
   "property": "C221",
   "status": "partial",
   "theorems": [
    "c221_advance_moves_partial",
    "c221_advance_outside_is_undefined",
    "c221_advance_moves_refuted",
    "c221_input_iterators_stay",
    "c221_distance",
    "c221_distance_backwards_is_undefined"
   ],
   "note": "REFUTED for negative offsets of input and forward iterators, which are ignored. Proved otherwise; backwards the distance of iterators without random access is undefined behaviour. Iterators are positions in an array; differences do not overflow."
  },
  {
   "property": "C222",
   "status": "proved",
   "theorems": [
    "c222_group_maps_agree",
    "c222_flat16_agrees",
    "c222_robin_agrees",
    "c222_robin16_agrees"
   ],
   "note": "Group15, group16, flat16, robin and robin16 maps."
  },
  {
   "property": "C223",
   "status": "partial",
   "theorems": [
    "c223_robin_compares_once_refuted",
    "c223_robin16_compares_once_refuted",
    "c223_spread_robin_compares_once_partial"
   ],
   "note": "REFUTED for robin and robin16 maps: after twelve (130) insertions another one displaces elements, finds no place, grows the map and compares with the same element again; an exception then leaves a larger map. Proved for robin hood maps whose keys are spread (C43)."
  },
  {
   "property": "C224",
   "status": "partial",
   "theorems": [
    "c224_is_pow2_partial",
    "c224_is_pow2_refuted",
    "c224_clear_low_bit",
    "c224_clear_low_bit_of_zero"
   ],
   "note": "REFUTED for 0: the comment at Power2.h:417 demands N && ..., the code has no such test. Proved for all other numbers; clear_low_bit is proved for all numbers."
  },
  {
   "property": "C225",
   "status": "partial",
   "theorems": [
    "c225_erase_at_a_position_partial",
    "c225_erase_at_a_position_keeps_the_other_entries_refuted"
   ],
   "note": "REFUTED for maps with an entry sixteen or more slots behind its first one: another key is lost (as C60). Proved for all other maps, with the same resulting map as erase(key). erase(iterator) and erase(first, last) do not compile."
  }
 ]
}