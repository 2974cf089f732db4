{"id": "C01", "title": "group15_flat_map behaves as a map", "statement": "Starting from a new group15_flat_map, after any sequence of insert / emplace / try_emplace / operator[] / insert_or_assign / erase(key) / find / contains / count / clear / reserve(n>0) / rehash(n) / max_load_factor calls, every returned value (inserted flag, erase count, found value) and the final content are those of an abstract key-value map fed the same calls.", "quantifier": "all finite call sequences, all key/value types, all hashers and key equivalences where equivalent keys hash alike, all allocation-failure patterns", "why_tests_cant": "sequences, hash functions and collision patterns are unbounded; tests sample a few hashers and sizes", "anchors": ["src/jstd/hashmap/group15_flat_table.hpp:find_impl", "src/jstd/hashmap/group15_flat_table.hpp:find_or_insert", "src/jstd/hashmap/group15_flat_table.hpp:find_empty_to_insert", "src/jstd/hashmap/group15_flat_table.hpp:emplace_impl", "src/jstd/hashmap/group15_flat_table.hpp:try_emplace_impl", "src/jstd/hashmap/group15_flat_table.hpp:find_and_erase", "src/jstd/hashmap/group15_flat_table.hpp:clear_data", "src/jstd/hashmap/group15_flat_table.hpp:rehash_impl", "src/jstd/hashmap/group15_flat_map.hpp"]}
{"id": "C02", "title": "group16_flat_map behaves as a map whenever a call returns", "statement": "Starting from a new group16_flat_map, after any sequence of the same calls (also shrink_to_fit) in which every call returned, every returned value and the final content are those of the abstract map.", "quantifier": "all finite call sequences, hashers, key equivalences, allocation-failure patterns", "why_tests_cant": "collision patterns and call sequences are unbounded", "anchors": ["src/jstd/hashmap/group16_flat_table.hpp:find_index", "src/jstd/hashmap/group16_flat_table.hpp:find_or_insert", "src/jstd/hashmap/group16_flat_table.hpp:find_empty_to_insert", "src/jstd/hashmap/group16_flat_table.hpp:find_and_erase", "src/jstd/hashmap/group16_flat_table.hpp:rehash_impl", "src/jstd/hashmap/group16_flat_map.hpp"]}
{"id": "C03", "title": "No two equivalent keys are ever stored", "statement": "Iterating over a group15/group16 map never yields two entries with equivalent keys.", "quantifier": "all reachable maps", "why_tests_cant": "needs an argument over all interleavings of erasures, overflow marks and growth", "anchors": ["src/jstd/hashmap/group15_flat_table.hpp:find_or_insert", "src/jstd/hashmap/group16_flat_table.hpp:find_or_insert"]}
{"id": "C04", "title": "size() is the number of entries", "statement": "size() equals the number of entries visited by iterating from begin() to end(), and empty() is size()==0.", "quantifier": "all reachable maps", "why_tests_cant": "size_ is maintained incrementally by six different code paths", "anchors": ["src/jstd/hashmap/group15_flat_table.hpp:slot_size_", "src/jstd/hashmap/group16_flat_table.hpp:slot_size_"]}
{"id": "C05", "title": "Iteration visits every entry exactly once and stops (group15)", "statement": "begin() followed by repeated ++ reaches end() after exactly size() steps, dereferencing each stored entry exactly once, and never reads past the control bytes.", "quantifier": "all reachable group15 maps", "why_tests_cant": "depends on the sentinel byte surviving every execution", "anchors": ["src/jstd/hashmap/flat_map_iterator15.hpp:increment", "src/jstd/hashmap/group15_flat_table.hpp:find_first_used_index", "src/jstd/hashmap/group15_flat_table.hpp:set_sentinel_mark"]}
{"id": "C06", "title": "Iteration visits every entry exactly once and stops (group16)", "statement": "begin() followed by repeated ++ reaches end() after exactly size() steps, dereferencing each stored entry exactly once.", "quantifier": "all reachable group16 maps", "why_tests_cant": "distribution of entries over control bytes is unbounded", "anchors": ["src/jstd/hashmap/flat_map_iterator.hpp:operator++", "src/jstd/hashmap/group16_flat_table.hpp:find_first_used_index"]}
{"id": "C07", "title": "Insertion always terminates in group15 maps that are never shrunk or copied", "statement": "In any execution without shrink_to_fit, copy construction or reserve(0), an insertion never loops: a free slot always exists when the search for one starts.", "quantifier": "all such executions, including adversarial hashers that send every key to one group", "why_tests_cant": "the search loop has no exit condition; the argument is an invariant relating threshold, size and capacity", "anchors": ["src/jstd/hashmap/group15_flat_table.hpp:find_empty_to_insert", "src/jstd/hashmap/group15_flat_table.hpp:reset_ctrl", "src/jstd/hashmap/group15_flat_table.hpp:need_grow", "src/jstd/hashmap/group15_flat_table.hpp:calc_slot_threshold"]}
{"id": "C08", "title": "Insertion terminates after shrink_to_fit (group15)", "statement": "After shrink_to_fit() (either mode) every later sequence of erase and insert calls terminates.", "quantifier": "all executions", "why_tests_cant": "the failing hash pattern must fill whole probe chains", "anchors": ["src/jstd/hashmap/group15_flat_table.hpp:shrink_to_fit", "src/jstd/hashmap/group15_flat_table.hpp:reset_ctrl", "src/jstd/hashmap/group15_flat_table.hpp:find_empty_to_insert"]}
{"id": "C09", "title": "Insertion always terminates (group16)", "statement": "In any execution an insertion into a group16 map terminates. (Proved for executions without erase; refuted in general.)", "quantifier": "all executions", "why_tests_cant": "needs a run of erasures and insertions with particular control-hash classes", "anchors": ["src/jstd/hashmap/group16_flat_table.hpp:find_empty_to_insert", "src/jstd/hashmap/group16_flat_table.hpp:reset_ctrl"]}
{"id": "C10", "title": "Rehashing preserves content", "statement": "reserve(n>0), rehash(n), automatic growth and changing max_load_factor leave the set of key-value pairs unchanged, whatever the hash function.", "quantifier": "all reachable maps, all n", "why_tests_cant": "element redistribution depends on all hash values", "anchors": ["src/jstd/hashmap/group15_flat_table.hpp:rehash_impl", "src/jstd/hashmap/group15_flat_table.hpp:create_slots", "src/jstd/hashmap/group16_flat_table.hpp:rehash_impl"]}
{"id": "C11", "title": "shrink_to_fit preserves content when it returns", "statement": "Whenever shrink_to_fit() returns, the set of key-value pairs is unchanged; with the default mode it always returns.", "quantifier": "all reachable maps", "why_tests_cant": "same as rehash, plus the target capacity must hold all elements", "anchors": ["src/jstd/hashmap/group15_flat_table.hpp:shrink_to_fit", "src/jstd/hashmap/group16_flat_table.hpp:shrink_to_fit", "src/jstd/hashmap/group15_flat_table.hpp:shrink_to_fit_capacity"]}
{"id": "C12", "title": "reserve(n) makes n insertions reallocation-free", "statement": "After reserve(n) on an empty map, n insertions of distinct keys do not change capacity(), so iterators stay valid.", "quantifier": "all n and load factors", "why_tests_cant": "fails only for particular n; capacity arithmetic must be checked for all n", "anchors": ["src/jstd/hashmap/group15_flat_table.hpp:reserve", "src/jstd/hashmap/group15_flat_table.hpp:calc_slot_threshold", "src/jstd/hashmap/group15_flat_table.hpp:shrink_to_fit_capacity", "src/jstd/hashmap/group16_flat_table.hpp:reserve"]}
{"id": "C13", "title": "size() <= capacity()", "statement": "The number of entries never exceeds capacity().", "quantifier": "all reachable maps", "why_tests_cant": "capacity changes in many paths", "anchors": ["src/jstd/hashmap/group15_flat_table.hpp:capacity", "src/jstd/hashmap/group16_flat_table.hpp:capacity"]}
{"id": "C14", "title": "clear() removes everything and keeps the capacity", "statement": "After clear() on a map that has storage the map is empty, every lookup fails, capacity() is unchanged, and every stored entry was destroyed exactly once; the map is then usable like a new one.", "quantifier": "all reachable maps with storage", "why_tests_cant": "must hold for every distribution of overflow marks", "anchors": ["src/jstd/hashmap/group15_flat_table.hpp:clear_data", "src/jstd/hashmap/group15_flat_table.hpp:clear_slots", "src/jstd/hashmap/group16_flat_table.hpp:clear_data"]}
{"id": "C15", "title": "clear() is defined on a map without storage", "statement": "Calling clear() on a default-constructed group15 map performs no write to constant storage.", "quantifier": "default-constructed and moved-from maps", "why_tests_cant": "a write of an equal byte to a const object goes unnoticed in tests", "anchors": ["src/jstd/hashmap/group15_flat_table.hpp:clear_data", "src/jstd/hashmap/group15_flat_table.hpp:set_sentinel_mark", "src/jstd/hashmap/group15_flat_table.hpp:default_empty_groups"]}
{"id": "C16", "title": "No operation touches raw memory as an object", "statement": "No operation reads, assigns or destroys a slot that holds no constructed entry, no entry is constructed over a live one, and none is leaked.", "quantifier": "all reachable maps and operations", "why_tests_cant": "needs the control byte / slot correspondence in every state", "anchors": ["src/jstd/hashmap/group15_flat_table.hpp:destroy_slot", "src/jstd/hashmap/group15_flat_table.hpp:construct_slot", "src/jstd/hashmap/group15_flat_table.hpp:rehash_impl", "src/jstd/hashmap/group16_flat_table.hpp:rehash_impl"]}
{"id": "C17", "title": "Allocation failure leaves the map unchanged", "statement": "If allocation throws during insert, reserve or rehash, the map has the same content, size and capacity as before the call.", "quantifier": "all reachable maps, all allocation-failure points", "why_tests_cant": "allocation failures are rarely injected", "anchors": ["src/jstd/hashmap/group15_flat_table.hpp:create_slots", "src/jstd/hashmap/group15_flat_table.hpp:find_or_insert", "src/jstd/hashmap/group16_flat_table.hpp:create_slots"]}
{"id": "C18", "title": "A throwing element constructor leaves the map usable", "statement": "If constructing the new entry throws, the map can still be used (searched, destroyed) without undefined behaviour.", "quantifier": "all reachable maps", "why_tests_cant": "tests use non-throwing element types", "anchors": ["src/jstd/hashmap/group15_flat_table.hpp:emplace_impl", "src/jstd/hashmap/group15_flat_table.hpp:find_empty_to_insert", "src/jstd/hashmap/group16_flat_table.hpp:emplace_impl"]}
{"id": "C19", "title": "Copy construction yields an equal map", "statement": "A copy-constructed map has the same size and the same entries as its source. (Proved when the copy gets a different capacity; refuted when capacities are equal.)", "quantifier": "all reachable source maps", "why_tests_cant": "the two code paths are selected by a capacity coincidence", "anchors": ["src/jstd/hashmap/group15_flat_table.hpp:copy_slots_from", "src/jstd/hashmap/group15_flat_table.hpp:fast_copy_slots_from", "src/jstd/hashmap/group16_flat_table.hpp:copy_slots_from"]}
{"id": "C20", "title": "Move construction and swap transfer content exactly", "statement": "After move construction the new map has exactly the old content and the source is an empty usable map; swap exchanges the contents.", "quantifier": "all reachable pairs of maps", "why_tests_cant": "all fields must be transferred, in all states", "anchors": ["src/jstd/hashmap/group15_flat_table.hpp:swap_content", "src/jstd/hashmap/group15_flat_table.hpp:group15_flat_table(group15_flat_table&&)", "src/jstd/hashmap/group16_flat_table.hpp:swap_content"]}
{"id": "C21", "title": "Range insert inserts the whole range", "statement": "insert(first, last), the range and initializer-list constructors insert every element of the range.", "quantifier": "all ranges", "why_tests_cant": "single-element ranges and content-blind tests pass", "anchors": ["src/jstd/hashmap/group15_flat_map.hpp:insert(InputIter, InputIter)", "src/jstd/hashmap/group16_flat_map.hpp:insert(InputIter, InputIter)"]}
{"id": "C22", "title": "Lookup examines a bounded number of groups and terminates", "statement": "find/contains/count/erase examine at most group_capacity() groups, never the same group twice, for present and absent keys.", "quantifier": "all reachable maps, all keys", "why_tests_cant": "worst-case probe lengths depend on adversarial hashes", "anchors": ["src/jstd/hashmap/group15_flat_table.hpp:find_impl", "src/jstd/hashmap/group16_flat_table.hpp:find_index", "src/jstd/hashmap/group_quadratic_prober.hpp:next_bucket"]}
{"id": "C23", "title": "The quadratic prober visits every group exactly once", "statement": "Starting anywhere, the first n groups visited by the prober over n = 2^k groups are all distinct, so every group is visited; the stop condition becomes true exactly after n groups.", "quantifier": "all starting indices, all powers of two up to 2^64 groups", "why_tests_cant": "number-theoretic statement over all k", "anchors": ["src/jstd/hashmap/group_quadratic_prober.hpp:group_quadratic_prober::next_bucket"]}
{"id": "C24", "title": "Group matching is exact (15-slot groups)", "statement": "For every 16 control bytes and every hash, match_empty / match_used / match_hash have exactly the bits of the slots in that state set, never the bit of the overflow byte; set_used, set_empty, set_overflow change only what they should.", "quantifier": "all 2^128 groups, all hashes, all positions", "why_tests_cant": "state space too large to enumerate", "anchors": ["src/jstd/hashmap/flat_map_group15.hpp:match_empty", "src/jstd/hashmap/flat_map_group15.hpp:match_used", "src/jstd/hashmap/flat_map_group15.hpp:match_hash", "src/jstd/hashmap/flat_map_group15.hpp:set_overflow", "src/jstd/hashmap/flat_map_group15.hpp:is_not_overflow"]}
{"id": "C25", "title": "Group matching is exact (16-slot groups)", "statement": "The same for groups whose control bytes carry an overflow bit: occupancy updates never disturb overflow bits and conversely.", "quantifier": "all 2^128 groups, all hashes, all positions", "why_tests_cant": "state space too large to enumerate", "anchors": ["src/jstd/hashmap/flat_map_group16.hpp:match_empty", "src/jstd/hashmap/flat_map_group16.hpp:match_used", "src/jstd/hashmap/flat_map_group16.hpp:match_hash", "src/jstd/hashmap/flat_map_group16.hpp:set_overflow", "src/jstd/hashmap/flat_map_group16.hpp:set_empty", "src/jstd/hashmap/flat_map_group16.hpp:set_used"]}
{"id": "C26", "title": "A stored hash is never mistaken for a free or end mark", "statement": "The one-byte hash stored for a key is never the empty mark nor the end-of-table mark, and is the same value at insertion and lookup.", "quantifier": "all 2^64 hash values", "why_tests_cant": "the special values are hit by 1 hash in 128", "anchors": ["src/jstd/hashmap/flat_map_group15.hpp:reduced_hash", "src/jstd/hashmap/flat_map_group15.hpp:repeated_hash", "src/jstd/hashmap/flat_map_group16.hpp:reduced_hash", "src/jstd/hashmap/group15_flat_table.hpp:ctrl_for_hash", "src/jstd/hashmap/group16_flat_table.hpp:ctrl_for_hash"]}
{"id": "C27", "title": "The home group index is always in range", "statement": "For every hash value and every map state (including a map without storage) the first group examined exists.", "quantifier": "all hashes, all capacities", "why_tests_cant": "needs hash >> shift < groups for every capacity", "anchors": ["src/jstd/hashmap/group15_flat_table.hpp:index_for_hash", "src/jstd/hashmap/group15_flat_table.hpp:calc_index_shift", "src/jstd/hashmap/group15_flat_table.hpp:default_empty_groups", "src/jstd/hashmap/group16_flat_table.hpp:index_for_hash"]}
{"id": "C28", "title": "Power-of-two rounding is exact", "statement": "is_pow2, round_up, round_down, round_to, next_pow2, prev_pow2 and log2_int return the mathematically specified power of two for every argument whose result is representable.", "quantifier": "all 64-bit arguments", "why_tests_cant": "2^64 arguments", "anchors": ["src/jstd/support/Power2.h:round_up", "src/jstd/support/Power2.h:round_down", "src/jstd/support/Power2.h:round_to", "src/jstd/support/Power2.h:next_pow2", "src/jstd/support/Power2.h:prev_pow2", "src/jstd/support/Power2.h:log2_int", "src/jstd/support/Power2.h:is_pow2"]}
{"id": "C29", "title": "Portable bit-counting fallbacks are correct", "statement": "The portable popcount / count-leading / count-trailing fallbacks agree with their specification for every argument. (Proved for the 32-bit versions; refuted for the 64-bit ones.)", "quantifier": "all 32-bit / 64-bit arguments", "why_tests_cant": "2^64 arguments; the fallback is not compiled on mainstream platforms", "anchors": ["src/jstd/support/BitUtils.h:__internal_popcnt", "src/jstd/support/BitUtils.h:__internal_popcnt64", "src/jstd/support/BitUtils.h:__internal_clz", "src/jstd/support/BitUtils.h:__internal_ctzll", "src/jstd/support/BitUtils.h:__internal_hakmem_popcnt"]}
{"id": "C30", "title": "The control array lies inside the allocated block, aligned, after the slots", "statement": "For every slot size, capacity and block address the group array computed inside the slot allocation is aligned, does not overlap the slots and ends within the block.", "quantifier": "all slot sizes, capacities, addresses", "why_tests_cant": "depends on allocator addresses and element sizes", "anchors": ["src/jstd/hashmap/group15_flat_table.hpp:AlignedSlotsAndGroups", "src/jstd/hashmap/group15_flat_table.hpp:TotalSlotAllocCount", "src/jstd/hashmap/group16_flat_table.hpp:AlignedGroups", "src/jstd/hashmap/group16_flat_table.hpp:TotalGroupAllocCount"]}
{"id": "C31", "title": "Live size bounds capacity", "statement": "A group15 map whose number of entries never exceeds some fixed number keeps a bounded capacity. (Refuted: insert/erase churn doubles it again and again.)", "quantifier": "all executions with a bounded number of live entries, all capacities", "why_tests_cant": "needs long churn with a particular hash pattern", "anchors": ["src/jstd/hashmap/group15_flat_table.hpp:reset_ctrl", "src/jstd/hashmap/group15_flat_table.hpp:grow_if_necessary"]}
{"id": "C32", "title": "reserve never loses entries", "statement": "reserve(n) keeps all entries for every n. (Proved for n>0; refuted for n=0.)", "quantifier": "all n, all reachable maps", "why_tests_cant": "n=0 is a corner case", "anchors": ["src/jstd/hashmap/group15_flat_table.hpp:reserve", "src/jstd/hashmap/group16_flat_table.hpp:reserve"]}
{"id": "C33", "title": "Setting the load factor to its present value changes nothing", "statement": "max_load_factor(max_load_factor()) leaves capacity() unchanged. (Refuted: it always doubles the capacity.)", "quantifier": "all reachable maps", "why_tests_cant": "content is preserved, so content tests pass", "anchors": ["src/jstd/hashmap/group15_flat_table.hpp:max_load_factor", "src/jstd/hashmap/group16_flat_table.hpp:max_load_factor"]}
{"id": "C34", "title": "reserve(n) either throws or provides n slots", "statement": "If reserve(n) returns then capacity() >= n. (Proved for n < 2^56; refuted for larger n, where the capacity computation wraps around.)", "quantifier": "all 64-bit n", "why_tests_cant": "huge n are never tested", "anchors": ["src/jstd/hashmap/group15_flat_table.hpp:shrink_to_fit_capacity", "src/jstd/hashmap/group15_flat_table.hpp:calc_capacity", "src/jstd/hashmap/group16_flat_table.hpp:shrink_to_fit_capacity"]}
{"id": "C35", "title": "erase(iterator) removes exactly that entry (group16)", "statement": "erase(pos) removes exactly the entry at pos and returns an iterator to the entry that followed it in iteration order (or end()).", "quantifier": "all reachable group16 maps, all valid iterators", "why_tests_cant": "position-dependent scan", "anchors": ["src/jstd/hashmap/group16_flat_table.hpp:erase(iterator)", "src/jstd/hashmap/group16_flat_table.hpp:erase_slot", "src/jstd/hashmap/group16_flat_table.hpp:next_valid_iterator"]}
{"id": "C36", "title": "Insertion and erasure leave other entries in place", "statement": "An insertion that does not change capacity() and any erase(key) leave every other entry at the same position with the same key and value, so references to them stay valid.", "quantifier": "all reachable maps, all keys", "why_tests_cant": "must hold for every collision pattern", "anchors": ["src/jstd/hashmap/group15_flat_table.hpp:find_or_insert", "src/jstd/hashmap/group15_flat_table.hpp:find_and_erase", "src/jstd/hashmap/group16_flat_table.hpp:find_or_insert", "src/jstd/hashmap/group16_flat_table.hpp:find_and_erase"]}
{"id": "C37", "title": "The stored key object and value policy on duplicates", "statement": "Inserting an equivalent key keeps the stored key; insert/emplace/try_emplace/operator[] keep the stored value, insert_or_assign replaces only the value.", "quantifier": "all reachable maps, all equivalent key pairs", "why_tests_cant": "equivalence classes with distinguishable keys are rarely tested", "anchors": ["src/jstd/hashmap/group15_flat_table.hpp:emplace_impl", "src/jstd/hashmap/group15_flat_table.hpp:try_emplace_impl", "src/jstd/hashmap/group16_flat_table.hpp:emplace_impl"]}
{"id": "C38", "title": "Lookups in a map without storage are safe", "statement": "find/erase/contains on a default-constructed, moved-from or cleared-with-destroy map return 'not found' without reading any slot.", "quantifier": "all keys and hashes", "why_tests_cant": "relies on two static groups covering the 1-bit home index", "anchors": ["src/jstd/hashmap/group15_flat_table.hpp:default_empty_groups", "src/jstd/hashmap/group15_flat_table.hpp:index_for_hash", "src/jstd/hashmap/group16_flat_table.hpp:default_empty_groups"]}
{"id": "C39", "title": "Deallocation uses the allocated size", "statement": "Every block is deallocated exactly once, with the same element count with which it was allocated, across growth, rehash, clear(true) and destruction.", "quantifier": "all executions", "why_tests_cant": "sized deallocation mismatches are silent with common allocators", "anchors": ["src/jstd/hashmap/group15_flat_table.hpp:destroy_slots", "src/jstd/hashmap/group15_flat_table.hpp:rehash_impl", "src/jstd/hashmap/group15_flat_table.hpp:create_slots", "src/jstd/hashmap/group16_flat_table.hpp:destroy_data"]}
{"id": "C40", "title": "std::erase_if removes exactly the matching entries", "statement": "erase_if(map, pred) leaves exactly the entries for which pred is false, in the same order, and does not change capacity(). (Proved for group16; refuted for group15.)", "quantifier": "all reachable maps, all predicates", "why_tests_cant": "it walks backwards through tombstone-free control bytes; sparse tables, empty groups and erasures at both ends are unbounded combinations, and the null end() of group15 is never decremented by tests", "anchors": ["src/jstd/hashmap/group16_flat_map.hpp:erase_if", "src/jstd/hashmap/group15_flat_map.hpp:erase_if"]}
{"id": "C41", "title": "Decrementing an iterator undoes incrementing it", "statement": "For every iterator obtained from begin() by ++ and different from end(), dereferencing is defined, ++ is defined, and -- of the result gives the iterator back (group15: unless the result is end()).", "quantifier": "all reachable maps, all iterators", "why_tests_cant": "depends on the pattern of empty slots between entries across groups, unbounded in tests", "anchors": ["src/jstd/hashmap/flat_map_iterator15.hpp:operator++", "src/jstd/hashmap/flat_map_iterator.hpp:operator++"]}
{"id": "C42", "title": "A cleared map behaves like a new map of the same capacity", "statement": "After clear() two maps of the same capacity and load factor grow at the same number of insertions. (Refuted: erasures before clear() permanently lower the growth limit.)", "quantifier": "all reachable maps", "why_tests_cant": "the lowered limit is invisible until the map is filled again", "anchors": ["src/jstd/hashmap/group15_flat_table.hpp:clear_data", "src/jstd/hashmap/group15_flat_table.hpp:erase_slot"]}
{"id": "C43", "title": "robin_hash_map behaves as a map while the keys are spread", "statement": "In every sequence of calls on a robin_hash_map each call returns what an abstract map returns (until one throws), never leaves its arrays and terminates, provided that after every call no stretch of n positions is wanted by more than n + room entries.", "quantifier": "all lawful hashes and key equalities, all sequences of calls, all allocators", "why_tests_cant": "displacement chains depend on every key inserted before; tests use well-mixed keys and never examine chains crossing the end of the table", "anchors": ["src/jstd/hashmap/robin_hash_map.h:direct_find_and_insert", "src/jstd/hashmap/robin_hash_map.h:insert_to_place", "src/jstd/hashmap/robin_hash_map.h:erase_slot", "src/jstd/hashmap/robin_hash_map.h:rehash_impl"]}
{"id": "C44", "title": "Up to eleven entries nothing is asked of the hash", "statement": "As long as a robin_hash_map holds at most eleven entries, every call returns what an abstract map returns, for every hash function, even a constant one.", "quantifier": "all lawful hashes, all sequences of calls with at most eleven entries", "why_tests_cant": "needs all hash functions; the bound is sharp (C45 breaks with twelve)", "anchors": ["src/jstd/hashmap/robin_hash_map.h:create_slots", "src/jstd/hashmap/robin_hash_map.h:insert_to_place"]}
{"id": "C45", "title": "Insertions stay inside the arrays", "statement": "No sequence of insertions into a robin_hash_map accesses memory outside its arrays. (Refuted: twelve keys that share the last position overflow the slot array; the distance limit can never trigger because an 8-bit distance is compared with max_lookups << 8.)", "quantifier": "all sequences of insertions", "why_tests_cant": "needs keys that collide modulo the capacity at the end of the table; random keys hardly ever do", "anchors": ["src/jstd/hashmap/robin_hash_map.h:insert_to_place", "src/jstd/hashmap/robin_hash_map.h:max_distance", "src/jstd/hashmap/robin_hash_map.h:direct_find_and_insert"]}
{"id": "C46", "title": "find of an absent key is end()", "statement": "find(k) == end() exactly when no equivalent key is present. (Refuted for a map without storage.)", "quantifier": "all reachable maps, all keys", "why_tests_cant": "a default-constructed map is rarely searched in tests, and then with count/contains", "anchors": ["src/jstd/hashmap/robin_hash_map.h:find", "src/jstd/hashmap/robin_hash_map.h:end", "src/jstd/hashmap/robin_hash_map.h:index_of"]}
{"id": "C47", "title": "Iteration of robin_hash_map visits every entry once", "statement": "Iterating from begin() to end() yields each entry of the map exactly once; size() is their number and keys are pairwise inequivalent.", "quantifier": "all reachable maps", "why_tests_cant": "the patterns of used and empty positions, including the overflow area behind the last position, are unbounded", "anchors": ["src/jstd/hashmap/robin_hash_map.h:begin", "src/jstd/hashmap/robin_hash_map.h:operator++", "src/jstd/hashmap/robin_hash_map.h:end"]}
{"id": "C48", "title": "A copy of a robin_hash_map has the same entries", "statement": "The copy constructor returns or throws bad_alloc; if it returns, the new map has exactly the entries of the source and works.", "quantifier": "all reachable maps, all allocators", "why_tests_cant": "the copy has another capacity, so all entries get new places", "anchors": ["src/jstd/hashmap/robin_hash_map.h:robin_hash_map(const robin_hash_map &)", "src/jstd/hashmap/robin_hash_map.h:unique_insert", "src/jstd/hashmap/robin_hash_map.h:reserve_for_insert"]}
{"id": "C49", "title": "Moving a robin_hash_map keeps both maps usable", "statement": "After move construction the new map has the entries and both maps can be used. (Refuted for the source.)", "quantifier": "all reachable maps", "why_tests_cant": "tests do not use moved-from maps", "anchors": ["src/jstd/hashmap/robin_hash_map.h:robin_hash_map(robin_hash_map &&)"]}
{"id": "C50", "title": "swap and assignment give usable maps", "statement": "After a.swap(b), or a = b, each map has the entries of the other and can be used. (Refuted: last_slot_ is not exchanged.)", "quantifier": "all pairs of reachable maps", "why_tests_cant": "contains() still works after swap, so tests that only look up present keys pass", "anchors": ["src/jstd/hashmap/robin_hash_map.h:swap_content", "src/jstd/hashmap/robin_hash_map.h:operator=", "src/jstd/hashmap/robin_hash_map.h:swap_impl"]}
{"id": "C51", "title": "A failed growth leaves the robin_hash_map unchanged", "statement": "If an allocation throws during a call, the map is as before the call. (Refuted: max_lookups_ is assigned before the allocation.)", "quantifier": "all reachable maps, all allocation failures", "why_tests_cant": "requires a failing allocator and a look at the map afterwards", "anchors": ["src/jstd/hashmap/robin_hash_map.h:create_slots", "src/jstd/hashmap/robin_hash_map.h:rehash_impl"]}
{"id": "C52", "title": "clear() of an empty robin_hash_map is defined", "statement": "clear() is defined on every map and leaves it empty. (Refuted: without storage it writes to constant memory.)", "quantifier": "all reachable maps", "why_tests_cant": "clear() is tested on filled maps; the write goes to constant data whose value is equal", "anchors": ["src/jstd/hashmap/robin_hash_map.h:clear", "src/jstd/hashmap/robin_hash_map.h:clear_data", "src/jstd/hashmap/robin_hash_map.h:clear_ctrls"]}
{"id": "C53", "title": "Shrinking a robin_hash_map is memory-safe", "statement": "rehash(n) and shrink_to_fit of a working map are defined. (Refuted: they may choose a capacity whose overflow area is too small.)", "quantifier": "all reachable maps", "why_tests_cant": "needs colliding keys and shrinking", "anchors": ["src/jstd/hashmap/robin_hash_map.h:shrink_to_fit", "src/jstd/hashmap/robin_hash_map.h:rehash", "src/jstd/hashmap/robin_hash_map.h:insert_no_grow"]}
{"id": "C54", "title": "The capacity of a robin_hash_map is a power of two and large enough", "statement": "The capacity is a power of two and at least size(); without calls that shrink below it or change the load factor, at least twice size().", "quantifier": "all reachable maps", "why_tests_cant": "all histories of growth, shrinking and erasure", "anchors": ["src/jstd/hashmap/robin_hash_map.h:calc_capacity", "src/jstd/hashmap/robin_hash_map.h:calc_slot_threshold", "src/jstd/hashmap/robin_hash_map.h:rehash_impl"]}
{"id": "C55", "title": "Searches in a robin_hash_map are short", "statement": "A search inspects at most room + 2 positions (2 log2(capacity) + 2 below 65536 positions), found or not.", "quantifier": "all reachable maps, all keys", "why_tests_cant": "the worst case over all keys and all maps cannot be enumerated", "anchors": ["src/jstd/hashmap/robin_hash_map.h:direct_find", "src/jstd/hashmap/robin_hash_map.h:max_lookups"]}
{"id": "C56", "title": "max_load_factor of a robin_hash_map takes effect", "statement": "After max_load_factor(x) the map does not hold more than x * capacity entries. (Refuted: the old threshold is kept.)", "quantifier": "all reachable maps, all factors", "why_tests_cant": "the stale limit is invisible until capacity is compared", "anchors": ["src/jstd/hashmap/robin_hash_map.h:max_load_factor"]}
{"id": "C57", "title": "A flat16_hash_map behaves as a map", "statement": "From every map made by calls that return and by copying, every further call (insert, insert_or_assign, erase, find, contains, size, clear(true), reserve, rehash, shrink_to_fit, max_load_factor) returns what an abstract map says or throws, stays inside its arrays and ends, provided: erase only while every entry is within 16 slots of the one its hash asks for, insertion only while there are few deleted slots or room is left.", "quantifier": "all hashers, mixers, key and value types, states, call sequences, allocation failures", "why_tests_cant": "states are unbounded and depend on the hash", "anchors": ["src/jstd/hashmap/flat16_hash_map.h:find_impl", "src/jstd/hashmap/flat16_hash_map.h:find_and_prepare_insert", "src/jstd/hashmap/flat16_hash_map.h:emplace_impl", "src/jstd/hashmap/flat16_hash_map.h:find_and_erase", "src/jstd/hashmap/flat16_hash_map.h:rehash_impl"]}
{"id": "C58", "title": "A flat16_hash_map without erasing behaves as a map", "statement": "If nothing is erased, a new map agrees with an abstract map for all sequences of the other calls, whatever the hasher and the keys.", "quantifier": "all hashers, keys, call sequences, allocation failures", "why_tests_cant": "all collision patterns cannot be enumerated", "anchors": ["src/jstd/hashmap/flat16_hash_map.h:emplace_impl", "src/jstd/hashmap/flat16_hash_map.h:find_impl", "src/jstd/hashmap/flat16_hash_map.h:rehash_impl"]}
{"id": "C59", "title": "A flat16_hash_map with at most eight entries behaves as a map", "statement": "While the map has at most eight entries, insertions, erasures and lookups agree with an abstract map, whatever the hasher and the keys.", "quantifier": "all hashers, keys, call sequences of any length", "why_tests_cant": "runs are unbounded", "anchors": ["src/jstd/hashmap/flat16_hash_map.h:find_and_erase", "src/jstd/hashmap/flat16_hash_map.h:emplace_impl", "src/jstd/hashmap/flat16_hash_map.h:find_impl"]}
{"id": "C60", "title": "Erasing from a flat16_hash_map keeps the other entries", "statement": "erase(k) leaves every other key findable. (Refuted: erase marks a slot empty by looking only at its own group, which ends the search for entries that were placed behind it.)", "quantifier": "all states, all keys", "why_tests_cant": "needs seventeen keys that ask for one slot", "anchors": ["src/jstd/hashmap/flat16_hash_map.h:erase_slot", "src/jstd/hashmap/flat16_hash_map.h:find_impl"]}
{"id": "C61", "title": "Insertion into a flat16_hash_map is always defined", "statement": "An insertion returns or throws in every state that calls lead to. (Refuted after erasures and after max_load_factor: drop_deleted_no_grow moves an element that does not exist.)", "quantifier": "all states", "why_tests_cant": "depends on the number of deleted slots reaching an eighth of the capacity", "anchors": ["src/jstd/hashmap/flat16_hash_map.h:reorder_or_grow_if_necessary", "src/jstd/hashmap/flat16_hash_map.h:drop_deleted_no_grow", "src/jstd/hashmap/flat16_hash_map.h:max_load_factor"]}
{"id": "C62", "title": "Iteration over a flat16_hash_map visits every entry once", "statement": "begin() to end() yields the entries of the map, each key once, and reads only inside the arrays.", "quantifier": "all maps that C57 covers", "why_tests_cant": "states are unbounded", "anchors": ["src/jstd/hashmap/flat16_hash_map.h:begin", "src/jstd/hashmap/flat16_hash_map.h:operator++"]}
{"id": "C63", "title": "clear() of a flat16_hash_map empties it", "statement": "After clear() the map has no entries and remains usable. (Refuted: the control bytes are only partly reset, and the end mark of a map of four slots is overwritten.)", "quantifier": "all states", "why_tests_cant": "the stale control bytes are only seen by a lookup of a key in the right group", "anchors": ["src/jstd/hashmap/flat16_hash_map.h:clear", "src/jstd/hashmap/flat16_hash_map.h:destroy_group", "src/jstd/hashmap/flat16_hash_map.h:destroy_slots"]}
{"id": "C64", "title": "Capacity requests of a flat16_hash_map end", "statement": "reserve, rehash and shrink_to_fit return or throw. (Refuted: without the size as lower limit the new table may have no room.) Proved for shrink_to_fit(), for n >= size, and for all n while the size is not a power of two.", "quantifier": "all states, all n", "why_tests_cant": "an endless loop cannot be told from a long one", "anchors": ["src/jstd/hashmap/flat16_hash_map.h:shrink_to_fit", "src/jstd/hashmap/flat16_hash_map.h:reserve", "src/jstd/hashmap/flat16_hash_map.h:rehash_impl"]}
{"id": "C65", "title": "A copied flat16_hash_map has the same entries", "statement": "The copy iterates over the same entries, has the same size and contains the same keys.", "quantifier": "all maps that C57 covers, allocation failures", "why_tests_cant": "states are unbounded", "anchors": ["src/jstd/hashmap/flat16_hash_map.h:flat16_hash_map", "src/jstd/hashmap/flat16_hash_map.h:insert_unique"]}
{"id": "C66", "title": "A copied flat16_hash_map can be used like the original", "statement": "Insertions that succeed on the original succeed on its copy. (Refuted: copying does not lower left_empties_, the copy fills up and then loses all its entries.)", "quantifier": "all maps, all insertions", "why_tests_cant": "the copy must be filled up completely", "anchors": ["src/jstd/hashmap/flat16_hash_map.h:flat16_hash_map", "src/jstd/hashmap/flat16_hash_map.h:reorder_or_grow_if_necessary"]}
{"id": "C67", "title": "A failed allocation leaves a flat16_hash_map unchanged", "statement": "When a call throws because memory is refused, the map is unchanged. (Refuted when the slots are refused: the entries are lost and never destroyed.) Proved when the control bytes are refused.", "quantifier": "all states, all calls but clear and max_load_factor", "why_tests_cant": "allocation failures are not tested", "anchors": ["src/jstd/hashmap/flat16_hash_map.h:create_group", "src/jstd/hashmap/flat16_hash_map.h:rehash_impl"]}
{"id": "C68", "title": "A flat16_hash_map respects its maximum load factor", "statement": "size() never exceeds the threshold. (Refuted after shrink_to_fit with a load factor of 0.8: every slot is in use and left_empties_ has wrapped.) Proved for insertions and lookups.", "quantifier": "all call sequences", "why_tests_cant": "wrapping of a counter is invisible from outside", "anchors": ["src/jstd/hashmap/flat16_hash_map.h:shrink_to_fit", "src/jstd/hashmap/flat16_hash_map.h:left_empties_"]}
{"id": "C69", "title": "The scans of flat16 clusters find what they name", "statement": "matchEmpty finds the empty marks, matchUsed the used slots, matchEmptyOrDeleted the empty and deleted marks. (Refuted for the last: it also finds the end mark.)", "quantifier": "all clusters of sixteen bytes", "why_tests_cant": "256^16 clusters", "anchors": ["src/jstd/hashmap/flat16_hash_map.h:matchEmpty", "src/jstd/hashmap/flat16_hash_map.h:matchUsed", "src/jstd/hashmap/flat16_hash_map.h:matchEmptyOrDeleted"]}
{"id": "C70", "title": "Destroying a flat16_hash_map destroys every entry once", "statement": "The destructor destroys every constructed element once, nothing else, and stays inside its arrays.", "quantifier": "all maps that C57 covers", "why_tests_cant": "states are unbounded", "anchors": ["src/jstd/hashmap/flat16_hash_map.h:destroy", "src/jstd/hashmap/flat16_hash_map.h:destroy_slots"]}
{"id": "C71", "title": "The polynomial string hashes compute their polynomial", "statement": "BKDRHash, BKDRHash_31 (Times31), BKDRHash_31_std (Times31Std) and DJBHash return the polynomial of the bytes in base 131, 31, 31 and 33 modulo 2^32, for the unrolled and the plain loop, and read only the key.", "quantifier": "all byte strings, all lengths", "why_tests_cant": "byte strings are unbounded; an over-read is invisible", "anchors": ["src/jstd/hasher/hashes.h:BKDRHash", "src/jstd/hasher/hashes.h:BKDRHash_31", "src/jstd/hasher/hashes.h:BKDRHash_31_std", "src/jstd/hasher/hashes.h:DJBHash"]}
{"id": "C72", "title": "APHash alternates over all bytes", "statement": "APHash, which takes four bytes per round, mixes byte i as an even or odd byte according to i, also for the bytes after the last round, and reads only the key.", "quantifier": "all byte strings", "why_tests_cant": "byte strings are unbounded", "anchors": ["src/jstd/hasher/hashes.h:APHash"]}
{"id": "C73", "title": "intel_crc32_simple computes CRC-32C", "statement": "intel_crc32_simple_x86 and _x64 return the CRC-32C of the key and read only the key.", "quantifier": "all byte strings", "why_tests_cant": "byte strings are unbounded", "anchors": ["src/jstd/hasher/hash_crc32.h:intel_crc32_simple_x86", "src/jstd/hasher/hash_crc32.h:intel_crc32_simple_x64"]}
{"id": "C74", "title": "hash_crc32 reads only the key", "statement": "hash_crc32 (intel_crc32_x86, intel_crc32_x64) reads only the bytes of the key. (Refuted: the last bytes are read as a whole word.)", "quantifier": "all byte strings, all bytes behind them", "why_tests_cant": "the bytes read too much are masked, so the result is right unless the page ends", "anchors": ["src/jstd/hasher/hash_crc32.h:hash_crc32", "src/jstd/hasher/hash_crc32.h:intel_crc32_x64", "src/jstd/hasher/hash_crc32.h:intel_crc32_x86"]}
{"id": "C75", "title": "hash_crc32 depends on the length of the key", "statement": "Keys of different length are not hashed as if filled up with zeros. (Refuted: up to seven zeros at the end change nothing.)", "quantifier": "all byte strings", "why_tests_cant": "text without zeros does not show it", "anchors": ["src/jstd/hasher/hash_crc32.h:intel_crc32_x64"]}
{"id": "C76", "title": "primaryHash is a function of the key", "statement": "HashUtils<T>::primaryHash on x86 reads only the key and depends on every byte, the length and the seed only. (Refuted for the reads: the last bytes are read as a whole word.) Proved: what follows does not matter, and zeros at the end do.", "quantifier": "all byte strings, seeds, word sizes", "why_tests_cant": "the bytes read too much are masked", "anchors": ["src/jstd/hasher/hashes.h:primaryHash_aligned"]}
{"id": "C77", "title": "primaryHash does not depend on the address", "statement": "HashUtils<T>::primaryHash on other machines than x86 gives equal keys equal hashes wherever they are stored. (Refuted: the bytes of a word are joined in the wrong order, and bytes before the key are used.)", "quantifier": "all byte strings, all alignments", "why_tests_cant": "only runs on machines that are not x86", "anchors": ["src/jstd/hasher/hashes.h:primaryHash", "src/jstd/hasher/hashes.h:decode_value"]}
{"id": "C78", "title": "The 64 x 64 multiplications are right", "statement": "uint128_mul (ARM and generic), mum_mul_mix64 and mum_hash64 give the 128-bit product, or its folded halves. (Refuted for the generic uint128_mul: a carry is lost.)", "quantifier": "all pairs of 64-bit words", "why_tests_cant": "2^128 pairs", "anchors": ["src/jstd/hasher/hashes.h:uint128_mul", "src/jstd/hasher/hashes.h:mum_mul_mix64", "src/jstd/hasher/hashes.h:mum_hash64"]}
{"id": "C79", "title": "msvc_fnv_1a is FNV-1a", "statement": "msvc_fnv_1a returns the 64-bit FNV-1a of the key and reads only the key. (Refuted for 4 and 8 bytes, which are taken as halves.) Proved for all other lengths.", "quantifier": "all byte strings", "why_tests_cant": "byte strings are unbounded", "anchors": ["src/jstd/hasher/hashes.h:msvc_fnv_1a"]}
{"id": "C80", "title": "Every hash notices a change of one byte", "statement": "Two keys of the same length that differ in one byte have different hashes, for each of the string hashes.", "quantifier": "all byte strings, all positions, all pairs of bytes", "why_tests_cant": "all pairs of strings cannot be enumerated", "anchors": ["src/jstd/hasher/hashes.h:BKDRHash", "src/jstd/hasher/hashes.h:APHash", "src/jstd/hasher/hashes.h:DJBHash", "src/jstd/hasher/hashes.h:OpenSSL_Hash", "src/jstd/hasher/hashes.h:msvc_fnv_1a", "src/jstd/hasher/hashes.h:primaryHash_aligned", "src/jstd/hasher/hash_crc32.h:intel_crc32_x64", "src/jstd/hasher/hash_crc32.h:intel_crc32_simple_x64"]}
{"id": "C81", "title": "The index of mum_hash_policy is below the capacity", "statement": "index_for_hash returns an index below the capacity for the shift that calc_next_capacity returned.", "quantifier": "all 64-bit hashes, all capacities", "why_tests_cant": "2^64 hashes", "anchors": ["src/jstd/hasher/hashes.h:mum_hash_policy", "src/jstd/hasher/hashes.h:index_for_hash"]}
{"id": "C82", "title": "Hash policies use all slots", "statement": "index_for_hash reaches different slots. (Refuted: the fibonacci policy always gives 0 up to 2^28 slots; both policies give 0 for string keys and hashers of 32 bits.)", "quantifier": "all 64-bit hashes, all capacities", "why_tests_cant": "a map with a bad index only becomes slow", "anchors": ["src/jstd/hasher/hashes.h:fibonacci_hash_policy", "src/jstd/hasher/hashes.h:fibonacci_hash", "src/jstd/hasher/hashes.h:mum_hash_policy"]}
{"id": "C83", "title": "CRC hashes of integers separate keys", "statement": "Different integers have different hashes. (Refuted for 64-bit keys, and the upper half of int_hash_crc32 is the lower half combined with a constant.) Proved for 32-bit keys.", "quantifier": "all integers", "why_tests_cant": "2^64 keys", "anchors": ["src/jstd/hasher/hash_crc32.h:int_hash_crc32", "src/jstd/hasher/hash_crc32.h:simple_int_hash_crc32", "src/jstd/hasher/hash_crc32.h:intel_int_crc32_x64"]}
{"id": "C84", "title": "Equal floating-point keys have equal hashes", "statement": "hash_helper<float> and <double> hash +0 and -0, which are equal, equally and read only the key. (Refuted.)", "quantifier": "all floating-point keys, all hash functions", "why_tests_cant": "needs the one pair of equal values that differ in a bit", "anchors": ["src/jstd/hasher/hash_helper.h:HASH_HELPER_FLOAT"]}
{"id": "C85", "title": "Hashes of wide strings read only the string", "statement": "string_hash_helper with Times31 or Times31Std reads only the string, whatever its character type. (Refuted for characters of two and four bytes: the length is multiplied by the size twice.)", "quantifier": "all wide strings", "why_tests_cant": "the result is stable as long as memory behind the string is", "anchors": ["src/jstd/hasher/hash_helper.h:string_hash_helper", "src/jstd/hasher/hashes.h:BKDRHash_31", "src/jstd/hasher/hashes.h:Times31"]}
{"id": "C86", "title": "The rocksdb hash is defined", "statement": "rocksdb::hashes::Hash is defined for every key. (Refuted: it shifts negative values; proved exactly when.)", "quantifier": "all byte strings, all seeds", "why_tests_cant": "compilers usually do what was meant", "anchors": ["src/jstd/hasher/hashes.h:Hash"]}
{"id": "C87", "title": "The hash of a pointer depends on the pointer", "statement": "hash_helper<T *> returns the same hash for the same pointer and reads only the key. (Refuted: it hashes eight bytes of what is pointed at.)", "quantifier": "all pointers, memory contents, hash functions", "why_tests_cant": "the hash changes when the object is written to", "anchors": ["src/jstd/hasher/hash_helper.h:hash_helper"]}
{"id": "C88", "title": "The fnv1a.h hashes read only the key", "statement": "FNV1A_Yoshimura, FNV1A_Yoshimitsu_TRIADii_xmm and FNV1A_penumbra read only the bytes of the key, for every length and instruction set.", "quantifier": "all byte strings, all instruction sets", "why_tests_cant": "byte strings are unbounded; an over-read is invisible", "anchors": ["src/jstd/hasher/fnv1a.h:FNV1A_Yoshimura", "src/jstd/hasher/fnv1a.h:FNV1A_Yoshimitsu_TRIADii_xmm", "src/jstd/hasher/fnv1a.h:FNV1A_penumbra"]}
{"id": "C89", "title": "The fnv1a.h hashes notice a change of one byte", "statement": "Two keys of the same length that differ in one byte have different hashes. (Refuted: the halves of the key overlap, and a byte in the overlap enters twice.) Proved for all lengths without an overlap.", "quantifier": "all byte strings, all positions, all pairs of bytes", "why_tests_cant": "colliding keys are found only by solving for them", "anchors": ["src/jstd/hasher/fnv1a.h:FNV1A_Yoshimura", "src/jstd/hasher/fnv1a.h:FNV1A_Yoshimitsu_TRIADii_xmm", "src/jstd/hasher/fnv1a.h:FNV1A_penumbra"]}
{"id": "C90", "title": "The xmm loops use every byte", "statement": "The loops with xmm registers use every byte of the key. (Refuted: the 128-bit rotation is a shift by five bytes that drops what leaves the register.)", "quantifier": "all keys of one step, all instruction sets", "why_tests_cant": "keys that differ only there are rarely tried", "anchors": ["src/jstd/hasher/fnv1a.h:_rotl_twise128", "src/jstd/hasher/fnv1a.h:FNV1A_Yoshimitsu_TRIADii_xmm", "src/jstd/hasher/fnv1a.h:FNV1A_penumbra"]}
{"id": "C91", "title": "sha1_x86 is the SHA-1 compression function", "statement": "For every state and every key, sha1_x86 runs the compression function of FIPS 180-4 over the key filled up with zeros to a multiple of 64 bytes, reads only the key, and returns word 0 of the new state (word 0 xor word 1 on x86-64).", "quantifier": "all states, all byte strings", "why_tests_cant": "80 rounds are interleaved by hand over nine registers; states and keys are unbounded", "anchors": ["src/jstd/hasher/sha1.h:sha1_x86"]}
{"id": "C92", "title": "sha1_x86 notices a zero byte at the end", "statement": "A key and the same key followed by a zero byte have different hashes. (Refuted: the length does not enter, so a zero byte behind a key that does not fill its last block changes nothing.)", "quantifier": "all states, all byte strings", "why_tests_cant": "keys with zeros at the end are rarely tried", "anchors": ["src/jstd/hasher/sha1.h:sha1_x86"]}
{"id": "C93", "title": "sha1_msg2 reads only the key", "statement": "sha1_msg2 reads only the bytes of the key and its value depends only on them. (The first part is refuted: it loads whole 16-byte registers. The second is proved.)", "quantifier": "all byte strings, all contents of the memory behind them, both variants", "why_tests_cant": "an over-read is invisible unless it meets the end of a page", "anchors": ["src/jstd/hasher/sha1.h:sha1_msg2_x86", "src/jstd/hasher/sha1.h:sha1_msg2_x64"]}
{"id": "C94", "title": "sha1_msg2 notices a change of two bits", "statement": "Keys of the same length that differ in two bits of two bytes have different hashes. (Refuted: sha1msg2 is linear, and two bits of any key cancel.)", "quantifier": "all keys of 64 bytes, both variants", "why_tests_cant": "the pairs of bits that cancel are found only by looking at the instruction", "anchors": ["src/jstd/hasher/sha1.h:sha1_msg2_x86", "src/jstd/hasher/sha1.h:sha1_msg2_x64"]}
{"id": "C95", "title": "String equality decides equality", "statement": "str_utils::is_equal returns true exactly if the two strings have the same characters, in each of the four variants and for each character type. (Proved for memcmp; the word and SSE variants under conditions; refuted for the C library variant, which stops at a zero, and for stl::StrEqual with two lengths, which lacks a return.)", "quantifier": "all strings, all character types of the model, all bytes behind the strings, all conforming C libraries", "why_tests_cant": "strings and the bytes behind them are unbounded; a missing return often seems to work", "anchors": ["src/jstd/string/string_utils.h:is_equal", "src/jstd/string/string_libc.h:StrEqual", "src/jstd/string/string_libc.h:StrCmp", "src/jstd/string/string_libc.h:StrLen", "src/jstd/string/string_stl.h:StrEqual"]}
{"id": "C96", "title": "String comparison reads only the strings", "statement": "is_equal and compare read no byte outside the two strings. (Proved for memcmp and the C library; refuted for the word and the SSE variant, for every length that is no multiple of the word.)", "quantifier": "all strings", "why_tests_cant": "an over-read is invisible unless it meets the end of a page", "anchors": ["src/jstd/string/string_utils.h:is_equal", "src/jstd/string/string_utils.h:compare"]}
{"id": "C97", "title": "Long strings are compared", "statement": "is_equal and compare look at strings of any length. (Refuted for SSE: from 2^31 to 2^32 characters nothing is looked at and the strings count as equal.)", "quantifier": "all lengths from 2^31 to 2^32", "why_tests_cant": "needs strings of 2 GB", "anchors": ["src/jstd/string/string_utils.h:is_equal", "src/jstd/string/string_utils.h:compare"]}
{"id": "C98", "title": "Strings of wide characters are compared completely", "statement": "is_equal looks at every character of strings of wchar_t, char16_t and the like. (Refuted for the word variant, which counts characters as bytes, and for the SSE variant with wchar_t of 4 bytes and char16_t, which looks at half of them.)", "quantifier": "all characters", "why_tests_cant": "only strings that differ in the part not looked at show it", "anchors": ["src/jstd/string/string_utils.h:is_equal", "src/jstd/support/SSEHelper.h:SSEHelper"]}
{"id": "C99", "title": "Comparison follows the lexicographic order", "statement": "str_utils::compare returns a number whose sign is that of the lexicographic comparison of std::basic_string_view. (Proved for memcmp on one-byte characters; SSE and C library under conditions; refuted for memcmp on wide characters, for SSE on signed short and for strings with zeros in the C library variant.)", "quantifier": "all strings, all conforming C libraries", "why_tests_cant": "the order of little-endian words differs from that of bytes only for some pairs", "anchors": ["src/jstd/string/string_utils.h:compare", "src/jstd/string/string_libc.h:StrCmp", "src/jstd/string/string_stl.h:StrCmp"]}
{"id": "C100", "title": "The relational operators of string_view follow the order", "statement": "a < b, a <= b, a > b and a >= b say how the strings compare. (Refuted: <= answers as > does, >= as < does; < and > miss results of memcmp other than -1 and 1.)", "quantifier": "all strings, all conforming C libraries, all variants", "why_tests_cant": "< and > depend on what the C library of the day returns", "anchors": ["src/jstd/string/string_view.h:operator <", "src/jstd/string/string_view.h:operator <=", "src/jstd/string/string_view.h:operator >", "src/jstd/string/string_view.h:operator >="]}
{"id": "C101", "title": "substr, copy and comparison of parts", "statement": "substr(pos, count), copy(dest, count, pos) and the comparisons of parts work on the part of the string that starts at pos and ends after count characters or at the end. (Proved if pos + count does not overflow; refuted otherwise, for copy, which returns 0 and stops at zeros, and for the comparison of one part, which is not cut at the end.)", "quantifier": "all strings, positions and counts", "why_tests_cant": "the overflow needs counts near 2^64 other than npos", "anchors": ["src/jstd/string/string_view.h:substr", "src/jstd/string/string_view.h:copy", "src/jstd/string/string_view.h:is_equal", "src/jstd/string/string_view.h:compare", "src/jstd/string/string_utils.h:str_copy", "src/jstd/string/string_traits.h:copy"]}
{"id": "C102", "title": "Empty views are equal", "statement": "All views of size 0 are equal, and none is smaller than another. (Refuted: a default view differs from a view of an empty string and is smaller than itself. Proved for views with a pointer.)", "quantifier": "all empty views, all variants, all character types", "why_tests_cant": "default views are rarely compared with each other", "anchors": ["src/jstd/string/string_view.h:basic_string_view", "src/jstd/string/string_utils.h:is_equal_safe", "src/jstd/string/string_utils.h:compare_safe"]}
{"id": "C103", "title": "robin16: erase stays inside the slots", "statement": "erase(key) of robin16_hash_map reads and writes only control words and slots of the map. (Refuted: the elements behind the erased one are moved up in memory order, without the step from the last slot to slot 0, so that a row of displaced elements over the end makes it read and write behind the slots.)", "quantifier": "both instruction sets, elements with and without destructors", "why_tests_cant": "needs displaced elements around the end of the slots; the memory behind often exists", "anchors": ["src/jstd/hashmap/robin16_hash_map.h:erase_slot", "src/jstd/hashmap/robin16_hash_map.h:find_and_erase"]}
{"id": "C104", "title": "robin16: lookup compares with present elements only", "statement": "find, contains and erase compare a key only with elements that are in the map. (Refuted for maps with less than sixteen slots: the words behind the copy of the first control words match every key whose second hash is 0.)", "quantifier": "both instruction sets, elements with and without destructors", "why_tests_cant": "one key in 256 and a crowded small map are needed", "anchors": ["src/jstd/hashmap/robin16_hash_map.h:find_impl", "src/jstd/hashmap/robin16_hash_map.h:create_group", "src/jstd/hashmap/robin16_hash_map.h:matchHashAndDistance"]}
{"id": "C105", "title": "robin16: clear removes everything", "statement": "After clear() no key is found. (Refuted for clear(false): the copy of the first control words keeps its contents, so that old keys are reported as present and their insertion is dropped.)", "quantifier": "both instruction sets, elements with and without destructors", "why_tests_cant": "needs a row of elements over the end before and after clear()", "anchors": ["src/jstd/hashmap/robin16_hash_map.h:clear", "src/jstd/hashmap/robin16_hash_map.h:destroy_group"]}
{"id": "C106", "title": "robin16: max_load_factor takes effect", "statement": "After max_load_factor(mlf) the map grows before its load is above mlf. (Refuted: the threshold is not recomputed before the next rehash.)", "quantifier": "both instruction sets, elements with and without destructors", "why_tests_cant": "the load has to be observed between two rehashes", "anchors": ["src/jstd/hashmap/robin16_hash_map.h:max_load_factor", "src/jstd/hashmap/robin16_hash_map.h:need_grow"]}
{"id": "C107", "title": "robin16: failed growth changes nothing", "statement": "If an allocation fails during an insertion, the map is as before. (Refuted when the slots are refused after the groups were replaced: elements are lost while size() counts them, and are never destroyed. Proved when the groups are refused.)", "quantifier": "all maps, allocators that refuse groups or slots", "why_tests_cant": "an allocator has to refuse exactly the second of two requests", "anchors": ["src/jstd/hashmap/robin16_hash_map.h:create_group", "src/jstd/hashmap/robin16_hash_map.h:rehash_impl", "src/jstd/hashmap/robin16_hash_map.h:grow_if_necessary"]}
{"id": "C108", "title": "robin16: a moved-from map is valid", "statement": "A map that was moved from is empty and can be used. (Refuted: it has no control words, which lookup, insertion, iteration and copying read.)", "quantifier": "both instruction sets, elements with and without destructors", "why_tests_cant": "use after move is rarely tested", "anchors": ["src/jstd/hashmap/robin16_hash_map.h:robin16_hash_map(robin16_hash_map && other)", "src/jstd/hashmap/robin16_hash_map.h:find_impl", "src/jstd/hashmap/robin16_hash_map.h:begin"]}
{"id": "C109", "title": "robin16: many keys with the same position", "statement": "All inserted keys are found, also if many of them share a position. (Refuted: the 256th such key gets the distance 255, which stands for a free slot; the next growth drops elements.)", "quantifier": "both instruction sets, elements with and without destructors", "why_tests_cant": "needs 256 colliding keys", "anchors": ["src/jstd/hashmap/robin16_hash_map.h:find_or_prepare_insert", "src/jstd/hashmap/robin16_hash_map.h:insert_to_place", "src/jstd/hashmap/robin16_hash_map.h:kEmptySlot"]}
{"id": "C110", "title": "robin16: a map under stated conditions", "statement": "From every map reached under the conditions, each call of insert, assignment, find, contains, erase, size, clear, reserve, rehash, shrink_to_fit and max_load_factor returns what an abstract map returns or throws because of the allocator; no undefined behaviour, endless loop or leak. Conditions: no stretch of n slots is wanted by more than n + 128 entries; in maps below sixteen slots the second hash of a key is not 0; an erased element is not followed by displaced elements over the end of the slots; clear() releases the memory or there are less than sixteen slots.", "quantifier": "all key and value types, lawful hash and equality, both instruction sets, elements with and without destructors, all call sequences and allocators", "why_tests_cant": "states after arbitrary many calls", "anchors": ["src/jstd/hashmap/robin16_hash_map.h:find_impl", "src/jstd/hashmap/robin16_hash_map.h:find_or_prepare_insert", "src/jstd/hashmap/robin16_hash_map.h:emplace_impl", "src/jstd/hashmap/robin16_hash_map.h:erase_slot", "src/jstd/hashmap/robin16_hash_map.h:rehash_impl", "src/jstd/hashmap/robin16_hash_map.h:insert_to_place"]}
{"id": "C111", "title": "robin16: no condition on hashes up to 129 entries", "statement": "With at most 129 entries the condition of C110 on stretches of slots holds for every hash function.", "quantifier": "all key and value types, lawful hash and equality, both instruction sets, elements with and without destructors, all call sequences and allocators", "why_tests_cant": "all hash functions", "anchors": ["src/jstd/hashmap/robin16_hash_map.h:find_or_prepare_insert", "src/jstd/hashmap/robin16_hash_map.h:insert_to_place"]}
{"id": "C112", "title": "robin16: insertion and lookup in maps with at least sixteen slots", "statement": "A map built for at least nine slots that is only inserted into, assigned to and looked up in needs no condition on second hashes, and up to 129 entries none at all.", "quantifier": "all key and value types, lawful hash and equality, both instruction sets, elements with and without destructors, all call sequences and allocators", "why_tests_cant": "all hash functions and call sequences", "anchors": ["src/jstd/hashmap/robin16_hash_map.h:find_impl", "src/jstd/hashmap/robin16_hash_map.h:emplace_impl", "src/jstd/hashmap/robin16_hash_map.h:grow_if_necessary"]}
{"id": "C113", "title": "robin16: iteration", "statement": "A walk from begin() to end() meets every entry exactly once.", "quantifier": "all key and value types, lawful hash and equality, both instruction sets, elements with and without destructors, all call sequences and allocators", "why_tests_cant": "all maps", "anchors": ["src/jstd/hashmap/robin16_hash_map.h:begin", "src/jstd/hashmap/robin16_hash_map.h:operator ++"]}
{"id": "C114", "title": "robin16: copies", "statement": "The copy of a map has the same entries, unless the allocator refuses.", "quantifier": "all key and value types, lawful hash and equality, both instruction sets, elements with and without destructors, all call sequences and allocators", "why_tests_cant": "all maps and allocators", "anchors": ["src/jstd/hashmap/robin16_hash_map.h:robin16_hash_map(const robin16_hash_map & other)", "src/jstd/hashmap/robin16_hash_map.h:insert_unique", "src/jstd/hashmap/robin16_hash_map.h:unique_prepare_insert"]}
{"id": "C115", "title": "robin16: exactly when erase is defined", "statement": "In a map with a free slot, erase(key) of a present key removes this entry if behind its element, before the end or in slot 0, is a free slot or an element in its own position; otherwise its behaviour is undefined.", "quantifier": "all key and value types, lawful hash and equality, both instruction sets, elements with and without destructors, all call sequences and allocators", "why_tests_cant": "all maps and keys; the undefined case may go unnoticed", "anchors": ["src/jstd/hashmap/robin16_hash_map.h:erase_slot", "src/jstd/hashmap/robin16_hash_map.h:find_and_erase"]}
{"id": "C116", "title": "robin16: destruction", "statement": "The destructor of a map destroys every element exactly once and nothing else.", "quantifier": "all key and value types, lawful hash and equality, both instruction sets, elements with and without destructors, all call sequences and allocators", "why_tests_cant": "all maps", "anchors": ["src/jstd/hashmap/robin16_hash_map.h:destroy", "src/jstd/hashmap/robin16_hash_map.h:destroy_slots"]}
{"id": "C117", "title": "robin16: structure of the slots", "statement": "The capacity is a power of two from 4; size() is the number of entries and at most the capacity; each used slot has an element whose position plus the stored distance is that slot, with its tag; behind each displaced element's slot, going backwards, is a used slot whose distance is at most one less; the first sixteen control words are repeated behind the last.", "quantifier": "all key and value types, lawful hash and equality, both instruction sets, elements with and without destructors, all call sequences and allocators", "why_tests_cant": "internal state", "anchors": ["src/jstd/hashmap/robin16_hash_map.h:insert_to_place", "src/jstd/hashmap/robin16_hash_map.h:setDistance", "src/jstd/hashmap/robin16_hash_map.h:create_group"]}
{"id": "C118", "title": "robin16: AVX2 and AVX-512 agree", "statement": "Every call, iteration and copying have the same result and lead to the same state with the masks of AVX2 (one bit per byte or two per word) and of AVX-512.", "quantifier": "all states, calls, allocators, hash functions", "why_tests_cant": "two machines would be needed, and all states", "anchors": ["src/jstd/hashmap/robin16_hash_map.h:matchHashAndDistance", "src/jstd/hashmap/robin16_hash_map.h:matchEmptyAndDistance", "src/jstd/hashmap/robin16_hash_map.h:matchUsed"]}
{"id": "C119", "title": "robin16: length of searches", "statement": "A lookup ends after at most 2 single control words and 8 groups of sixteen, an insertion's search after at most 4 and 8.", "quantifier": "all key and value types, lawful hash and equality, both instruction sets, elements with and without destructors, all call sequences and allocators", "why_tests_cant": "all maps and keys", "anchors": ["src/jstd/hashmap/robin16_hash_map.h:find_impl", "src/jstd/hashmap/robin16_hash_map.h:find_or_prepare_insert"]}
{"id": "C120", "title": "Move construction with an allocator keeps the elements", "statement": "After group15/group16 map(std::move(other), allocator) the new map has the elements of other, each once, with the same size(), and other is empty.", "quantifier": "all key and value types, lawful hash and equality, all call sequences and allocators before", "why_tests_cant": "sizes that lead to the same capacity, all states", "anchors": ["src/jstd/hashmap/group15_flat_table.hpp:group15_flat_table(group15_flat_table && other, allocator_type const & allocator)", "src/jstd/hashmap/group15_flat_table.hpp:fast_move_slots_from", "src/jstd/hashmap/group16_flat_table.hpp:fast_move_slots_from"]}
{"id": "C121", "title": "robin: insertions after reserve need no storage", "statement": "After reserve(n) of a robin hood map, insertions until n elements are there do not allocate, do not throw, and leave exactly the entries inserted.", "quantifier": "all key and value types, lawful hash and equality, all call sequences and allocators before, all lists of entries", "why_tests_cant": "all n, states and entries", "anchors": ["src/jstd/hashmap/robin_hash_map.h:reserve", "src/jstd/hashmap/robin_hash_map.h:rehash_impl", "src/jstd/hashmap/robin_hash_map.h:max_load_factor"]}
{"id": "C122", "title": "flat16: insertions after reserve need no storage", "statement": "After reserve(n) of a flat16 map, insertions until n elements are there do not allocate, do not throw, and leave exactly the entries inserted.", "quantifier": "all key and value types, lawful hash and equality, all call sequences and allocators before, all lists of entries", "why_tests_cant": "all n, states and entries", "anchors": ["src/jstd/hashmap/flat16_hash_map.h:reserve", "src/jstd/hashmap/flat16_hash_map.h:rehash_impl", "src/jstd/hashmap/flat16_hash_map.h:max_load_factor"]}
{"id": "C123", "title": "robin16: insertions after reserve need no storage", "statement": "After reserve(n) of a robin16 map, insertions until n elements are there do not allocate, do not throw, and leave exactly the entries inserted.", "quantifier": "all key and value types, lawful hash and equality, all call sequences and allocators before, all lists of entries", "why_tests_cant": "all n, states and entries", "anchors": ["src/jstd/hashmap/robin16_hash_map.h:reserve", "src/jstd/hashmap/robin16_hash_map.h:rehash_impl", "src/jstd/hashmap/robin16_hash_map.h:max_load_factor"]}
{"id": "C124", "title": "Integer decimal logarithm", "statement": "jm_log10_u32 and jm_log10_u64 return the greatest e with 10^e <= v (0 for v = 0), reading only inside their tables.", "quantifier": "all 32-bit and all 64-bit numbers", "why_tests_cant": "2^64 inputs; errors sit at the powers of ten and of two", "anchors": ["src/jstd/math/log10_int.h:jm_log10_u32", "src/jstd/math/log10_int.h:jm_log10_u64"]}
{"id": "C125", "title": "count_digits is the length of the numeral", "statement": "count_digits returns, for every integer type, the number of characters of the decimal numeral (with the sign).", "quantifier": "all numbers of every integer type", "why_tests_cant": "all values of the types", "anchors": ["src/jstd/string/formatter.h:count_digits"]}
{"id": "C126", "title": "itoa appends the numeral of 32-bit numbers", "statement": "itoa of an int or unsigned appends exactly the decimal numeral and returns its length, for strings of every character type.", "quantifier": "all numbers, all strings appended to, all character sizes", "why_tests_cant": "all values and characters of more than one byte", "anchors": ["src/jstd/string/formatter.h:itoa"]}
{"id": "C127", "title": "itoa appends the numeral of 64-bit numbers", "statement": "itoa of a 64-bit number appends exactly the decimal numeral and returns its length.", "quantifier": "all 64-bit numbers, all strings appended to", "why_tests_cant": "all values", "anchors": ["src/jstd/string/formatter.h:itoa"]}
{"id": "C128", "title": "to_hex gives the hexadecimal text", "statement": "to_hex and to_lower_hex return the two hexadecimal digits of a byte.", "quantifier": "all bytes", "why_tests_cant": "an oracle for the text is needed", "anchors": ["src/jstd/string/formatter.h:to_hex", "src/jstd/string/formatter.h:to_lower_hex"]}
{"id": "C129", "title": "sprintf_no_prepare prints what printf prints", "statement": "sprintf_no_prepare appends to the string the text that printf prints for the format and the arguments, and returns its length.", "quantifier": "all formats built from text, %%, %d and %u, all arguments, all strings appended to", "why_tests_cant": "all formats and arguments", "anchors": ["src/jstd/string/formatter.h:sprintf_no_prepare"]}
{"id": "C130", "title": "sprintf_direct sizes and prints what printf prints", "statement": "The length computed beforehand is the length of the text, and sprintf_direct appends exactly the text.", "quantifier": "all formats built from text, %%, %d and %u, all arguments, all strings appended to", "why_tests_cant": "all formats and arguments", "anchors": ["src/jstd/string/formatter.h:sprintf_calc_space", "src/jstd/string/formatter.h:sprintf_prepare_space", "src/jstd/string/formatter.h:sprintf_direct"]}
{"id": "C131", "title": "sprintf prints what printf prints", "statement": "sprintf appends to the string the text that printf prints.", "quantifier": "all formats and arguments, all strings appended to", "why_tests_cant": "all formats and arguments", "anchors": ["src/jstd/string/formatter.h:sprintf"]}
{"id": "C132", "title": "The generators give the Mersenne Twister sequence", "statement": "After construction or srand the k-th call of rand() returns the tempered term n + k of the sequence of MT19937, and no call reads outside the state array.", "quantifier": "all seeds and keys, all numbers of calls", "why_tests_cant": "all seeds; reads outside the array go unnoticed in a run", "anchors": ["src/jstd/system/MT19937_32.h:next_state", "src/jstd/system/MT19937_64.h:next_state", "src/jstd/system/MT19937_32.h:rand", "src/jstd/system/MT19937_32.h:srand"]}
{"id": "C133", "title": "Seeding gives the first terms", "statement": "init(seed) fills the state with the first n terms that the definition of the generator prescribes.", "quantifier": "all seeds", "why_tests_cant": "2^32 and 2^64 seeds", "anchors": ["src/jstd/system/MT19937_32.h:init", "src/jstd/system/MT19937_64.h:init"]}
{"id": "C134", "title": "The twist is that of the definition", "statement": "twist(u, v) joins the w - r upper bits of u with the r lower bits of v and multiplies by the matrix, with the documented r.", "quantifier": "all words u and v", "why_tests_cant": "2^64 and 2^128 pairs", "anchors": ["src/jstd/system/MT19937_32.h:mixbits", "src/jstd/system/MT19937_32.h:twist", "src/jstd/system/MT19937_64.h:mixbits", "src/jstd/system/MT19937_64.h:twist"]}
{"id": "C135", "title": "Tempering is a permutation", "statement": "The tempering in rand() is the documented one and maps the words one to one onto themselves.", "quantifier": "all words", "why_tests_cant": "2^64 words", "anchors": ["src/jstd/system/MT19937_32.h:rand", "src/jstd/system/MT19937_64.h:rand"]}
{"id": "C136", "title": "Seeding with keys", "statement": "init_keys reads and writes inside the arrays for every key list, and leaves a state of n words that is not zero.", "quantifier": "all seeds and key lists", "why_tests_cant": "all lengths of key lists", "anchors": ["src/jstd/system/MT19937_32.h:init_keys", "src/jstd/system/MT19937_64.h:init_keys"]}
{"id": "C137", "title": "Integers in a range", "statement": "nextInt32/64, nextUInt32/64, nextInt, nextUInt with bounds return a number between the bounds, and every number in between can be returned.", "quantifier": "all bounds, all random words, all widths", "why_tests_cant": "all bounds", "anchors": ["src/jstd/system/RandomGen.h:nextInteger", "src/jstd/system/RandomGen.h:nextInt"]}
{"id": "C138", "title": "Doubles with 53 bits", "statement": "nextDouble53() lies in [0, 1), and every multiple of 2^-53 in it can be returned.", "quantifier": "all pairs of random words", "why_tests_cant": "2^53 values", "anchors": ["src/jstd/system/RandomGen.h:nextDouble53"]}
{"id": "C139", "title": "Words from the C library are even", "statement": "LibcRand::rand32() returns every 32-bit word equally often when the draws of rand() are even.", "quantifier": "all draws, RAND_MAX 2^15 - 1, 2^16 - 1 and 2^31 - 1", "why_tests_cant": "RAND_MAX is fixed on a machine, 2^62 pairs", "anchors": ["src/jstd/system/LibcRand.h:rand32", "src/jstd/system/LibcRand.h:rand64"]}
{"id": "C140", "title": "A copy that throws is undone", "statement": "If the copy constructor of an element throws while a map is copied, the elements copied so far are destroyed, the memory is released and the exception reaches the caller.", "quantifier": "all reachable maps, all elements at which the constructor throws", "why_tests_cant": "tests use non-throwing element types; every position at which the exception may come", "anchors": ["src/jstd/hashmap/group15_flat_table.hpp:copy_slots_array_from", "src/jstd/hashmap/group16_flat_table.hpp:copy_slots_array_from", "src/jstd/hashmap/group15_flat_table.hpp:unique_insert", "src/jstd/hashmap/group16_flat_table.hpp:unique_insert"]}
{"id": "C141", "title": "A rehash that throws leaves the map usable", "statement": "If constructing an element throws while a map is rehashed, the map can still be destroyed and no element is lost.", "quantifier": "all reachable maps, all new capacities, all elements at which the constructor throws", "why_tests_cant": "tests use non-throwing element types; every position at which the exception may come", "anchors": ["src/jstd/hashmap/group15_flat_table.hpp:rehash_impl", "src/jstd/hashmap/group16_flat_table.hpp:rehash_impl", "src/jstd/hashmap/group15_flat_table.hpp:no_grow_unique_transfer_insert", "src/jstd/hashmap/group16_flat_table.hpp:no_grow_unique_transfer_insert"]}
{"id": "C142", "title": "A throwing constructor leaves the robin map usable", "statement": "If constructing the element throws during an insertion, the exception reaches the caller and the map holds what it held before and can be searched, changed, traversed and destroyed.", "quantifier": "all reachable maps, all absent keys, both ways of inserting, all behaviours of the allocator", "why_tests_cant": "tests use non-throwing element types", "anchors": ["src/jstd/hashmap/robin_hash_map.h:emplace_impl", "src/jstd/hashmap/robin_hash_map.h:insert_to_place"]}
{"id": "C143", "title": "A throwing constructor leaves the flat16 map usable", "statement": "If constructing the element throws during an insertion, the exception reaches the caller and the map holds what it held before and can be searched, changed, traversed and destroyed.", "quantifier": "all reachable maps, all absent keys, both ways of inserting, all behaviours of the allocator", "why_tests_cant": "tests use non-throwing element types", "anchors": ["src/jstd/hashmap/flat16_hash_map.h:emplace_impl"]}
{"id": "C144", "title": "A throwing constructor leaves the robin16 map usable", "statement": "If constructing the element throws during an insertion, the exception reaches the caller and the map holds what it held before and can be searched, changed, traversed and destroyed.", "quantifier": "all reachable maps, all absent keys, both ways of inserting, all behaviours of the allocator", "why_tests_cant": "tests use non-throwing element types", "anchors": ["src/jstd/hashmap/robin16_hash_map.h:emplace_impl", "src/jstd/hashmap/robin16_hash_map.h:insert_to_place"]}
{"id": "C145", "title": "robin_hash_map with indirect elements is a map while the keys are spread", "statement": "Every call returns what an abstract map returns, in the layout of robin_hash_map for large elements (kIsIndirectKV), as long as the home positions of the keys are spread (always with at most eleven entries), at most 2^32 entries, find only being called for present keys.", "quantifier": "all reachable maps, all sequences of calls, all allocator behaviours, all lawful hash functions", "why_tests_cant": "tests try few sequences and spread keys", "anchors": ["src/jstd/hashmap/robin_hash_map.h:indirect_find_and_insert", "src/jstd/hashmap/robin_hash_map.h:indirect_insert_to_place", "src/jstd/hashmap/robin_hash_map.h:find_and_erase", "src/jstd/hashmap/robin_hash_map.h:rehash_impl"]}
{"id": "C146", "title": "find of an absent key returns end() in the indirect layout", "statement": "find returns end() exactly if the key is absent, in the layout of robin_hash_map for large elements (kIsIndirectKV).", "quantifier": "all reachable maps, all keys", "why_tests_cant": "one test shows it for one map; that it holds for no map at all is beyond tests", "anchors": ["src/jstd/hashmap/robin_hash_map.h:find", "src/jstd/hashmap/robin_hash_map.h:end"]}
{"id": "C147", "title": "A copy has the same entries in the indirect layout", "statement": "The copy constructor returns a map with the same entries, in the layout of robin_hash_map for large elements (kIsIndirectKV).", "quantifier": "all reachable maps, all allocator behaviours", "why_tests_cant": "undefined behaviour may look like success", "anchors": ["src/jstd/hashmap/robin_hash_map.h:unique_insert"]}
{"id": "C148", "title": "Colliding keys do no harm in the indirect layout", "statement": "Whatever the hash function, insertions stay inside the arrays, erase removes the key that it is given and no other, in the layout of robin_hash_map for large elements (kIsIndirectKV).", "quantifier": "all hash functions, all sequences of calls", "why_tests_cant": "needs keys chosen to collide", "anchors": ["src/jstd/hashmap/robin_hash_map.h:indirect_find_and_insert", "src/jstd/hashmap/robin_hash_map.h:find_and_erase"]}
{"id": "C149", "title": "The order of iteration in the indirect layout", "statement": "Iteration follows the order of insertion, except that erase puts the last entry into the place of the erased one; growing, shrinking and assigning do not change the order, in the layout of robin_hash_map for large elements (kIsIndirectKV).", "quantifier": "all reachable maps, all calls", "why_tests_cant": "tests look at few orders", "anchors": ["src/jstd/hashmap/robin_hash_map.h:begin", "src/jstd/hashmap/robin_hash_map.h:erase_slot", "src/jstd/hashmap/robin_hash_map.h:indirect_find_and_insert", "src/jstd/hashmap/robin_hash_map.h:rehash_impl"]}
{"id": "C150", "title": "Failed growth in the indirect layout", "statement": "A call that throws because memory is refused leaves the map as it was, and usable, in the layout of robin_hash_map for large elements (kIsIndirectKV).", "quantifier": "all reachable maps, all calls, all allocator behaviours", "why_tests_cant": "tests do not refuse memory", "anchors": ["src/jstd/hashmap/robin_hash_map.h:create_slots", "src/jstd/hashmap/robin_hash_map.h:clear"]}
{"id": "C151", "title": "Move construction in the indirect layout", "statement": "The new map has the entries of the old one and works; the old one is empty and can be used again, in the layout of robin_hash_map for large elements (kIsIndirectKV).", "quantifier": "all reachable maps", "why_tests_cant": "writes to a constant array may go unnoticed", "anchors": ["src/jstd/hashmap/robin_hash_map.h:robin_hash_map", "src/jstd/hashmap/robin_hash_map.h:swap_content"]}
{"id": "C152", "title": "swap in the indirect layout", "statement": "swap exchanges the entries of two maps and both keep working, in the layout of robin_hash_map for large elements (kIsIndirectKV), find only being called for present keys.", "quantifier": "all pairs of reachable maps, all later sequences of calls", "why_tests_cant": "tests swap few pairs", "anchors": ["src/jstd/hashmap/robin_hash_map.h:swap_content"]}
{"id": "C153", "title": "Extraction and insertion of words in AVX registers", "statement": "mm256_extract_epiN returns the word with the given index, mm256_insert_epiN replaces it and changes no other byte, for 16, 32 and 64 bits, with AVX and with AVX2.", "quantifier": "all vectors, all indexes, all values, all contents of undefined bytes", "why_tests_cant": "2^256 vectors; only one of the branches is compiled", "anchors": ["src/jstd/support/BitVec.h:mm256_extract_epi16", "src/jstd/support/BitVec.h:mm256_extract_epi32", "src/jstd/support/BitVec.h:mm256_insert_epi16", "src/jstd/support/BitVec.h:mm256_insert_epi32", "src/jstd/support/BitVec.h:mm256_insert_epi64"]}
{"id": "C154", "title": "Halves of the lowest 32 bits", "statement": "The functions for the lower and upper half of the lowest 32 bits of a vector return these sixteen bits, and mm_set1_epi32/64 repeat their argument.", "quantifier": "all vectors, all numbers", "why_tests_cant": "depends on the sign bit of one word", "anchors": ["src/jstd/support/BitVec.h:mm_cvtsi128_si32_high", "src/jstd/support/BitVec.h:mm256_cvtsi256_si32_high", "src/jstd/support/BitVec.h:mm_set1_epi32"]}
{"id": "C155", "title": "Comparison of signed bytes where char is unsigned", "statement": "_mm_cmpgt_epi8_fixed and _mm_cmplt_epi8_fixed are the comparisons of signed bytes, in each of sixteen places.", "quantifier": "all pairs of vectors", "why_tests_cant": "2^256 pairs, and a compiler option selects the code", "anchors": ["src/jstd/support/BitVec.h:_mm_cmpgt_epi8_fixed", "src/jstd/support/BitVec.h:_mm_cmplt_epi8_fixed"]}
{"id": "C156", "title": "string_helper puts the characters back", "statement": "truncate writes a terminator behind the string and nothing else, recover, detach and the destructor restore the character, whatever happens to the other characters; also with several helpers on one buffer, and with copies of helpers.", "quantifier": "all buffers, all views, all numbers of helpers, all writes in between", "why_tests_cant": "overlapping helpers and their orders are many", "anchors": ["src/jstd/string/string_helper.h:truncate", "src/jstd/string/string_helper.h:recover", "src/jstd/string/string_helper.h:detach"]}
{"id": "C157", "title": "string_view_array owns its elements", "statement": "The destructor deletes every element that was added exactly once.", "quantifier": "all sequences of push_back, pop_back, clear and resize", "why_tests_cant": "leaks do not show in results", "anchors": ["src/jstd/string/string_view_array.h:destroy", "src/jstd/string/string_view_array.h:push_back", "src/jstd/string/string_view_array.h:clear", "src/jstd/string/string_view_array.h:resize"]}
{"id": "C158", "title": "Bucket sizes add up to the size", "statement": "The sum of bucket_size(n) for n below bucket_count() is size(), for the group15 and group16 maps.", "quantifier": "all reachable maps", "why_tests_cant": "tests do not call the bucket interface", "anchors": ["src/jstd/hashmap/group15_flat_table.hpp:bucket_size", "src/jstd/hashmap/group16_flat_table.hpp:bucket_size", "src/jstd/hashmap/group16_flat_table.hpp:bucket_count"]}
{"id": "C159", "title": "Counts of the hash map analyzer", "statement": "The total is the size of the container, used buckets are those with one element and those with more, there are at most as many as elements and the number of the others does not wrap, the maximum is the largest bucket size.", "quantifier": "all containers", "why_tests_cant": "wrapping shows for some sizes only", "anchors": ["src/jstd/hashmap/hashmap_analyzer.h:read_bucket_sizes", "src/jstd/hashmap/hashmap_analyzer.h:calc_usage_count", "src/jstd/hashmap/hashmap_analyzer.h:calc_unused_rate", "src/jstd/hashmap/hashmap_analyzer.h:get_max_bucket_count"]}
{"id": "C160", "title": "Templates for powers of two", "statement": "Both families of compile-time templates round a number to the right power of two for every 64-bit argument, and the alignments that are computed with them are powers of two that cover the size and are multiples of the alignment of the type.", "quantifier": "all 64-bit numbers, all sizes and alignments", "why_tests_cant": "each argument is another instantiation of the templates", "anchors": ["src/jstd/support/Power2.h:round_up_pow2", "src/jstd/support/Power2.h:round_to_pow2", "src/jstd/support/Power2.h:round_down_pow2", "src/jstd/support/Power2.h:next_pow2", "src/jstd/support/Power2.h:round_up_power2", "src/jstd/support/Power2.h:round_to_power2", "src/jstd/support/Power2.h:next_power2"]}
{"id": "C161", "title": "Templates that count zeros", "statement": "countLeadingZeros<N> and countTrailingZeros<N> count the leading and trailing zeros of N. (Refuted for trailing zeros.)", "quantifier": "all 64-bit numbers", "why_tests_cant": "each argument is another instantiation of the templates", "anchors": ["src/jstd/support/Power2.h:countLeadingZeros", "src/jstd/support/Power2.h:countTrailingZeros"]}
{"id": "C162", "title": "Rounding and bit functions for narrow types", "statement": "The functions of namespace pow2 give the right powers of two, logarithms and counts of zeros for 8, 16 and 32 bit types. (Refuted for the logarithm of large numbers and for leading zeros of 8 and 16 bit types.)", "quantifier": "all numbers of the three widths", "why_tests_cant": "2^32 numbers, and wrong only near the largest", "anchors": ["src/jstd/support/Power2.h:round_up", "src/jstd/support/Power2.h:next_pow2", "src/jstd/support/Power2.h:prev_pow2", "src/jstd/support/Power2.h:log2_int", "src/jstd/support/Power2.h:countLeadingZeros"]}
{"id": "C163", "title": "Space is proportional to the size while nothing is erased", "statement": "A group15 or group16 map that has only been added to has a capacity between 8/7 and 16/7 of its size (or the smallest one), and the capacity is determined by the size.", "quantifier": "all sequences of insertions and look-ups on a new map, all keys, all failures of the allocator", "why_tests_cant": "tests look at content, not at capacity", "anchors": ["src/jstd/hashmap/group15_flat_table.hpp:grow_if_necessary", "src/jstd/hashmap/group16_flat_table.hpp:grow_if_necessary", "src/jstd/hashmap/group15_flat_table.hpp:calc_slot_threshold", "src/jstd/hashmap/group16_flat_table.hpp:calc_slot_threshold"]}
{"id": "C164", "title": "Growth is amortised", "statement": "While nothing is erased, a group15 or group16 map with n entries has been reallocated at most log2(n) + 1 times and has moved at most 2n elements.", "quantifier": "all sequences of insertions and look-ups on a new map, all keys, all failures of the allocator", "why_tests_cant": "a sum over all earlier calls", "anchors": ["src/jstd/hashmap/group15_flat_table.hpp:need_grow", "src/jstd/hashmap/group16_flat_table.hpp:need_grow", "src/jstd/hashmap/group15_flat_table.hpp:rehash_impl", "src/jstd/hashmap/group16_flat_table.hpp:rehash_impl"]}
{"id": "C165", "title": "Different integers have different hashes", "statement": "hash_helper gives different integers different hashes, and hash_traits::filter never returns the invalid hash. (Refuted for types of 64 bits: only the low 32 bits are kept.)", "quantifier": "all integers of all integral types", "why_tests_cant": "2^64 numbers", "anchors": ["src/jstd/hasher/hash_helper.h:getHashCode", "src/jstd/hasher/hash_helper.h:filter"]}
{"id": "C166", "title": "A string has one hash", "statement": "hash_helper gives the same hash whether a string is given by pointer, by pointer and length, or as std::string or view. (Refuted for the empty string with the CRC function.)", "quantifier": "all character types, hash functions and strings, whatever follows in memory", "why_tests_cant": "all strings", "anchors": ["src/jstd/hasher/hash_helper.h:getHashCode", "src/jstd/string/string_libc.h:StrLen"]}
{"id": "C167", "title": "Insertions leave lvalue arguments alone", "statement": "An insertion moves from its arguments only if they are rvalues and are stored. (Refuted: emplace of a pair and insert_or_assign with a converted key move from lvalues.)", "quantifier": "all maps, keys, values, categories of arguments, element types and allocators", "why_tests_cant": "tests use numbers, which are not changed by a move", "anchors": ["src/jstd/hashmap/group15_flat_table.hpp:emplace_impl", "src/jstd/hashmap/group16_flat_table.hpp:emplace_impl", "src/jstd/hashmap/group15_flat_map.hpp:insert_or_assign"]}
{"id": "C168", "title": "Range insertion inserts the range and leaves it alone", "statement": "insert(first, last) inserts the elements of the range and no others, and does not change them. (Refuted for iterators that are not const; the exact result is proved.)", "quantifier": "all maps, ranges and element types", "why_tests_cant": "tests use numbers and const ranges", "anchors": ["src/jstd/hashmap/group15_flat_map.hpp:insert", "src/jstd/hashmap/group16_flat_map.hpp:insert", "src/jstd/hashmap/group15_flat_table.hpp:insert"]}
{"id": "C169", "title": "Inserting from another map leaves that map alone", "statement": "insert(other.begin(), other.end()) does not change the other map. (Refuted: its first value is moved from.)", "quantifier": "all pairs of maps and element types", "why_tests_cant": "tests use numbers", "anchors": ["src/jstd/hashmap/group15_flat_map.hpp:insert", "src/jstd/hashmap/group15_flat_table.hpp:emplace_impl"]}
{"id": "C170", "title": "Arguments may refer to elements of the map", "statement": "Inserting a mapped value that is in the map gives the same result as inserting a copy of it. (Refuted exactly when the insertion grows the map.)", "quantifier": "all maps, keys, elements and allocators", "why_tests_cant": "needs a map that is exactly full", "anchors": ["src/jstd/hashmap/group15_flat_table.hpp:emplace_impl", "src/jstd/hashmap/group15_flat_table.hpp:find_or_insert", "src/jstd/hashmap/group16_flat_table.hpp:emplace_impl"]}
{"id": "C171", "title": "Assigning a list gives the map of the list", "statement": "operator = (initializer_list) gives the map the elements of the list. (Refuted: only the first one; undefined for group15 maps without storage.)", "quantifier": "all maps and lists", "why_tests_cant": "all states of the map", "anchors": ["src/jstd/hashmap/group15_flat_map.hpp:insert", "src/jstd/hashmap/group15_flat_table.hpp:clear"]}
{"id": "C172", "title": "The load factor stays within the maximum load factor", "statement": "load_factor() <= max_load_factor() after every sequence of calls. (Refuted for the smallest maps, for group16 maps after erasures, after a failed max_load_factor, and by one element for group15 maps.)", "quantifier": "all sequences of calls, maximum load factors and allocators", "why_tests_cant": "needs maps filled to their limit", "anchors": ["src/jstd/hashmap/group15_flat_table.hpp:load_factor", "src/jstd/hashmap/group16_flat_table.hpp:load_factor", "src/jstd/hashmap/group15_flat_table.hpp:max_load_factor"]}
{"id": "C173", "title": "A throwing hasher leaves the map unchanged", "statement": "If the hasher throws during an insertion, a rehash or a copy, the map keeps its elements, nothing is leaked and the map can be used. (Refuted for growing maps: elements not yet hashed are lost; the rest remains a correct map.)", "quantifier": "all maps, keys, allocators and numbers of hasher calls before the exception", "why_tests_cant": "needs a hasher that throws at a chosen call", "anchors": ["src/jstd/hashmap/group15_flat_table.hpp:rehash_impl", "src/jstd/hashmap/group15_flat_table.hpp:no_grow_unique_transfer_insert", "src/jstd/hashmap/group15_flat_table.hpp:find_or_insert", "src/jstd/hashmap/group15_flat_table.hpp:copy_slots_from", "src/jstd/hashmap/group16_flat_table.hpp:rehash_impl", "src/jstd/hashmap/group16_flat_table.hpp:find_or_insert"]}
{"id": "C174", "title": "emplace through a temporary slot is defined", "statement": "emplace with arguments that are neither pair nor key destroys its temporary element exactly once. (Refuted: twice after an insertion, never after an exception.)", "quantifier": "all maps, keys and allocators", "why_tests_cant": "only an allocator with its own construct() selects the overload", "anchors": ["src/jstd/hashmap/group15_flat_table.hpp:emplace_impl", "src/jstd/hashmap/group16_flat_table.hpp:emplace_impl", "src/jstd/hashmap/map_slot_policy.h:transfer"]}
{"id": "C175", "title": "Elements with destructors in a robin map live and die once", "statement": "In a robin_hash_map with in-place elements that have destructors, no call uses an element outside its lifetime, constructs one over another or loses one, and the destructor of the map destroys each element exactly once. (Refuted for crowded keys: a displacement that finds no place destroys an element that stays marked as used.)", "quantifier": "all sequences of calls, hashes, allocators and the type traits that the code tests", "why_tests_cant": "use after destruction needs a particular crowding of keys and is silent without a sanitizer", "anchors": ["src/jstd/hashmap/robin_hash_map.h:insert_to_place", "src/jstd/hashmap/robin_hash_map.h:emplace_rich_slot", "src/jstd/hashmap/robin_hash_map.h:erase_slot", "src/jstd/hashmap/robin_hash_map.h:clear_slots", "src/jstd/hashmap/robin_hash_map.h:rehash_impl", "src/jstd/hashmap/robin_hash_map.h:swap_slot", "src/jstd/hashmap/robin_hash_map.h:exchange_slot", "src/jstd/hashmap/map_slot_policy.h:transfer", "src/jstd/hashmap/map_slot_policy.h:exchange"]}
{"id": "C176", "title": "The spare slot of a displacement is constructed and destroyed once", "statement": "insert_to_place of robin_hash_map constructs and destroys the object in its spare slot exactly once each, for every type that uses it. (Refuted: the first exchange constructs over the live spare object.)", "quantifier": "all types for which construct_empty_slot constructs an object", "why_tests_cant": "needs a layout policy and an element type of more than 16 bytes without member swap", "anchors": ["src/jstd/hashmap/robin_hash_map.h:construct_empty_slot", "src/jstd/hashmap/robin_hash_map.h:destroy_empty_slot", "src/jstd/hashmap/robin_hash_map.h:insert_to_place", "src/jstd/hashmap/map_slot_policy.h:exchange"]}
{"id": "C177", "title": "emplace through a temporary element destroys it", "statement": "emplace of robin_hash_map through a temporary element inserts what emplace inserts and destroys the temporary. (Refuted for crowded keys: the temporary is left undestroyed when no place is found.)", "quantifier": "all maps with indirect elements, keys, values and allocators", "why_tests_cant": "only a leak checker would notice, and only for crowded keys", "anchors": ["src/jstd/hashmap/robin_hash_map.h:emplace_impl", "src/jstd/hashmap/robin_hash_map.h:find_and_insert", "src/jstd/hashmap/robin_hash_map.h:indirect_insert_to_place"]}
{"id": "C178", "title": "FNV1A hashes of a key do not depend on the build", "statement": "FNV1A_Yoshimitsu_TRIADii_xmm and FNV1A_penumbra give the same hash for the same bytes whichever instruction-set macros the file is compiled with. (Refuted from 96 and 192 bytes on: the three versions disagree pairwise.)", "quantifier": "all keys and all pairs of builds", "why_tests_cant": "needs the same key hashed by two differently compiled programs", "anchors": ["src/jstd/hasher/fnv1a.h:FNV1A_Yoshimitsu_TRIADii_xmm", "src/jstd/hasher/fnv1a.h:FNV1A_penumbra"]}
{"id": "C179", "title": "robin_hash_map returns its storage once and with its size", "statement": "Every block that robin_hash_map obtains from its two allocators is returned exactly once, to the allocator it came from and with the number of objects it was obtained with, by the end of the destructor. (Refuted when a request is refused: the controls leak, or the slots are returned with the size of the table that was not made.)", "quantifier": "all sequences of calls, hashes, equalities and answers of the allocators", "why_tests_cant": "sized deallocation with a wrong size is silent with malloc, and needs a failing allocation", "anchors": ["src/jstd/hashmap/robin_hash_map.h:create_slots", "src/jstd/hashmap/robin_hash_map.h:rehash_impl", "src/jstd/hashmap/robin_hash_map.h:destroy_data", "src/jstd/hashmap/robin_hash_map.h:clear", "src/jstd/hashmap/robin_hash_map.h:max_load_factor"]}
{"id": "C180", "title": "flat16_hash_map returns its storage once and with its size", "statement": "Every block that flat16_hash_map obtains from operator new[] and its slot allocator is returned exactly once, slots with the number they were obtained with, by the end of the destructor. (Refuted when the slots are refused: the groups of the constructor, and the old groups in a rehash, are lost.)", "quantifier": "all sequences of calls, hashes, equalities, second hashes and answers of the allocators", "why_tests_cant": "needs an allocation that fails between two others", "anchors": ["src/jstd/hashmap/flat16_hash_map.h:create_group", "src/jstd/hashmap/flat16_hash_map.h:rehash_impl", "src/jstd/hashmap/flat16_hash_map.h:destroy", "src/jstd/hashmap/flat16_hash_map.h:clear", "src/jstd/hashmap/flat16_hash_map.h:reorder_or_grow_if_necessary"]}
{"id": "C181", "title": "robin16_hash_map returns its storage once and with its size", "statement": "Every block that robin16_hash_map obtains from operator new[] and its slot allocator is returned exactly once, slots with the number they were obtained with, by the end of the destructor. (Refuted when the slots are refused: the groups of the constructor, and the old groups in a rehash, are lost.)", "quantifier": "all sequences of calls, hashes, equalities, both scans and answers of the allocators", "why_tests_cant": "needs an allocation that fails between two others", "anchors": ["src/jstd/hashmap/robin16_hash_map.h:create_group", "src/jstd/hashmap/robin16_hash_map.h:rehash_impl", "src/jstd/hashmap/robin16_hash_map.h:destroy", "src/jstd/hashmap/robin16_hash_map.h:clear", "src/jstd/hashmap/robin16_hash_map.h:grow_if_necessary"]}
{"id": "C182", "title": "An exception of the hasher leaves a robin_hash_map as it was", "statement": "If the hasher throws during an insertion into robin_hash_map or during rehash(), the map keeps its elements. (Refuted while elements are moved: the map keeps those that were hashed before the exception and loses the others.)", "quantifier": "all reachable maps, keys, hashes and equalities, and every call of the hasher that may throw", "why_tests_cant": "needs a hasher that throws in the middle of a rehash", "anchors": ["src/jstd/hashmap/robin_hash_map.h:get_hash", "src/jstd/hashmap/robin_hash_map.h:rehash_impl", "src/jstd/hashmap/robin_hash_map.h:insert_no_grow", "src/jstd/hashmap/robin_hash_map.h:emplace_impl", "src/jstd/hashmap/robin_hash_map.h:grow_if_necessary"]}
{"id": "C183", "title": "An exception of the hasher reaches the caller of flat16_hash_map", "statement": "If the hasher throws during an insertion into flat16_hash_map or during rehash(), the caller can catch the exception. (Refuted: get_hash is noexcept, so that the program is ended.)", "quantifier": "all reachable maps, keys, hashes and equalities, and every call of the hasher that may throw", "why_tests_cant": "needs a hasher that throws; the number of calls depends on the growth of the map", "anchors": ["src/jstd/hashmap/flat16_hash_map.h:get_hash", "src/jstd/hashmap/flat16_hash_map.h:rehash_impl", "src/jstd/hashmap/flat16_hash_map.h:find_and_prepare_insert", "src/jstd/hashmap/flat16_hash_map.h:move_insert_unique", "src/jstd/hashmap/flat16_hash_map.h:reorder_or_grow_if_necessary"]}
{"id": "C184", "title": "An exception of the hasher reaches the caller of robin16_hash_map", "statement": "If the hasher throws during an insertion into robin16_hash_map or during rehash(), the caller can catch the exception. (Refuted: get_hash is noexcept, so that the program is ended.)", "quantifier": "all reachable maps, keys, hashes and equalities, both scans, and every call of the hasher that may throw", "why_tests_cant": "needs a hasher that throws; the number of calls depends on the growth of the map", "anchors": ["src/jstd/hashmap/robin16_hash_map.h:get_hash", "src/jstd/hashmap/robin16_hash_map.h:rehash_impl", "src/jstd/hashmap/robin16_hash_map.h:find_or_prepare_insert", "src/jstd/hashmap/robin16_hash_map.h:move_insert_unique", "src/jstd/hashmap/robin16_hash_map.h:grow_if_necessary"]}
{"id": "C185", "title": "A group15 map stays sound whatever its key equality answers", "statement": "Whatever the key equality of a group15 map answers (it need not be reflexive, transitive or consistent from one comparison to the next, and may throw), every call without shrink_to_fit() returns or throws, memory is not misused, and results, size and iteration are those of a bag of entries: an insertion adds the entry or returns one that the key equality has said equal, an erasure removes one that it has said equal.", "quantifier": "all hash functions into 64 bits, all sequences of calls, all answers of the key equality and of sane allocators", "why_tests_cant": "needs every function of the history of comparisons in place of an equality", "anchors": ["src/jstd/hashmap/group15_flat_table.hpp:find_impl", "src/jstd/hashmap/group15_flat_table.hpp:find_or_insert", "src/jstd/hashmap/group15_flat_table.hpp:emplace_impl", "src/jstd/hashmap/group15_flat_table.hpp:find_and_erase", "src/jstd/hashmap/group15_flat_table.hpp:find"]}
{"id": "C186", "title": "No key equality corrupts a group15 or group16 map", "statement": "As C185, for group15 and group16 maps and with shrink_to_fit() where a map with a lawful equality supports it: memory is not misused, and whenever the calls end their results, size and iteration are those of a bag of entries.", "quantifier": "both kinds, all hash functions into 64 bits, all sequences of calls, all answers of the key equality and of sane allocators", "why_tests_cant": "needs every function of the history of comparisons in place of an equality", "anchors": ["src/jstd/hashmap/group16_flat_table.hpp:find_index", "src/jstd/hashmap/group16_flat_table.hpp:find_or_insert", "src/jstd/hashmap/group16_flat_table.hpp:emplace_impl", "src/jstd/hashmap/group16_flat_table.hpp:find_and_erase", "src/jstd/hashmap/group15_flat_table.hpp:find_impl"]}
{"id": "C187", "title": "An exception of the key equality leaves the map as it was", "statement": "If a comparison of keys throws during an insertion, erasure or look-up in a group15 or group16 map, the map is unchanged; an erasure or look-up throws only if a comparison does.", "quantifier": "both kinds, all maps reached by calls with any answers, all calls", "why_tests_cant": "needs an exception at every comparison of every search", "anchors": ["src/jstd/hashmap/group15_flat_table.hpp:find_impl", "src/jstd/hashmap/group15_flat_table.hpp:find_or_insert", "src/jstd/hashmap/group15_flat_table.hpp:find_and_erase", "src/jstd/hashmap/group16_flat_table.hpp:find_index", "src/jstd/hashmap/group16_flat_table.hpp:find_or_insert", "src/jstd/hashmap/group16_flat_table.hpp:find_and_erase"]}
{"id": "C188", "title": "A search compares no element twice", "statement": "A search in a group15 or group16 map ends, compares the key only with stored keys that have its control byte, and with each stored element at most once, whatever the key equality answers.", "quantifier": "both kinds, all maps reached by calls with any answers, all keys, all answers", "why_tests_cant": "the comparisons are not visible to a test, and depend on collisions", "anchors": ["src/jstd/hashmap/group15_flat_table.hpp:find_impl", "src/jstd/hashmap/group16_flat_table.hpp:find_index"]}
{"id": "C189", "title": "A flat16 map stays sound whatever its key equality answers", "statement": "Whatever the key equality of a flat16 map answers (it need not be reflexive, transitive or consistent from one comparison to the next, and may throw), calls that a client of a lawful map may make end, memory is not misused, and results, size and iteration are those of a bag of entries: an insertion adds the entry or returns one that the key equality has said equal, an erasure removes one that it has said equal.", "quantifier": "all hash functions and second hashes, all sequences of calls that meet the conditions on a flat16 client, all answers of the key equality and of sane allocators", "why_tests_cant": "needs every function of the history of comparisons in place of an equality", "anchors": ["src/jstd/hashmap/flat16_hash_map.h:find_impl", "src/jstd/hashmap/flat16_hash_map.h:find_and_prepare_insert", "src/jstd/hashmap/flat16_hash_map.h:emplace_impl", "src/jstd/hashmap/flat16_hash_map.h:find_and_erase"]}
{"id": "C190", "title": "An exception of the key equality leaves a flat16 map as it was", "statement": "If a comparison of keys throws during an insertion, erasure or look-up in a flat16 map, the map is unchanged.", "quantifier": "all maps reached by calls with any answers, all calls", "why_tests_cant": "needs an exception at every comparison of every search, also those made after growing", "anchors": ["src/jstd/hashmap/flat16_hash_map.h:find_and_prepare_insert", "src/jstd/hashmap/flat16_hash_map.h:find_and_erase", "src/jstd/hashmap/flat16_hash_map.h:find_impl"]}
{"id": "C191", "title": "A search in a flat16 map compares no element twice", "statement": "A search in a flat16 map compares the key only with stored keys that have its control byte, and with each stored element at most once, whatever the key equality answers.", "quantifier": "all maps reached by calls with any answers, all keys, all answers", "why_tests_cant": "the comparisons are not visible to a test, and depend on collisions in maps of four or eight slots", "anchors": ["src/jstd/hashmap/flat16_hash_map.h:find_impl"]}
{"id": "C192", "title": "The robin hood map stays sound whatever its key equality answers", "statement": "Whatever the key equality of a robin hood map answers (it need not be reflexive, transitive or consistent from one comparison to the next, and may throw), calls that a client of a lawful map may make end, memory is not misused, and results, size and iteration are those of a bag of entries: an insertion adds the entry or returns one that the key equality has said equal, an erasure removes one that it has said equal.", "quantifier": "all hash functions, all sequences of calls that meet the conditions on a robin hood client, all answers of the key equality and of sane allocators", "why_tests_cant": "needs every function of the history of comparisons in place of an equality", "anchors": ["src/jstd/hashmap/robin_hash_map.h:find_impl", "src/jstd/hashmap/robin_hash_map.h:find_and_insert", "src/jstd/hashmap/robin_hash_map.h:find_and_erase"]}
{"id": "C193", "title": "An exception of the key equality leaves a robin hood map as it was", "statement": "If a comparison of keys throws during an insertion, erasure or look-up in a robin hood map, the map is unchanged, its capacity included.", "quantifier": "all maps reached by calls with any answers, all calls", "why_tests_cant": "needs an exception at every comparison of every search", "anchors": ["src/jstd/hashmap/robin_hash_map.h:find_and_insert", "src/jstd/hashmap/robin_hash_map.h:find_and_erase", "src/jstd/hashmap/robin_hash_map.h:find_impl"]}
{"id": "C194", "title": "A search in a robin hood map compares no element twice", "statement": "A search in a robin hood map compares the key with each stored element at most once, with at most one more element than there are positions behind the last home position, and only with elements whose home is not behind that of the key, whatever the key equality answers.", "quantifier": "all maps reached by calls with any answers, all keys, all answers", "why_tests_cant": "the comparisons are not visible to a test, and the bound must hold for every arrangement of homes", "anchors": ["src/jstd/hashmap/robin_hash_map.h:find_impl"]}
{"id": "C195", "title": "The robin16 map stays sound whatever its key equality answers", "statement": "Whatever the key equality of a robin16 map answers (it need not be reflexive, transitive or consistent from one comparison to the next, and may throw), calls that a client of a lawful map may make end, memory is not misused, and results, size and iteration are those of a bag of entries: an insertion adds the entry or returns one that the key equality has said equal, an erasure removes one that it has said equal.", "quantifier": "all hash functions, both instruction sets, all sequences of calls that meet the conditions on a robin16 client, all answers of the key equality and of sane allocators", "why_tests_cant": "needs every function of the history of comparisons in place of an equality", "anchors": ["src/jstd/hashmap/robin16_hash_map.h:find_impl", "src/jstd/hashmap/robin16_hash_map.h:find_or_prepare_insert", "src/jstd/hashmap/robin16_hash_map.h:find_and_erase"]}
{"id": "C196", "title": "An exception of the key equality leaves a robin16 map as it was", "statement": "If a comparison of keys throws during an insertion, erasure or look-up in a robin16 map, the map is unchanged, its capacity included.", "quantifier": "all maps reached by calls with any answers, all calls", "why_tests_cant": "needs an exception at every comparison of every search, also of the one after growing", "anchors": ["src/jstd/hashmap/robin16_hash_map.h:find_or_prepare_insert", "src/jstd/hashmap/robin16_hash_map.h:find_and_erase", "src/jstd/hashmap/robin16_hash_map.h:find_impl"]}
{"id": "C197", "title": "A search in a robin16 map compares no element twice", "statement": "A search in a robin16 map compares the key with each stored element at most once, with at most 129 elements, and only with elements that have the control byte of the key, whatever the key equality answers.", "quantifier": "all maps reached by calls with any answers, all keys, all answers, both instruction sets", "why_tests_cant": "the comparisons are not visible to a test, and the bound must hold for every arrangement of positions", "anchors": ["src/jstd/hashmap/robin16_hash_map.h:find_impl", "src/jstd/hashmap/robin16_hash_map.h:find_or_prepare_insert"]}
{"id": "C198", "title": "The copy of a flat16 map is the same map", "statement": "The copy of a flat16 map finds the keys that the original finds, and its keys are different, also when its hasher or key equality is not the default-constructed one.", "quantifier": "all pairs of lawful hashers and key equalities of the original and default-constructed ones, all reachable maps, all sane allocators, all later calls", "why_tests_cant": "tests use stateless function objects, for which the default-constructed one is the same", "anchors": ["src/jstd/hashmap/flat16_hash_map.h:flat16_hash_map", "src/jstd/hashmap/flat16_hash_map.h:hash_function"]}
{"id": "C199", "title": "The copy of a robin16 map is the same map", "statement": "The copy of a robin16 map finds the keys that the original finds, and its keys are different, also when its hasher or key equality is not the default-constructed one.", "quantifier": "all pairs of lawful hashers and key equalities of the original and default-constructed ones, both instruction sets, all reachable maps, all sane allocators, all later calls", "why_tests_cant": "tests use stateless function objects, for which the default-constructed one is the same", "anchors": ["src/jstd/hashmap/robin16_hash_map.h:robin16_hash_map", "src/jstd/hashmap/robin16_hash_map.h:hash_function"]}
{"id": "C200", "title": "Copies, moves and swaps carry the function objects along", "statement": "The copy of a robin map, a moved-to robin or robin16 map, swapped robin16 maps, and group15 and group16 maps after copy assignment, move assignment and swap hold the hasher and the key equality of the map that their elements come from, and are maps for these.", "quantifier": "all hashers and key equalities on both sides, all reachable maps, all sane allocators", "why_tests_cant": "needs function objects that differ between two maps of the same type", "anchors": ["src/jstd/hashmap/robin_hash_map.h:robin_hash_map", "src/jstd/hashmap/robin16_hash_map.h:swap_policy", "src/jstd/hashmap/group15_flat_table.hpp:swap_policy", "src/jstd/hashmap/group15_flat_table.hpp:move_assign", "src/jstd/hashmap/group16_flat_table.hpp:swap_policy"]}
{"id": "C201", "title": "bucket() of a present key is below bucket_count()", "statement": "For every key that is present in a flat16, robin16 or robin map, bucket(key) < bucket_count().", "quantifier": "all lawful hash functions, all reachable maps, all keys", "why_tests_cant": "no test calls bucket(), and small maps hide the fault", "anchors": ["src/jstd/hashmap/flat16_hash_map.h:bucket", "src/jstd/hashmap/robin16_hash_map.h:bucket", "src/jstd/hashmap/robin_hash_map.h:bucket", "src/jstd/hashmap/robin_hash_map.h:bucket_count"]}
{"id": "C202", "title": "robin16: at() and count() agree with the map", "statement": "at(k) of a robin16 map returns the value of the entry with a key equal to k and throws out_of_range exactly when there is none; count(k) is the number of such entries.", "quantifier": "all lawful hash functions, both instruction sets, all maps reached under the conditions of C110, all keys", "why_tests_cant": "needs every arrangement of displaced elements for a key that is absent", "anchors": ["src/jstd/hashmap/robin16_hash_map.h:at", "src/jstd/hashmap/robin16_hash_map.h:count"]}
{"id": "C203", "title": "flat16, robin16: equal_range() holds exactly the entries with the key", "statement": "A loop over equal_range(k) of a flat16 or robin16 map visits exactly the entries whose key is equal to k, whatever the position of the entry, and stays inside the arrays.", "quantifier": "all lawful hash functions, all reachable maps, all keys, both instruction sets", "why_tests_cant": "the last slot, the sentinel and wrapped control bytes all matter to the increment", "anchors": ["src/jstd/hashmap/flat16_hash_map.h:equal_range", "src/jstd/hashmap/robin16_hash_map.h:equal_range"]}
{"id": "C204", "title": "robin: equal_range() holds exactly the entries with the key", "statement": "A loop over equal_range(k) of a robin map visits exactly the entries whose key is equal to k.", "quantifier": "all lawful hash functions, all maps with spread keys, all keys", "why_tests_cant": "tests do not ask an empty map for a range", "anchors": ["src/jstd/hashmap/robin_hash_map.h:equal_range", "src/jstd/hashmap/robin_hash_map.h:find"]}
{"id": "C205", "title": "load_factor() is a number between 0 and 1", "statement": "load_factor() of a flat16, robin16 or robin map is size() divided by a capacity that is not zero and not less than size().", "quantifier": "all lawful hash functions, all reachable maps", "why_tests_cant": "a NaN passes tests that compare it with <", "anchors": ["src/jstd/hashmap/flat16_hash_map.h:load_factor", "src/jstd/hashmap/robin16_hash_map.h:load_factor", "src/jstd/hashmap/robin_hash_map.h:load_factor"]}
{"id": "C206", "title": "A map built from a range or list has the first entry of every key and asks for memory once", "statement": "A flat16, robin16 or robin map constructed from a range or an initializer list with any initial capacity has, for every key, the first entry with that key, and nothing else. Only reserve_for_insert asks for memory: the insertions succeed even if every later request would be refused. All later calls agree with the abstract map. If memory is refused, the constructor throws before any element exists.", "quantifier": "all lawful hash functions, all lists with repeated keys, all initial capacities, all answers of the allocators, both instruction sets", "why_tests_cant": "the rounding of the reserved capacity and the growth test must agree for every length of the list", "anchors": ["src/jstd/hashmap/flat16_hash_map.h:reserve_for_insert", "src/jstd/hashmap/flat16_hash_map.h:insert", "src/jstd/hashmap/robin16_hash_map.h:reserve_for_insert", "src/jstd/hashmap/robin16_hash_map.h:insert", "src/jstd/hashmap/robin_hash_map.h:reserve_for_insert", "src/jstd/hashmap/robin_hash_map.h:insert"]}
{"id": "C207", "title": "A constructor from a range that throws leaves nothing behind", "statement": "If the key equality throws while a flat16, robin16 or robin map is constructed from a range, the elements that were constructed are destroyed and the storage is returned.", "quantifier": "all lists, all key equalities that may throw", "why_tests_cant": "needs an exception in the middle of a constructor and a count of live elements", "anchors": ["src/jstd/hashmap/flat16_hash_map.h:flat16_hash_map", "src/jstd/hashmap/robin16_hash_map.h:robin16_hash_map", "src/jstd/hashmap/robin_hash_map.h:robin_hash_map"]}
{"id": "C208", "title": "Growing a flat16 map costs amortised constant time", "statement": "While a flat16 map is only added to and looked up in (insert, insert_or_assign, find, contains, size), starting from any initial capacity, all reallocations together move at most twice as many elements as the map has now, the r-th reallocation leads to 2^r times the first capacity, the map is never more than half full, and once it has grown it has at most four slots per element.", "quantifier": "all lawful hash functions, all sequences of such calls of any length, all allocator answers", "why_tests_cant": "a bound over the whole history: a test sees some sizes, and an off-by-one in the growth test or a growth by a constant shows only asymptotically", "anchors": ["src/jstd/hashmap/flat16_hash_map.h:grow_if_necessary", "src/jstd/hashmap/flat16_hash_map.h:find_or_insert", "src/jstd/hashmap/flat16_hash_map.h:rehash_impl"]}
{"id": "C209", "title": "Growing a robin16 map costs amortised constant time", "statement": "While a robin16 map is only added to and looked up in (insert, insert_or_assign, find, contains, size), starting from any initial capacity, all reallocations together move at most twice as many elements as the map has now, the r-th reallocation leads to 2^r times the first capacity, the map is never more than half full, and once it has grown it has at most four slots per element. This is for keys that are spread (q_fine) and seen (q_seen).", "quantifier": "all lawful hash functions, all sequences of such calls of any length, all allocator answers", "why_tests_cant": "a bound over the whole history: a test sees some sizes, and an off-by-one in the growth test or a growth by a constant shows only asymptotically", "anchors": ["src/jstd/hashmap/robin16_hash_map.h:grow_if_necessary", "src/jstd/hashmap/robin16_hash_map.h:find_or_prepare_insert", "src/jstd/hashmap/robin16_hash_map.h:rehash_impl"]}
{"id": "C210", "title": "Growing a robin map costs amortised constant time", "statement": "While a robin map is only added to and looked up in (insert, insert_or_assign, find, contains, size), starting from an empty map without storage, all reallocations together move at most twice as many elements as the map has now, the r-th reallocation leads to 2^(r+1) slots, the map is never more than half full, and once it has grown it has at most four slots per element. This is for keys that are spread (spread_all); a displacement then never makes the map grow.", "quantifier": "all lawful hash functions, all sequences of such calls of any length, all allocator answers", "why_tests_cant": "a bound over the whole history: a test sees some sizes, and an off-by-one in the growth test or a growth by a constant shows only asymptotically", "anchors": ["src/jstd/hashmap/robin_hash_map.h:grow_if_necessary", "src/jstd/hashmap/robin_hash_map.h:direct_find_and_insert", "src/jstd/hashmap/robin_hash_map.h:rehash_impl"]}
{"id": "C211", "title": "clear is noexcept", "statement": "clear() of flat16, robin16 and robin maps, which is declared noexcept, never throws: no call of clear ends the program, with either argument and whatever the allocators answer.", "quantifier": "all maps that can be built, both arguments, all allocator answers", "why_tests_cant": "needs an allocation that fails inside clear(true)", "anchors": ["src/jstd/hashmap/flat16_hash_map.h:clear", "src/jstd/hashmap/robin16_hash_map.h:clear", "src/jstd/hashmap/robin_hash_map.h:clear"]}
{"id": "C212", "title": "A robin map that took over the elements of another one is that map", "statement": "After swap, copy assignment, move assignment (whether or not the allocator propagates) and the move constructor with an allocator, the robin map has the entries and the function objects of the source and can be used like it. (Refuted: last_slot_ stays behind.)", "quantifier": "all maps that calls lead to, all objects that are replaced, equal and different allocators, all allocator answers", "why_tests_cant": "needs a lookup of an absent key after a move with an allocator; the result of the pointer difference is often plausible", "anchors": ["src/jstd/hashmap/robin_hash_map.h:3170-3204", "src/jstd/hashmap/robin_hash_map.h:3245-3262", "src/jstd/hashmap/robin_hash_map.h:6539-6588"]}
{"id": "C213", "title": "reserve makes swapped, assigned and moved-from robin maps usable again", "statement": "A robin map that was swapped or assigned to, or that is the source of a move, works again after reserve, rehash, shrink_to_fit or clear(true).", "quantifier": "all maps of C212, all sequences of calls afterwards", "why_tests_cant": "needs arbitrary calls after the repair", "anchors": ["src/jstd/hashmap/robin_hash_map.h:6555-6588", "src/jstd/hashmap/robin_hash_map.h:3517-3540", "src/jstd/hashmap/robin_hash_map.h:3504-3515"]}
{"id": "C214", "title": "A robin map can be iterated backwards", "statement": "Walking from end() to begin() with operator -- visits the elements of a robin map in the reverse of the order of ++, each once and nothing else; -- undoes ++ at every element.", "quantifier": "all maps that calls lead to, all positions of elements", "why_tests_cant": "depends on which positions are empty, also behind the last element", "anchors": ["src/jstd/hashmap/robin_hash_map.h:2833-2842", "src/jstd/hashmap/robin_hash_map.h:2817-2825", "src/jstd/hashmap/robin_hash_map.h:6638-6647"]}
{"id": "C215", "title": "The alignment helpers round up to the next multiple", "statement": "For every alignment that is a power of two, align_to and pointer_align_to return the least multiple of it that is not below the argument, and check_alignment says whether an address is a multiple; assertions reject every other alignment. (Refuted: near 2^64 the result is 0.)", "quantifier": "all sizes and addresses, all alignments of 64 bits, with and without assertions", "why_tests_cant": "the overflow needs arguments within one alignment of 2^64", "anchors": ["src/jstd/utility/utility.h:66-74", "src/jstd/utility/utility.h:88-96", "src/jstd/utility/utility.h:98-106"]}
{"id": "C216", "title": "swap_ranges and swap of arrays exchange the ranges", "statement": "For two ranges that do not overlap swap_ranges exchanges the objects pairwise, changes no other object and returns the end of the second range; swap of arrays does the same. (Refuted with assertions: the one after the loop fails for every non-empty range.)", "quantifier": "all memories, all pairs of ranges without overlap, with and without assertions", "why_tests_cant": "nothing in the repository instantiates these templates", "anchors": ["src/jstd/memory/swap.h:70-79", "src/jstd/memory/swap.h:81-85"]}
{"id": "C217", "title": "The 32-bit integer hashes", "statement": "mum_hash32 and mum_mul_mix32 are the two halves of the 64-bit product folded by exclusive or, and fibonacci_hash32 gives different words different hashes. (Refuted where unsigned long has 32 bits.)", "quantifier": "all pairs of 32-bit words, both widths of unsigned long", "why_tests_cant": "2^64 pairs; the result depends on the width of unsigned long", "anchors": ["src/jstd/hasher/hashes.h:626-633", "src/jstd/hasher/hashes.h:662-667", "src/jstd/hasher/hashes.h:799-809"]}
{"id": "C218", "title": "The hash policies on 32-bit machines", "statement": "The index of a hash is below the capacity, and every slot is the index of some hash. (The second is refuted for the fibonacci policy.)", "quantifier": "all hashes of 32 bits, all capacities that are powers of two", "why_tests_cant": "about absence of hashes for a slot", "anchors": ["src/jstd/hasher/hashes.h:1725-1750", "src/jstd/hasher/hashes.h:1788-1813"]}
{"id": "C219", "title": "Iterators of string views and reverse iterators are random access iterators", "statement": "Loops from begin() to end() visit the characters of a view in order, with reverse_iterator in reverse order; subscripts, differences, additions and comparisons agree with these orders; ++ and -- undo each other.", "quantifier": "all arrays, all views in them, all positions", "why_tests_cant": "all pairs of positions in arrays of any length", "anchors": ["src/jstd/string/string_iterator.h:51-158", "src/jstd/iterator.h:266-377", "src/jstd/iterator.h:393-467", "src/jstd/string/string_view.h:113-117"]}
{"id": "C220", "title": "Postfix ++ and -- return the old iterator", "statement": "The postfix operators move the iterator like the prefix ones and return the iterator as it was. (Refuted for string views: they return a reference to a local object.)", "quantifier": "all arrays, all positions, all views that are not empty", "why_tests_cant": "compilers may leave the dead object readable", "anchors": ["src/jstd/string/string_iterator.h:72-76", "src/jstd/string/string_iterator.h:85-89", "src/jstd/iterator.h:332-349"]}
{"id": "C221", "title": "advance, next, prev and distance agree for all iterator categories", "statement": "For every two positions of an array advance by their difference leads from one to the other, distance returns the difference, and a step outside the array is undefined, whichever overload the category of the iterator selects. (Refuted: an input iterator ignores negative offsets.)", "quantifier": "all arrays, all positions, all offsets, all categories", "why_tests_cant": "all pairs of positions in arrays of any length", "anchors": ["src/jstd/iterator.h:163-256", "src/jstd/iterator.h:699-755"]}
{"id": "C222", "title": "A key equality that never throws gives the calls of the ordinary model", "statement": "With a key equality that always answers, and always the same, every call of every map in the models with a throwing key equality has the result and leaves the map of the models without one, in every state.", "quantifier": "all maps, states (reachable or not), calls, allocators, hash functions and key equalities", "why_tests_cant": "all states of a map, including damaged ones", "anchors": ["src/jstd/hashmap/robin_hash_map.h:5471-5616", "src/jstd/hashmap/robin_hash_map.h:5870-5893", "src/jstd/hashmap/robin16_hash_map.h:2620-3369", "src/jstd/hashmap/flat16_hash_map.h:2174-2736", "src/jstd/hashmap/group15_flat_table.hpp:2269-2427", "src/jstd/hashmap/group16_flat_table.hpp:2116-2251"]}
{"id": "C223", "title": "No call compares an element of a robin map twice", "statement": "A call on a robin hood or robin16 map compares its key with each stored element at most once, and an exception of the key equality leaves the map as it was. (Refuted: an insertion that finds no room compares again after growing.)", "quantifier": "all reachable maps, all key equalities", "why_tests_cant": "all sequences of calls and all key equalities", "anchors": ["src/jstd/hashmap/robin_hash_map.h:5870-5893", "src/jstd/hashmap/robin_hash_map.h:5704-5774", "src/jstd/hashmap/robin16_hash_map.h:2962-3072"]}
{"id": "C224", "title": "is_pow2 and clear_low_bit", "statement": "is_pow2, as template and as function, tells exactly the powers of two, as its comment says; clear_low_bit clears the lowest one bit and no other. (Refuted for 0, which is_pow2 takes for a power of two.)", "quantifier": "all numbers of 64 bits and of every narrower unsigned type", "why_tests_cant": "each argument of the templates is another instantiation; the functions have 2^64 arguments", "anchors": ["src/jstd/support/Power2.h:50-70", "src/jstd/support/Power2.h:416-428"]}
{"id": "C225", "title": "flat16: erase(const_iterator)", "statement": "erase(pos) removes exactly the entry at pos, keeps the order and the membership of all others, and returns an iterator from which the iteration goes on with exactly the entries that followed. (Refuted: in crowded maps another key can no longer be found.)", "quantifier": "all maps that calls lead to, all positions of entries", "why_tests_cant": "all states of the control bytes around the position", "anchors": ["src/jstd/hashmap/flat16_hash_map.h:1490-1494", "src/jstd/hashmap/flat16_hash_map.h:2738-2775", "src/jstd/hashmap/flat16_hash_map.h:862-868"]}
