# Design of the formal model of jstd_hashmap

Model and proofs are in Rocq (Coq 8.16.1), under `rocq/theories`.  Build:
`cd rocq && coq_makefile -f _CoqProject -o Makefile && make -j4`.

## Files

| Part of /repo (under `src/jstd`) | Model | Proofs |
|---|---|---|
| `support/BitUtils.h` (intrinsics), `support/Power2.h` | `BitsModel.v` | `BitsFacts.v`, `Pow2Facts.v` (spec `Pow2Spec.v`) |
| `support/BitUtils.h` (portable fallbacks) | `FallbackModel.v` | `FallbackFacts.v`, `FallbackFacts2.v`, `FallbackGeneric.v` (spec `BitSpec.v`) |
| `hashmap/group_quadratic_prober.hpp` | `ProberModel.v` | `ProberFacts.v` |
| `hashmap/flat_map_group15.hpp`, `flat_map_group16.hpp` | `GroupModel.v` | `GroupFacts.v` |
| `hashmap/group15_flat_table.hpp`, `group16_flat_table.hpp`, the map wrappers | `TableModel.v`, `CopyModel.v`, `RunModel.v`, `ReachModel.v`, `TraceModel.v` | `TableInv.v` … `TableOps.v`, `Refine.v`, `Progress.v`, `CopyFacts.v`, `ReachFacts.v`, `MapProps*.v` |
| `hashmap/flat_map_iterator15.hpp`, `flat_map_iterator.hpp` | `IterModel.v` | `IterFacts.v` |
| addresses and allocation sizes in the two table files | `LayoutModel.v` | `LayoutFacts.v` |
| `hashmap/robin_hash_map.h` (8-bit control bytes, elements in place) | `RobinModel.v` (spec `RobinSpec.v`) | `RobinFacts.v`, `RobinOps.v`, `RobinRefine.v`, `RobinWitness.v` |
| `hashmap/robin_hash_map.h` (64-bit controls, indirect elements) | `IndirectModel.v` (spec `IndirectSpec.v`) | `IndirectFacts.v`, `IndirectOps.v`, `IndirectRefine.v`, `IndirectWitness.v` |
| `hashmap/flat16_hash_map.h`, integer hash of `hasher/hash_crc32.h` | `Flat16Model.v`, `Crc32Model.v` (spec `Flat16Spec.v`) | `Flat16Facts.v`, `Flat16Ops.v`, `Flat16Refine.v`, `Flat16Calls.v`, `Flat16Runs.v`, `Flat16Witness.v`, `Flat16Erase.v` |
| `hashmap/robin16_hash_map.h` | `Robin16Model.v` (spec `Robin16Spec.v`) | `Robin16Ring.v`, `Robin16Scan.v`, `Robin16Facts.v`, `Robin16Moves.v`, `Robin16Ops.v`, `Robin16Refine.v`, `Robin16Client.v`, `Robin16Witness.v`, `Robin16Example.v` |
| `hasher/hashes.h`, `hash_crc32.h`, `hash_helper.h` | `HashModel.v`, `HashKeyModel.v`, `Crc32Model.v` (spec `HashSpec.v`) | `HashFacts.v`, `HashData.v`, `HashData2.v`, `HashCrc.v`, `HashPrimary.v`, `HashSens.v`, `HashSens2.v`, `HashArith.v`, `HashMul.v`, `HashKeyFacts.v`, `HashWitness.v` |
| `hasher/fnv1a.h` | `FnvModel.v` (spec `HashSpec.v`) | `FnvFacts.v`, `FnvWitness.v` |
| `hasher/sha1.h` | `Sha1Model.v` (spec `Sha1Spec.v`) | `Sha1Facts.v`, `Sha1Data.v`, `Sha1Msg2.v`, `Sha1Witness.v` |
| `string/string_utils.h`, `string_libc.h`, `string_stl.h`, `string_traits.h`, `string_view.h`, `support/SSEHelper.h` | `StrModel.v` (spec `StrSpec.v`) | `StrFacts.v`, `StrWords.v`, `StrViews.v`, `StrWitness.v`, `StrClaims.v`, `StrMore.v` |
| `reserve` and insertions of the last three maps; moving with an allocator | (spec `ReserveSpec.v`) | `MoveFacts.v`, `RobinReserve.v`, `Flat16Reserve.v`, `Robin16Reserve.v`, `ReserveWitness.v` |
| `string/formatter.h`, `math/log10_int.h` | `FormatModel.v` (spec `FormatSpec.v`) | `FormatFacts.v`, `FormatPrint.v`, `FormatWitness.v`, `FormatSigned.v` |
| `system/MT19937_32.h`, `MT19937_64.h`, `LibcRand.h`, integers and nextDouble53 of `RandomGen.h` | `RandModel.v` (spec `RandSpec.v`) | `RandFacts.v`, `RandDraw.v`, `RandWitness.v`, `RandLoop64.v` |
| the two table files when element constructors throw during a copy or a rehash | `ThrowModel.v` | `ThrowFacts.v` |
| the insertions of the robin, flat16 and robin16 maps when the element constructor throws | `ThrowModel2.v` | `ThrowFacts2.v`, `ThrowFacts3.v`, `ThrowFacts4.v`, `ThrowWitness.v` |
| templates of `support/Power2.h`, its functions for narrow types | `Pow2Model.v` | `Pow2CtFacts.v`, `Pow2LowFacts.v` |
| arguments of insertions into the two group maps: move semantics, references into the map | `ArgModel.v` (spec `ArgSpec.v`) | `ArgFacts.v`, `ArgWitness.v` |
| load factor of the group maps (spec `LoadSpec.v`) | `TableModel.v` | `LoadFacts.v`, `LoadWitness.v` |
| the cost of growing, flat16, robin16 and robin maps | `Growth2Spec.v` | `Growth2Facts.v`, `Growth2Flat16.v`, `Growth2Robin16.v`, `Growth2Robin.v`, `Growth2Witness.v` |
| robin maps: swap, assignments and moves with function objects and allocators | `TakeModel.v`, `TakeSpec.v` | `TakeFacts.v`, `TakeWitness.v` |
| robin maps: operator -- | `BackModel.v` | `BackFacts.v`, `BackWitness.v` |
| `utility/utility.h`: alignment; `memory/swap.h`: swap_ranges, swap of arrays | `UtilModel.v` | `UtilFacts.v` |
| `hasher/hashes.h`: 32-bit variants | `Hash32Model.v` | `Hash32Facts.v` |
| `string/string_iterator.h`, `iterator.h`: reverse_iterator | `StrIterModel.v`, `StrIterSpec.v` | `StrIterFacts.v` |
| `iterator.h`: advance, next, prev, distance | `AdvanceModel.v` | `AdvanceFacts.v` |
| key equalities that do not throw; comparisons per call | `CompareModel.v`, `Compare2Model.v`, `Compare3Model.v`, `Compare4Model.v` | `CompareAgree.v`, `CompareTwice.v` |
| construction from a range or list | `FromModel.v` | `FromFacts.v`, `FromFlat16.v`, `FromRobin16.v`, `FromRobin.v`, `FromWitness.v` |
| bucket, at, count, equal_range, load_factor | `QueryModel.v` | `QueryFacts.v`, `QueryFlat16.v`, `QueryRobin16.v`, `QueryRobin.v`, `QueryWitness.v` |
| function objects in copies, moves and swaps | `FunctorModel.v` | `FunctorFlat16.v`, `FunctorRobin16.v`, `FunctorFacts.v`, `FunctorWitness.v` |
| key equalities of the robin16 map that answer anything or throw | `Compare4Model.v` (spec `Compare4Spec.v`) | `Compare4Facts.v`, `Compare4Calls.v`, `Compare4Witness.v` |
| key equalities of the robin hood map that answer anything or throw | `Compare3Model.v` (spec `Compare3Spec.v`) | `Compare3Facts.v`, `Compare3Witness.v` |
| key equalities of flat16 that answer anything or throw | `Compare2Model.v` (spec `Compare2Spec.v`) | `Compare2Facts.v`, `Compare2Once.v`, `Compare2Witness.v` |
| key equalities of group15 and group16 that answer anything or throw | `CompareModel.v` (spec `CompareSpec.v`) | `CompareFacts.v`, `CompareWitness.v` |
| throwing hashers in the robin, flat16 and robin16 maps | `Hasher2Model.v` (spec `Hasher2Spec.v`) | `Hasher2Robin.v`, `Hasher2Flat16.v`, `Hasher2Robin16.v`, `Hasher2Witness.v`, `Hasher2Shrink.v` |
| calls to the allocators by the robin, flat16 and robin16 maps | `Ledger2Model.v` (spec `LedgerSpec.v`, `Ledger2Spec.v`) | `Ledger2Facts.v`, `Ledger2Witness.v` |
| lifetimes of elements in `hashmap/robin_hash_map.h` | `LifeModel.v`, `LifeTmpModel.v` (spec `LifeSpec.v`) | `LifeFacts.v`, `LifeRefine.v`, `LifeWitness.v`, `LifeTmpFacts.v` |
| throwing hashers, insertion through a temporary slot | `HasherModel.v` (spec `HasherSpec.v`) | `HasherFacts.v`, `HasherWitness.v` |
| costs of growing (specification `GrowthSpec.v`) | `TableModel.v` | `GrowthFacts.v` |
| vector helpers of `support/BitVec.h` | `BitVecModel.v` | `BitVecFacts.v` |
| `string/string_helper.h`, `string/string_view_array.h` | `HelperModel.v`, `ViewArrayModel.v` | `MiscFacts.v`, `MiscMore.v` |
| bucket interface of the two tables, counts of `hashmap/hashmap_analyzer.h` | `AnalyzerModel.v` | `MiscFacts.v` |
| allocator calls of the two table files | `LedgerModel.v` (spec `LedgerSpec.v`) | `LedgerFacts.v`, `LedgerFacts2.v` |

`MapSpec.v` is the specification (abstract map).  `WitnessModel.v`, `WitnessFacts*.v`,
`ExampleFacts.v`, `ChurnFacts.v`, `PropertyFacts*.v` hold concrete executions.  The
property theorems are in `PropertiesMap.v`, `PropertiesState.v`, `PropertiesBits.v`,
`PropertiesRobin.v`, `PropertiesFlat16.v`, `PropertiesHash.v`,
`PropertiesFnv.v`, `PropertiesSha1.v`, `PropertiesStr.v`,
`PropertiesRobin16.v`, `PropertiesMore.v`, `PropertiesFormat.v`, `PropertiesRand.v`, `PropertiesThrow.v`,
`PropertiesIndirect.v`, `PropertiesMisc.v`, `PropertiesPow2.v`,
`PropertiesGrowth.v`,
`PropertiesHashKey.v`, `PropertiesArg.v`, `PropertiesLoad.v`, `PropertiesHasher.v`, `PropertiesLife.v`, `PropertiesLedger.v`, `PropertiesHasher2.v`, `PropertiesCompare.v`, `PropertiesCompare2.v`, `PropertiesCompare3.v`, `PropertiesCompare4.v`, `PropertiesFunctor.v`, `PropertiesQuery.v`, `PropertiesFrom.v`, `PropertiesGrowth2.v`, `PropertiesClear.v`, `PropertiesTake.v`, `PropertiesBack.v`, `PropertiesUtil.v`, `PropertiesHash32.v`, `PropertiesStrIter.v`, `PropertiesAdvance.v`, `PropertiesAgree.v`, which contain nothing else; every theorem there has a `Print Assumptions` beneath it.

The two table files are near copies of each other.  `TableModel.v` therefore
defines every function once, over a record `kind` that holds every point where the
two files differ, and instantiates it twice (`k15`, `k16`).  Each definition cites
both files.

## Abstractions and outcomes

* Keys, values, hasher and key equality are parameters (`K`, `V`, `hash : K -> N`,
  `keq : K -> K -> bool`).  `lawful hash keq` is what the C++ standard requires of a
  user: `keq` is an equivalence, equivalent keys have equal hashes, hashes are
  64-bit numbers.  Nothing is assumed about the distribution of hashes.
* `std::size_t` is `N` with explicit reduction modulo 2^64 where the code can wrap.
* The slot array is a `list (option (K*V))`: `None` is raw memory.  Reading,
  assigning or destroying a `None`, constructing over a `Some`, writing to the static
  empty groups, and indexing out of range are the outcome `EUndef`.  Deallocating
  a slot array that still holds a `Some` is `ELeak`.
* The search for an empty slot (`find_empty_to_insert`) has no exit but an empty
  slot.  It takes fuel = number of groups; running out is `ELoop`.
  `c08_loop_is_endless` shows that this outcome means an endless loop for any
  amount of fuel.
* The allocator is a predicate `alloc : N -> bool` on the requested control
  capacity, given anew for every call; a refused request is the outcome `Throw`
  with the state in which the exception leaves the map.  `sane alloc`: nothing
  above 2^55 is granted (such a table needs more than 2^55 bytes).
* Element constructors that throw are an explicit flag of `emplace_impl`; in
  `step` they do not throw (C18 says what happens when they do; C140 and C141 for
  copying and rehashing, where a counter says at which construction it happens).
* `max_load_factor(float)` is modelled after the exact scaling by 256 and
  truncation: its argument is the integer `floor(256*mlf)`; NaN is not modelled.
* The group scan instructions (SSE2 compare and movemask) are modelled byte by byte.

### States

* `reachable ok t`: construction with any initial capacity, then any calls that
  satisfy `ok`, whether they return or throw.
* `built t`: the same with copies, moves, swaps, range insertion, `erase(iterator)`
  and `erase_if` of group16.  Left out because of defects that are properties of
  their own: a copy with the capacity of its source (C19), states after a throwing
  element constructor (C18), `reserve(0)` (C32), `clear()` of a group15 map without
  storage (C15), `rehash(n)` with n > 2^63 (shift by the word width).
* Invariants (`TableInv.v`, `Progress.v`): `Inv0` holds of every built state (control
  bytes mirror the slots, probe chains are marked by overflow bits, keys are unique,
  size is exact).  `Inv1` adds `size + tombstones <= threshold < capacity` for
  group15 without shrinking; `Inv2` adds that no overflow bits were left by
  erasures.  They appear only in proofs, not in property statements.

* `r_reach q t m` (`RobinSpec.v`): maps made by calls that return, copying and moving
  from a new robin map, with the abstract map `m`.  `spread` is a condition on the
  keys: no stretch of n positions is the home of more than n + room entries, where
  room is the overflow area behind the last position (at most 126).  It is needed
  after each call only.  q = 1 allows all calls; q = 2 only those that keep half of
  the positions free, and then `spread` is asked only of such capacities.  Calls left
  out are properties of their own: clear() and find() without storage (C52, C46), and
  use after an exception (C51), of moved-from (C49) or swapped maps (C50).

* `f_built t m` (`Flat16Spec.v`): maps made by calls that satisfy `f_client` and return,
  and by copying, from a new flat16 map, with the abstract map `m`.  `f_client` leaves
  out what is a property of its own: erasing when an entry lies more than 16 slots
  from the one its hash asks for (C60), insertion and max_load_factor when an eighth of
  more than 32 slots is deleted (C61), `clear()` (C63), requests below `size()` when that is a power of two (C64), use
  after an exception (C67).  The oracle `alloc` tells for control bytes and slots
  separately whether the request is granted; `f_sane`: never more than 2^44 slots.

* `q_built t m` (`Robin16Spec.v`): maps made by calls that satisfy `q_client` and return, by
  copying and by moving, from a new robin16 map, with the abstract map `m`.  `q_client`
  leaves out what is a property of its own: erasing an element whose followers go on in
  slot 0 (C103), keys with the second hash 0 below sixteen slots (C104), `clear(false)` from
  sixteen slots on (C105), use after an exception (C107) and of moved-from maps (C108).
  `q_fine` is a condition on the entries: no stretch of n slots is wanted by more than
  n + 128 of them (C109); with at most 129 entries it always holds (C111).

## Not modelled

* Move semantics of keys and values (a moved value is a copied value) except for the
  arguments of insertions (`ArgModel.v`), allocator
  propagation traits, `noexcept` (except `get_hash`, C183 and C184, and `clear`, C211), prefetch, debug printing, heterogeneous lookup.
* Code that does not compile when instantiated: group15 `erase(iterator)` (uses
  `pos.locator()`, which does not exist), `erase(first,last)` of the maps (calls
  itself), hinted `insert_or_assign`, the plain move constructors'
  `other.get_ctrl_allocator_ref()` (modelled as the group allocator), `group30` (its
  `const` accessor to the overflow mask).
* Hash-policy, index-salt, indirect-KV and non-SSE2 configurations (macros that
  are 0 in the sources).
* Of the hash functions: `sha1.h` without SHA instructions (the functions return 0 there); of `hashes.h` the intrinsics behind the other
  branches of `uint128_mul` and `mum_mul_mix64`, and big-endian decoding, `hash_helper` for results of 64 bits.  Words are little-endian, loads of
  unaligned words are plain loads, and the crc32 instruction is its definition bit by bit.
* Of the string headers: `mem_copy`, `string_format`, the overloads of string_view that take a
  plain pointer (`constexpr size_type len2 = libc::StrLen(str)` does not compile, nor does
  `Traits::is_equal` with two pointers), `push_back` and the like,
  the copy constructor of `string_view_array.h` (does not compile).  Of `formatter.h`: `output`, `itoa_slow`, and pointer or string
  arguments (do not compile).  Loads of 8 and 16 bytes are plain loads.  Without
  STRING_UTILS_MODE all preprocessor tests are 0 == 0: the SSE variant is taken, or, without
  SSE 4.2, the word variant for equality and memcmp for order.  asserts do nothing.
* Of `BitVec.h`: the branches without SSE4.1 and the 32-bit functions (they do not parse), the MSVC
  macros, `_mm_setones_si128`; the intrinsics are as in Intel's guide.  Of `hashmap_analyzer.h`: the floating point rates.
* Of the random generators: other floating point functions of `RandomGen.h`, the branch of
  `LibcRand.h` for RAND_MAX below 0xFFFF other than 0x7FFF, copies of a generator (the pointer
  `next` of a copy points into the original).
* The other maps of the repository (old hash maps), benchmarks and tests.
* Of `robin_hash_map.h`: the layout with stored hashes and direct elements (16-bit
  controls; only a hand-written layout policy selects it), of the indirect layout everything behind the first
  insertion of a copy (it is not reached, C147), `group30` (not used), `erase(iterator)` (does not compile: `pos->owner()`),
  `erase(first,last)` (marked with a TODO in the source), `rehash(n, read_only = true)`,
  allocators that differ (except in moves, C212).  Elements with destructors are in `LifeModel.v` (in place only).
* Of `robin16_hash_map.h`: `erase(iterator)`, `erase(first,last)`, `erase_if`, hinted `insert_or_assign`
  (do not compile), assignment (there is none), allocators that differ.  `assert` does nothing.
* Of `flat16_hash_map.h`: move constructors, move assignment and `swap` (do not compile: they
  swap the results of functions), `at()`, `erase(iterator)` (that of `const_iterator` is modelled, C225), `erase_if` and
  `erase(first,last)` (do not compile), the portable scan; the
  second hash is any function of the hash, and the CRC32 one in the executions.
  Destroying elements happens in place; a trivially destructible element stays
  readable after clear(), any other is raw memory (`trivial`).
* Exceptions thrown by assignment or destructors.  Throwing key equalities are in `CompareModel.v`
  (group15 and group16), `Compare2Model.v` (flat16), `Compare3Model.v` (robin) and `Compare4Model.v` (robin16).  Throwing hashers are in `HasherModel.v` and `Hasher2Model.v`.
* `hashmap/unordered_map.h` does not parse (a bit-field with two colons), and
  `hash_chunk_list.h` is included by it only.

## Per property

Status words: *proved* — theorem at full strength; *refuted* — the statement is false
of the code, a concrete execution is computed in the model; *partial* — the part
that holds is proved and the rest refuted.

| Id | Method | Result |
|---|---|---|
| C01 | Induction over the calls; invariant `Inv1`; refinement to `MapSpec`. | **proved**. All runs from a new group15 map that avoid shrink_to_fit (C08), reserve(0) (C32), clear() without storage (C15) and rehash(n>2^63); the allocator may fail anywhere but never grants more than 2^55 control bytes. Also shows that every such run returns. c02_every_call_acts_on_the_content is the one-call version for every state (copies, moved and swapped maps included). |
| C02 | The same with `Inv0`. | **proved**. Both table kinds; runs that return (termination of group16 insertion is C09). Same exclusions as C01 but shrink_to_fit is allowed. |
| C03 | `Inv0` and the traversal theorem. | **proved**. On what iteration yields, for every state that construction, calls, copies (of different capacity), moves, swaps, range insertion, erase(iterator) and erase_if can produce. |
| C04 | `Inv0` and the traversal theorem. | **proved**. size() against the traversal; empty() is size()==0 and holds exactly when the traversal is empty. |
| C05 | Induction over the remaining control bytes. | **proved**. The traversal is limited to size() increments, so it also shows that end() is reached after exactly size() steps; reads outside the arrays are an error outcome of the model. |
| C06 | Induction over the remaining control bytes. | **proved**. As C05; the byte after the control array that operator++ reads when it reaches the end has an arbitrary value in the model. |
| C07 | `Inv1` leaves a free slot whenever a search starts. | **proved**. Runs and single insertions from every constructible state; hashers arbitrary. |
| C08 | Executions computed with `vm_compute`. | **refuted**. REFUTED: the statement is false of the code. 112 insertions, shrink_to_fit(), 105 erasures, 113 insertions: the last insertion never ends; shrink_to_fit(true) on 30 entries never ends. c08_loop_is_endless: the model's ELoop means an endless loop for every number of rounds. |
| C09 | `Inv2` by induction; execution computed. | **partial**. Proved for all runs without erase (the full statement drops that condition); REFUTED in general: with a single erasure an insertion loops for ever. |
| C10 | The rehash loop moves each occupied slot once into a fresh table. | **proved**. reserve(n>0), rehash(n<=2^63), shrink_to_fit, max_load_factor; automatic growth is in c02_every_call_acts_on_the_content. |
| C11 | As C10; a fresh table with enough slots has no erasures. | **proved**. Content: c10_resizing_preserves_content covers both modes; termination of the default mode: c11_shrink_to_fit_returns. shrink_to_fit(true) may loop (C08). |
| C12 | Arithmetic of thresholds; executions computed. | **partial**. Proved exactly when (c12_reserve_limit): as long as the size is at most 7/8 of the capacity, or the capacity is at most 32. Hence proved for group16 with the default load factor, and for group15 with 15n/16-2 insertions; REFUTED in general: group15 n=112 default load factor, group16 n=33 with max_load_factor 131/256. |
| C13 | `Inv0`. | **proved**.  |
| C14 | The destroy loop visits exactly the occupied slots. | **proved**. Destruction exactly once: destroying a raw slot is an error outcome and all slots are raw afterwards. The map keeps the growth limit lowered by earlier erasures, see C42. |
| C15 | Computation. | **refuted**. REFUTED: clear() on a map without storage always writes the end mark to the constant default groups (outcome EUndef). |
| C16 | `step_refines`: no outcome but `ELoop`. | **proved**. EUndef (raw slot read, assigned or destroyed; construction over a live slot; index out of range) and ELeak never occur; only ELoop (C08, C09) can. The destructor destroys every entry. Throwing element constructors are C18; a copy with the same capacity as its source is C19. |
| C17 | Case analysis of `Throw`. | **proved**. Unchanged state; max_load_factor(m) has stored the new factor before the allocation fails, everything else is unchanged. |
| C18 | Every later visit of the marked slot finds raw memory. | **refuted**. REFUTED, and for every state: whenever the constructor of a new entry throws inside emplace/try_emplace the map can neither be searched for the key nor destroyed without undefined behaviour. |
| C19 | Insertion of the traversal into a fresh table; fast copy leaves size 0. | **partial**. Proved when the copy has a different capacity or the source is empty; REFUTED otherwise: the copy reports size 0 and iterates as empty although lookups find the entries. |
| C20 | Field by field. | **proved**. Move construction, move assignment with equal allocators, swap. |
| C21 | Induction over the range. | **refuted**. REFUTED: only the first element of the range is inserted (shown for all ranges and states). |
| C22 | Trace of the lookup loop; prober arithmetic. | **proved**. The trace of groups read has no duplicates, is at most group_capacity() long and in range; lookups end. |
| C23 | Triangular numbers modulo 2^k are a permutation. | **proved**. Up to 2^64 groups for the visiting order, up to 2^63 for the stop condition (with 2^64 groups the step counter wraps). |
| C24 | Byte laws. | **proved**. All lists of sixteen bytes, all hashes. |
| C25 | Byte laws. | **proved**. All lists of sixteen bytes, all hashes. |
| C26 | Look-up table checked for all 256 bytes; `Inv0`. | **proved**. Range of the reduced hash, and the byte stored for every entry of every state is the reduced hash of its key. |
| C27 | Shift arithmetic. | **proved**.  |
| C28 | `N.log2`. | **proved**. Each function against a specification by least/greatest power of two; arguments without a representable result give a shift by the word width. |
| C29 | Bit-field arithmetic proved with symbolic bits; counterexamples computed. | **partial**. Proved for the 32-bit functions and some of the 64-bit ones; REFUTED for popcnt64, ctz64, clz64, the generic bsr32 and bsf64 on 32-bit machines. |
| C30 | Arithmetic over addresses. | **proved**. Provided the size in bytes fits in size_t; without that bound the size computation wraps (refuted). |
| C31 | Induction over rounds of a parametric execution. | **refuted**. REFUTED for every capacity: at most 16 live entries, capacity 15*2^k-1 for every k up to 51. |
| C32 | C10; computation. | **partial**. n>0 is c10_resizing_preserves_content; n=0 REFUTED: reserve(0) destroys all entries in every state. |
| C33 | The setter always calls the growing rehash. | **refuted**. REFUTED: any successful max_load_factor call increases the capacity in every state. |
| C34 | Capacity arithmetic. | **partial**. Proved for n < 2^56; REFUTED for n = 2^56. |
| C35 | Traversal theorem before and after. | **proved**. group16; the result iterator continues with exactly the entries that followed. |
| C36 | Slots of the refinement. | **proved**.  |
| C37 | Slots of the refinement. | **proved**.  |
| C38 | The only state without storage. | **proved**.  |
| C39 | Ledger of blocks replayed over the events of a run. | **proved**. Ledger of allocator calls over a whole run ending with the destructor: every block is returned once with its size. Holds for group16 if the slot allocation never fails after the group allocation succeeded; otherwise the group block leaks (refuted part) but sizes still match. |
| C40 | Induction over the backward walk. | **partial**. Proved for group16; REFUTED for group15, where erase_if decrements end(), a null pointer, on every non-empty map. |
| C41 | Iterators reached from begin() point at occupied slots. | **proved**. Iterators reached from begin() by ++. |
| C42 | Executions computed. | **refuted**. REFUTED: of two empty maps with equal capacity, both just cleared, one grows while receiving the same 17 keys and the other does not. |
| C43 | Invariant: controls mirror slots, distance drops by at most one less per step; a counting argument bounds distances by room. | **proved**. r_agrees for q = 1 (all calls) and q = 2 (calls that keep half of the positions free), from a new map and from any reachable one (copies and moved-to maps included). The spread condition is on the key set only; C45 shows that some condition is needed. |
| C44 | C43; eleven entries are always spread. | **proved**. The bound 11 is sharp: c45 has 12. |
| C45 | Executions computed. | **refuted**. REFUTED for the faithful model: 12 keys congruent to 31 modulo 32 with std::hash<int>, and 129 keys with one home position (the distance reads as negative). What holds is C43/C44. |
| C46 | C43; computation. | **partial**. REFUTED on a default-constructed map: find gives index 0 (difference of null pointers), end() has index 4. Proved for every reachable map with storage. |
| C47 | Induction over positions. | **proved**.  |
| C48 | C43 for the insertions. | **proved**. For entries that are spread at load factor 1/2. reach_copy in r_reach makes C43 apply to copies. |
| C49 | Field by field; computation. | **partial**. REFUTED for the source: slot_threshold_ is taken from other.slot_size_ and the source keeps its threshold, so an insertion writes to the constant control bytes. Proved for the new map. |
| C50 | Field by field; computation. | **partial**. REFUTED: after swap or copy assignment find of an absent key and insertions that displace compare pointers into different arrays. Proved: iteration, contains and size are exchanged. |
| C51 | Case analysis of `Throw`; computation. | **partial**. REFUTED: end() moves, so find of an absent key is no longer end(). Proved: entries, size and contains are unchanged. Also REFUTED: after a reserve that throws, clear() fills more control groups than there are. |
| C52 | Computation. | **partial**. REFUTED on a default-constructed map (also clear(true)). Proved with storage. |
| C53 | Execution computed. | **refuted**. REFUTED: 10 entries in 32 positions, rehash(0) and shrink_to_fit(true) overflow. C43 gives safety when the keys are spread in the smaller table. |
| C54 | Invariant. | **proved**.  |
| C55 | Distances bounded by room. | **proved**. Stated with the fuel of r_scan, which counts the positions. |
| C56 | Computation. | **refuted**. REFUTED: 40 entries of 128 with the new factor 0.3; slot_threshold_ stays at 64 and no rehash happens. |
| C57 | Invariant: every window of sixteen bytes before an entry's own has no empty mark; induction over the calls. | **proved**. The conditions are f_client in Flat16Spec.v; each is needed, see C60, C61, C63, C64. An allocator that never grants more than 2^44 slots. |
| C58 | C57; nothing deleted keeps the map tidy. | **proved**.  |
| C59 | C57; the capacity stays at most 16, so the map is tidy and every entry near. | **proved**.  |
| C60 | Execution computed. | **partial**. REFUTED: seventeen keys with one home slot; erasing one loses another. Proved for entries within sixteen slots (C57) and for at most eight entries (C59). |
| C61 | Executions computed. | **partial**. REFUTED: 32 insertions and 8 erasures, or reserve(32), max_load_factor(0.8) and 33 insertions. Proved without erasures (C58) and while tidy or roomy (C57). |
| C62 | Induction over groups of sixteen bytes. | **proved**.  |
| C63 | Executions computed; C57. | **partial**. REFUTED for clear(). Proved for clear(true) with more than four slots (C57). |
| C64 | Executions computed; C57. | **partial**. REFUTED: four entries, shrink_to_fit(true), reserve(0) and rehash(2). Proved for shrink_to_fit(), for requests of at least size(), and for all requests and shrink_to_fit(true) while size() is below four or not a power of two (C57); reserve and rehash then provide n slots. |
| C65 | Insertion of the traversal into a fresh table. | **proved**.  |
| C66 | Execution computed. | **refuted**. REFUTED: 33 insertions into the copy of a map with 32 entries. Copies are in f_built, so C57 says when a copy is usable. |
| C67 | Case analysis of `Throw`; execution computed. | **partial**. REFUTED for refused slots. Proved for refused control bytes, except in clear and max_load_factor. |
| C68 | Induction over insertions; execution computed. | **partial**. REFUTED. Proved for insertions and lookups from a new map. |
| C69 | Byte laws; computation. | **partial**. REFUTED for matchEmptyOrDeleted. Proved for matchEmpty and matchUsed. |
| C70 | The destroy loop visits exactly the used slots. | **proved**.  |
| C71 | Loop lemma over chunks of bytes; ring modulo 2^32. | **proved**.  |
| C72 | As C71; two rounds of a pair. | **proved**.  |
| C73 | As C71 over words; the instruction is eight times the bit step. | **proved**.  |
| C74 | As C73; the mask removes the bytes behind. | **partial**. REFUTED for every length that is not a multiple of 8 (x86: 4). Proved: exactly the bytes up to the next multiple must be readable, and they do not influence the value, which is the CRC-32C register of the key filled up with zeros. |
| C75 | C74; equal padded keys. | **refuted**. REFUTED: appending zeros up to the next multiple of eight bytes never changes the hash. |
| C76 | As C74; injectivity of the round for the length. | **partial**. REFUTED for the reads. Proved: the value does not depend on what follows; zeros at the end change it; C80 for every byte. |
| C77 | Computation. | **refuted**. REFUTED: one key at two alignments; one key with two bytes before it. |
| C78 | Arithmetic of halves; computation. | **partial**. REFUTED for the generic uint128_mul, whose exact value is proved. Proved for the other three. |
| C79 | As C71; computation. | **partial**. REFUTED for lengths 4 and 8. Proved for all others. |
| C80 | Every round is injective in the state and in the input (inverse of the multiplier, xor-shift, bit matrices with inverse for APHash). | **proved**. BKDRHash (131), Times31, Times31Std, DJBHash, APHash, OpenSSL_Hash, msvc_fnv_1a, both CRCs and primaryHash; the last three with enough readable bytes behind the key (C74, C76). |
| C81 | Arithmetic. | **proved**. Capacities 2 to 2^63, as the asserts of calc_next_capacity demand. |
| C82 | Arithmetic. | **refuted**. REFUTED: the index is constant. |
| C83 | The CRC is linear over xor; kernel computed; injective on 32 bits. | **partial**. REFUTED for 64-bit keys: every key has another with the same hash; the halves of int_hash_crc32 differ by a constant. Proved for keys below 2^32. |
| C84 | Computation; C74. | **refuted**. REFUTED: +0.0 and -0.0 as double for all three functions; a float is read beyond its end by hash_crc32. |
| C85 | An invariant of the loops: what was read was readable. | **refuted**. REFUTED for every wide string that is not empty. |
| C86 | Loop lemma; case analysis of the last bytes; computation. | **partial**. REFUTED: two bytes, the second 128 or more. Proved: defined if and only if the second and third byte after the last whole word are below 128. |
| C87 | Computation. | **refuted**. REFUTED: for all three hash functions; pointers to objects of four bytes are read beyond the object. |
| C88 | Arithmetic of the number of rounds and the offset; induction over the rounds. | **proved**.  |
| C89 | Each hash is a pair or triple of lanes, each injective in state and input; a byte without overlap is in one word of one lane. Computation for the collisions. | **partial**. REFUTED: keys of 20 bytes (Yoshimura) and 28 bytes (the other two). Proved for lengths below 16 and multiples of 16 (Yoshimura), below 24 and multiples of 24 that do not reach the xmm loop (the other two). |
| C90 | The shifted register does not depend on its upper five bytes. | **refuted**. REFUTED: for keys of 96 (TRIADii) and 192 bytes (penumbra), bytes 11 to 15 never matter. |
| C91 | The registers are followed through the twenty groups of four rounds; each group lemma relates the message registers to the schedule of Sha1Spec.v. Induction over the blocks. | **proved**. The instructions are modelled from their definition; keys shorter than 2^63 bytes. |
| C92 | Follows from C91: the zero-filled keys are equal. | **refuted**. REFUTED: "abc" and "abc\0" collide for every state; in general a zero behind a key that does not fill its last block. |
| C93 | The masks keep the low bytes of the last register; induction over the loop. Computation for the short key. | **partial**. REFUTED: a key of 3 bytes. It reads exactly up to the next multiple of 16; proved that the bytes behind the key do not change the value. |
| C94 | Rotation by one distributes over xor, so a change of lane 0 reappears in lane 1 of the next step, shifted by one. | **refuted**. REFUTED: for every key of 64 bytes, flipping bit 0 of byte 0 and bit 1 of byte 36 leaves the hash unchanged. |
| C95 | Induction over the strings (library loops), the words or the registers; a load of 8 or 16 bytes is the little-endian value of the bytes, its elements are the characters. cmpestrc is its definition in the manual. | **partial**. Proved for memcmp, all character types. Word variant: char, last 8 bytes readable. SSE: one- and two-byte types it fits, last 16 bytes readable, fewer than 2^31 characters. REFUTED for the C library variant ("a\0b" equals "a\0c"; proved without zeros) and for stl::StrEqual with two lengths (no return). |
| C96 | The memory is exactly the strings: the same inductions, and for the over-reads induction to the last block. | **partial**. Proved for memcmp and the C library. REFUTED for the word and the SSE variant: any string whose length is no multiple of 8 or 16 bytes, compared with an equal one. |
| C97 | (int)length is negative or zero, the loop is not entered. | **refuted**. REFUTED for every length from 2^31 to 2^32: two strings that differ in the first character are equal; nothing is read. |
| C98 | The bytes compared are a common prefix; computation for the witnesses. | **partial**. REFUTED for the word variant (the second of two characters) and for SSE with wchar_t of 4 bytes and char16_t (everything behind the first 16 bytes of each block). Proved for memcmp under C95. |
| C99 | The first difference is found by induction; the lexicographic order is decided there or by the lengths. | **partial**. Proved for memcmp and one-byte characters; for SSE by unsigned value (same conditions as C95); for the C library without zeros. REFUTED for memcmp with two-byte characters (256 and 1), SSE with short (-1 and 1), C library with zeros. |
| C100 | From C99; computation for the witnesses. | **partial**. REFUTED: a <= a is false in all variants; a < b and b > a are false for "a" and "c" with a memcmp that returns the difference. Proved: !=, with memcmp and SSE; < and > with SSE, and with a memcmp that returns -1, 0 and 1 only. |
| C101 | The memory behind data() + pos is the part followed by the rest; computation for the witnesses. | **partial**. Proved for substr and for equality and order of two parts if pos + count < 2^64. REFUTED: substr(2, 2^64 - 2) of "abc" has 2^64 - 2 characters; copy returns 0, loses what is behind a zero, and for other characters copies nothing onto zeros; is_equal(pos, count, sv) reads past the end and does not look at the length of sv. |
| C102 | Computation with the variant and the character type left open. | **partial**. REFUTED: string_view() is smaller than itself and not equal to string_view(""). Proved for views with a pointer. |
| C103 | Computation. | **refuted**. REFUTED: keys 15 and 31 in 16 slots, then erase(15); also 3 and 7 in a default map. |
| C104 | Computation. | **refuted**. REFUTED with 8 slots: 2301 is found after it was erased (or raw memory is compared); with 4 slots: contains(2856) reads a slot without element. |
| C105 | Computation. | **refuted**. REFUTED for clear(false) with 16 slots: key 91 is present in the cleared map after four other insertions, and inserting it is ignored. |
| C106 | Computation. | **refuted**. REFUTED: max_load_factor(0.2) on an empty map with 16 slots, then 8 insertions leave the load at 0.5. |
| C107 | Computation; case analysis for the positive part. | **partial**. REFUTED when the slots are refused: size() is 2 and nothing is found; elements are not destroyed. Proved for refused groups, for all maps. |
| C108 | Computation. | **refuted**. REFUTED: find, contains, erase, insert, reserve, iteration and copying read through null pointers. |
| C109 | Computation. | **refuted**. REFUTED with 256 keys that are multiples of 4096; 255 of them are found. The 257th insertion grows the map and loses two elements. |
| C110 | Refinement: a ring of cells with Robin Hood order (Robin16Ring) is related to control words and slots (Robin16Facts, Robin16Moves), every operation preserves it (Robin16Ops, Robin16Refine), induction over the calls. | **proved**. For every map of q_built; the conditions are needed: C103-C105 and C109 refute the claim without them. The bound 128 is not the largest possible (255 colliding keys still work). |
| C111 | From C110; at most 129 entries cannot crowd a stretch. | **proved**.  |
| C112 | From C110 with the capacity not decreasing. | **proved**.  |
| C113 | Masks of used slots list the positions in order; induction over the walk. | **proved**. begin, operator++ and end. |
| C114 | Induction over the insertions of the copy. | **proved**. Constructors of elements do not throw in the model. |
| C115 | From the ring: the move loop of erase_slot ends inside the slots exactly if the row is cut. | **proved**. For all maps of q_built with a free slot. |
| C116 | Induction over the slots. | **proved**.  |
| C117 | The invariant of C110 read off. | **proved**.  |
| C118 | Both masks list the same positions in order; structural induction through all functions. | **proved**. No condition on the state at all. |
| C119 | Distances are at most 128, so a word among the first 130 ends the search. | **proved**. The example shows that 7 groups are not enough. |
| C120 | The moves of each group as a fold over the used positions; the transfer as in C01; the refutation runs ten insertions. | **partial**. REFUTED when the new table has the capacity of the old one: size() is 0, iteration meets nothing, lookups find the elements, erasing one leads to the size 2^64 - 1. Proved for another capacity, and what happens for the same one. |
| C121 | reserve sets the growth limit to at least n; below it an insertion does not grow; induction over the entries with a refusing allocator. | **partial**. Proved for the default load factor when reserve changes the capacity or the growth limit belongs to it. REFUTED for the load factor 0.6 (rounding), and for a map that was moved to (its growth limit is 0). |
| C122 | As C121; a table without deleted slots that is at most half full has a free slot in some group of every search. | **partial**. Proved for the default load factor when reserve changes the capacity. REFUTED for the load factor 0.8, and when the capacity stays and elements have been erased. |
| C123 | As C121 over the ring of C110. | **partial**. Proved for the default load factor, under the conditions of C110. REFUTED for the load factor 0.8. |
| C124 | Case split over the position of the leading bit; the table entry is compared with the powers of ten. | **proved**.  |
| C125 | Decimal numerals are defined by their value; their length follows from the bounds 10^(n-1) <= v < 10^n. | **partial**. Proved for 1, 4 and 8 bytes except the least signed integers, for booleans and for addresses (two more than the numeral). REFUTED for two bytes (at most 3 digits are counted; right exactly below 1000) for the least integers (negation overflows), and for booleans with delta other than 0 (it is ignored). |
| C126 | The loop writes digits from the right; its result has the value of the number and no leading zero, and numerals are unique. | **partial**. Proved for characters of one byte except INT_MIN. REFUTED for wider characters: sizeof(buf) counts bytes, so every call writes outside the buffer. |
| C127 | As C126, with the range that is appended computed from the pointers of the code. | **partial**. REFUTED: the last two digits are lost, numbers of one digit are undefined behaviour, twenty digits throw when the length is given. What it does is proved for all numbers, with and without sign. |
| C128 | Computation over the 256 bytes. | **partial**. REFUTED for every byte: the arguments of the string(count, char) constructor are swapped. What it returns is proved for all bytes. |
| C129 | Induction over the items of the format. | **partial**. Proved for text, %%, %d and %u with arguments of 32 bits other than INT_MIN. REFUTED for %c (prints a number) and %i, %x (print nothing). Strings and pointers do not compile. |
| C130 | Induction over the items, with the list of nodes recorded by the first pass. | **partial**. The length is proved for text, %%, %d, %u; the output without %% and with arguments of type int and unsigned. REFUTED with %% (ends the output) and other argument types (the sizes and the output disagree). |
| C131 | The first write of the second pass lies at data_ + size_, which is the end of the resized string. | **partial**. REFUTED: sprintf never returns; it writes behind the string, or throws when the format ends with a specifier. Proved for all formats and arguments. |
| C132 | The length of the array is kept by both loops; the last read lies behind it. The loop is compared with the recurrence term by term. The definition itself is checked against the 10000th numbers that the C++ standard gives. | **partial**. REFUTED for every seed and both widths: next_state reads p[N - M] where p[M - N] is meant, that is, behind the state array; so the first rand() and every srand() are undefined. Proved: the words written by its first loop are the right ones (32 bits), and those of the recurrence with r = 63 (64 bits). |
| C133 | Induction over the index. | **partial**. Proved for 32 bits and seeds other than 0 (0 means the time). REFUTED for 64 bits: the shift is 30 instead of 62 (exact words proved). |
| C134 | Bit by bit. | **partial**. Proved for 32 bits. REFUTED for 64 bits: the masks are those of r = 63, the comment says 31. |
| C135 | Each of the four steps is injective, by induction over the bits from the side that stays; an injective map of a finite set into itself is onto. | **proved**.  |
| C136 | Invariant of the loops: 1 <= i < N, j below the number of keys, N words. | **partial**. Proved for key lists that are not empty. REFUTED for the empty list, whose first element is read. |
| C137 | Arithmetic over the integers and modulo 2^w. | **partial**. Proved for ranges that fit, with the exact condition. REFUTED for ranges of half the numbers of a signed type (overflow), for all numbers of an unsigned type (remainder by 0), and for nextInt(maxValue) with a negative bound. |
| C138 | Arithmetic. | **proved**.  |
| C139 | The fields of the word are disjoint; for 31 bits, bit by bit. | **partial**. Proved for RAND_MAX 2^15 - 1 and 2^16 - 1. REFUTED for 2^31 - 1 (glibc): the draws overlap and are joined by or. |
| C140 | The copying loops with a counter of the constructions that succeed, compared with those of CopyFacts; then the loop that destroys, which meets the marked raw slot. | **partial**. REFUTED for every map and every element: raw memory is destroyed as an element, or, when the first element is in slot 0, the arrays are lost. Proved: this is the outcome for all of them, and without an exception the copy is the usual one. |
| C141 | The transfer loop with the counter, compared with that of TableLoops; the marked raw slot is met by destroy. | **partial**. REFUTED for every map and every new capacity: the map counts the elements moved so far, destroying it destroys raw memory, and the old arrays are lost. Proved for all of them, with what is where. |
| C142 | Comparison of the throwing insertion with the successful one (`sim`): same controls, same slots but for a raw one at the new place (`hole`), which the search for the key and the traversal reach. | **partial**. REFUTED for every map and every absent key: the slot is marked as used before the element is constructed; afterwards looking up, erasing or inserting the key and traversing the map read raw memory. Proved for all of them (hash codes spread as in C46), with the size unchanged; a refused allocation comes first and changes what C51 says. |
| C143 | As C142, from the refinement of Flat16Calls. | **partial**. REFUTED for every map and every absent key, as C142; destroying the map is undefined as well. Proved for all of them under the conditions of C57. |
| C144 | As C142, from `emplace_new` of Robin16Refine; the elements that moved are the old ones. | **partial**. REFUTED for every map and every absent key, as C143, with 16 and with 8 control bytes compared at a time. Proved for all of them under the conditions of C110. |
| C145 | Invariant `iinv`: the controls satisfy the robin invariant (`ib`, sharing the list lemmas of RobinFacts), the indexes are a permutation of 0..size-1, and each control's home and hash bits are those of its slot's key. Refinement `istep`. | **proved**. For all sequences of calls from every reachable map (i_fine: keys spread as in C46, at most 2^32 entries); at most eleven entries need no condition on the hash. find of absent keys is C146. |
| C146 | From `iinv`: the search for an absent key ends without a hit and find returns the position behind `max_slot_capacity` controls, never below size. | **partial**. REFUTED for every reachable map with storage and every absent key: find returns the slot behind the whole slot array, end() is the slot behind the last entry. Proved: find of a present key gives its entry and differs from end(). |
| C147 | `scan64_leaves`: empty controls have a positive 64-bit value, so the scan runs to the end of the array. | **partial**. REFUTED for every map with an entry: the loop that looks for an empty control compares the whole 64-bit control, which is positive for empty controls, and leaves the array. Proved: copying an empty map works. |
| C148 | Computed counterexamples. | **refuted**. REFUTED three times: 12 keys at the last home, erase of the twelfth returns 0 and does nothing; 129 keys at one home, erase of one loses another (the distance is kept in 8 bits); 18 keys at the last home, the search leaves the controls. With spread keys C145 holds. |
| C149 | `iagrees` strengthened with the list of the slots: insertion appends, erase swaps the last one in, rehash keeps the slots. | **proved**. order_step of IndirectSpec.v, for all covered calls on all reachable maps. |
| C150 | Case analysis of the calls that throw: the only member changed is the mask or the lookups, which search and traversal of a spread map do not notice; counterexample computed. | **partial**. REFUTED: the mask is replaced before the allocation, so clear() after an insertion that threw writes behind the controls. Proved: traversal, size, contains and find give the same as before for all calls that throw. |
| C151 | Reachability includes move; counterexample computed. | **partial**. REFUTED: inserting into the source of a move writes to the constant default controls. Proved: the new map has the entries and keeps agreeing with the abstract map, the old one traverses as empty. |
| C152 | Reachability includes swap, since no member refers to the map itself. | **proved**. Both maps traverse as the other did and agree with the other's abstract map for all sequences of calls; other than in C50 the iterators do not refer to the controls. |
| C153 | Vectors as lists of 32 bytes, split into variables; each index computes. `replaced` states the words read back. | **partial**. REFUTED for mm256_insert_epi32 with AVX2 and every odd index: the 64-bit broadcast of a 32-bit number puts 0 there. Proved: all extractions, 16 and 64 bit insertions in both branches, 32 bit insertions with AVX or an even index. |
| C154 | Integer arithmetic on the lowest four bytes; counterexample computed. | **partial**. REFUTED for mm256_cvtsi256_si32_high: it shifts a signed number, so the upper sixteen bits of the result are copies of the sign (exact value proved). The others are proved. |
| C155 | Saturating subtraction keeps the sign of the difference (`subs_sign`); induction over the vector. | **proved**. For all vectors; the code is used by flat16_hash_map.h. |
| C156 | The helper's position is never written by others, so the writes commute with it; induction over the helpers. Counterexamples computed. | **partial**. REFUTED: helpers recovered in another than the reverse order leave a terminator in the buffer; the destructor of a copy writes the old character again; detach keeps the reference if nothing is truncated. Proved: one helper with any writes elsewhere, any number of helpers in reverse order. |
| C157 | Invariant `va_ok`: no pointer twice, all of them alive. Counterexamples computed. | **partial**. REFUTED: clear, pop_back and shrinking with resize leak. Proved: nothing is deleted twice and the leaked elements are exactly those no longer in the array; none leak without these three. |
| C158 | Sum of ones; counterexample computed. | **partial**. REFUTED for both maps: bucket_size is always 1, the sum is the capacity (proved for all tables). |
| C159 | Folds without wrapping are sums and lengths of filters. | **partial**. Proved for all containers whose bucket sizes add up to their size. REFUTED for the group15 and group16 maps (C158): total is the capacity, the assert in read_bucket_sizes fails, and the number of unused buckets wraps for every table that is not full. |
| C160 | Induction over the recursion of the templates, with the power tried so far as measure. | **proved**. For all 64-bit numbers and both families; 0 gives 0, and numbers without a representable answer give 2^64-1. |
| C161 | The templates are iterated doubling and halving of a rounded number. Counterexample computed; every other number is covered by comparing logarithms. | **partial**. REFUTED for countTrailingZeros: right for powers of two only, wrong for every other number (it is the logarithm rounded up). Leading zeros are proved for every number except 0. |
| C162 | The functions as compositions of the bit scans proved in C161 and earlier; counterexamples computed. | **partial**. REFUTED: log2_int gives 2^w-1 instead of w above 2^(w-1), and countLeadingZeros counts 32 bits for 8 and 16 bit types. All rounding functions, bit scans, trailing zeros and the logarithm of smaller numbers are proved. |
| C163 | Invariant: the size lies between the growth limits of the capacity and of half of it. | **proved**. With the default load factor. With erasures the capacity is not bounded by the size: C31. |
| C164 | The moved elements are the sum of the growth limits passed, which double. | **proved**. With the default load factor; every call returns. Moved elements: all present ones at every change of capacity. |
| C165 | Arithmetic modulo 2^32. | **partial**. Proved for types of at most 32 bits, with the exact collisions; REFUTED for 64-bit types. |
| C166 | StrLen finds the terminator (C88 ff.); computation for the empty string. | **partial**. Proved for all non-empty strings; REFUTED for the empty one with CRC32C, all hashes of the empty string are given. |
| C167 | Case analysis of emplace_impl; insertion lemma of C02. | **partial**. REFUTED: lvalue pairs and converted keys are moved from. Proved: the map does not depend on the category; const pairs, pairs whose key is present, failed insertions and lvalue keys and values keep their arguments; the exact remains. |
| C168 | Induction over the rounds. | **partial**. REFUTED for iterators that are not const: the moved-from first pair is inserted as well. The exact result is proved, and that the tables' own insert inserts the whole range. |
| C169 | As C168; replacing a value keeps the invariant. | **refuted**. REFUTED for every source map: the value of its first element is moved out. |
| C170 | Growth doubles the control capacity (C11). | **partial**. REFUTED: undefined exactly when the insertion grows the map. Proved in all other states. |
| C171 | clear (C15) and range insertion (C21). | **partial**. REFUTED: only the first element is inserted; undefined for group15 maps without storage. The exact result is proved. |
| C172 | Invariant of the growth limit over `loaded` executions; limit of each capacity (C11). | **partial**. REFUTED in four ways with witnesses. Proved for group15 maps above the smallest capacity, built without shrink_to_fit and failed settings: at most one element above the maximum. |
| C173 | Prefix of the transfer loop (C10, C141); refinement from the remaining state (C02). | **partial**. REFUTED when the map grows. Proved: unchanged map if the new key's hash throws; exact loss otherwise, and that what is left behaves as a map of the elements hashed so far; copies clean up. |
| C174 | Case analysis. | **partial**. REFUTED for every insertion of a new key. The exact outcome is proved for all calls. |
| C175 | Simulation between the loop on slots and the loop on memory cells with two pointers (`held`); then equality of the calls with those of RobinModel.v along the invariant of C43. | **partial**. REFUTED when a displacement finds no place (thirteen insertions reach it); that outcome is proved undefined for every such state. Proved: all sequences of calls while the keys are spread, with up to eleven entries for every hash, and every displacement that finds a place in any state. |
| C176 | Witness. | **refuted**. REFUTED for elements of more than 16 bytes without member swap that move without throwing, which are in place only with a custom layout policy. |
| C177 | Case analysis on the first round of emplace, with the lemmas of C145. | **partial**. REFUTED when the first attempt finds no place. Proved for every reachable map while the keys stay spread, for every hash with up to eleven entries by C145's condition. An exception also leaves the temporary. |
| C178 | Unfolding; witnesses of equal letters. | **partial**. REFUTED for keys of 96 (TRIADii) and 192 (penumbra) bytes: no two of the three builds agree. Proved for all shorter keys. The build with 32-bit lanes is one with __AVX__ or __SSE4_1__ but without __SSE2__, as with MSVC. |
| C179 | Each call with its book follows the call of RobinModel.v; invariant: the live blocks are the two that the members describe. | **partial**. REFUTED when a request is refused. Proved for all defined runs in which no call throws, without a condition on the keys. |
| C180 | As C179, with Flat16Model.v. | **partial**. REFUTED when slots are refused. Proved for all defined runs in which every exception comes from operator new[] and outside clear(), without a condition on the keys. |
| C181 | As C179, with Robin16Model.v. | **partial**. REFUTED when slots are refused. Proved for all defined runs in which every exception comes from operator new[] and outside clear(), without a condition on the keys. |
| C182 | As C173: prefix of the transfer loop, refinement of RobinRefine.v from the remaining state. | **partial**. REFUTED when the map grows, shrinks or is rehashed. Proved: unchanged map if the new key's hash throws; exact loss otherwise, and that what is left behaves as a map of the elements hashed so far. |
| C183 | Induction on the recursion of find_and_prepare_insert with the number of calls left; transfer loop by induction on the used slots. | **partial**. REFUTED: std::terminate. Proved: the exact number of calls of the hasher, 1 + g (s + 1) for an insertion that doubles the capacity g times with s entries, s for a rehash that changes the capacity, and that the call ends the program if and only if one of these throws. |
| C184 | As C183, with the lemmas of Robin16Refine.v. | **partial**. REFUTED: std::terminate. Proved: the exact number of calls of the hasher, as in C183. |
| C185 | The invariant of the tables does not need the equality: it is taken for the equality that is never true (`tame`), and the search is related to it by induction on the probe sequence (`CompareFacts.v`). | **proved**. Any function of the comparisons made so far in the call, with exceptions, in place of the equality. |
| C186 | As C185. | **proved**. The only failure left is an insertion that does not end (C09); see C185 for group15. |
| C187 | Case analysis of the end of the search; the table is changed only after it. | **proved**. Includes refused memory; max_load_factor() is left out, which keeps the new factor when its rehash throws. |
| C188 | Induction on the probe sequence with the list of slots looked at, which are distinct because the prober repeats no group. | **proved**. The list of compared keys is part of what the search returns in the model. |
| C189 | The invariant `core` does not need the equality: it is taken for the equality that is never true (`tame`), and the search is related to it by induction on the windows (`Compare2Facts.v`). | **proved**. Any function of the comparisons made so far in the call, with exceptions, in place of the equality; the sequence ends when memory is refused. |
| C190 | From C189's simulation; witness by computation. | **partial**. REFUTED: an insertion into a full map grows it and compares again; if that comparison throws, the capacity has doubled. Proved: erasures and look-ups change nothing, insertions keep the entries and the size. |
| C191 | Induction on the windows with the list of slots looked at, which are distinct if the capacity is a multiple of sixteen (`Compare2Once.v`); witness by computation. | **partial**. REFUTED: in a map of four slots the group of sixteen control bytes shows the mirrored byte too, and the only element is compared twice. Proved for maps of sixteen slots or more. |
| C192 | The invariant does not need the equality: it is taken for the equality that is never true (`tame`), and the search is related to it by induction on the positions (`Compare3Facts.v`); witness by computation. | **partial**. REFUTED: a key that differs from itself (a NaN) can be inserted again and again, and the twelfth insertion of the key 31 moves past the last position. Proved as long as the stored keys, each counted as often as it is there, are spread as C43 asks (any eleven are). |
| C193 | From C192's simulation. | **proved**. Comparisons are made before anything is changed, and not again after growing. |
| C194 | Induction on the positions with the list of keys compared; the bound is the invariant's bound on distances. | **proved**. Any function of the comparisons made so far, with exceptions, in place of the equality. |
| C195 | The invariant of Robin16Facts.v is taken for the equality that is never true; the entries that a search meets are computed as a row of slots, and a search with any answers follows that row (`Compare4Facts.v`, `Compare4Calls.v`); witness by computation. | **partial**. REFUTED: a key that differs from itself (a NaN) can be inserted again and again, and 257 insertions, each of which reports success, leave 255 elements, or lose one that is not destroyed. Proved as long as the stored keys, each counted as often as it is there, meet the conditions of C110 (any 129 are spread well enough); for an erasure every element with the control byte of the key counts. |
| C196 | From C195's simulation; witness by computation. | **partial**. REFUTED: an insertion compares the key again after growing, so that an exception may leave a map with more slots. Proved: the entries and the size are kept, and look-ups and erasures that throw change nothing at all. |
| C197 | The row of a search has no position twice and ends within 129 slots. | **proved**. Any function of the comparisons made so far, with exceptions, in place of the equality. In maps with less than sixteen slots the control byte of the key is not zero (q_seen), as in C104. |
| C198 | The copy is a run of insertions with the default functions into an empty map (`FunctorFlat16.v`); witnesses by computation. | **partial**. REFUTED: the copy constructor default-constructs the hasher and the key equality (flat16_hash_map.h:989-1010), so that the copy does not find a key that the original finds, or holds two equal keys. Proved: size and elements are those of the original, and if the default equality tells the keys apart the copy is the same map for its own functions. |
| C199 | As C198, with the conditions on robin16 clients (`FunctorRobin16.v`); witnesses by computation. | **partial**. REFUTED: the copy constructor default-constructs the hasher and the key equality (robin16_hash_map.h:1363-1386), with the effects of C198. Proved: if the default equality tells the keys apart, and the default hasher spreads them as C110 needs, the copy is the same map for its own functions. |
| C200 | From the copy, move and swap lemmas of the maps, with a record for the functions (`FunctorFacts.v`, `FunctorRobin16.v`). | **proved**. For group copy assignment the contents are the subject of earlier properties; here the functions, and the contents where the capacities differ or the source is empty. The robin copy needs the spread of C48. Function objects are taken to be copied by move. |
| C201 | From the search lemmas (`QueryFlat16.v`, `QueryRobin16.v`, `QueryRobin.v`); witnesses by computation. | **partial**. REFUTED for all three maps: bucket_count() is the constant 16 (flat16, robin16) or the number of elements (robin), while bucket() is the number of a group or of a slot. Proved: bucket() is the group (flat16) or slot (robin16, robin) that holds the key, and npos or one past the last slot exactly when the key is absent. |
| C202 | From the search lemma (`QueryRobin16.v`). | **proved**. With q_seen for the key, as in C104 and C110. |
| C203 | From the search and increment lemmas; the entries with a key are at most one (`QueryFacts.v`). | **proved**. For robin16 with q_seen for the key. |
| C204 | As C203 (`QueryRobin.v`); witness by computation. | **partial**. REFUTED for a map without storage: find() is not end() (C46), the range is [0, 4), and reading its first element follows a null pointer. Proved for maps with storage. |
| C205 | From the invariants; witness by computation. | **partial**. REFUTED for a robin map without storage: 0 / 0. Proved for robin maps with storage (at most one half, unless the load factor was raised or the map shrunk) and for flat16 and robin16 maps. Conversion to float and rounding are not modelled. |
| C206 | Induction over the list with the invariant that size plus the rest of the list is within the threshold (`FromFlat16.v`, `FromRobin16.v`, `FromRobin.v`); the entries by `FromFacts.v`. | **proved**. For robin16 with spread keys (q_fine), and with q_seen: at least sixteen slots, or no key with a zero tag; for robin with spread keys. The range is modelled as a list that can be walked twice. |
| C207 | Witnesses by computation (`FromWitness.v`). | **refuted**. REFUTED for all three maps: these constructors have no try block, and the destructor does not run. When memory is refused no element exists yet (C206). |
| C208 | Potential argument over the calls (`Growth2Facts.v`, `costs_bound`): each call keeps the capacity, or doubles it when the map is exactly half full (`Growth2Flat16.v`). | **proved**. A call that throws ends the count. Cost is counted in reallocations and moved elements, not in comparisons. |
| C209 | Potential argument over the calls (`Growth2Facts.v`, `costs_bound`): each call keeps the capacity, or doubles it when the map is exactly half full (`Growth2Robin16.v`). | **proved**. As C208; keys as in C101 (q_fine, q_seen). |
| C210 | Potential argument over the calls (`Growth2Facts.v`, `costs_bound`): each call keeps the capacity, or doubles it when the map is exactly half full (`Growth2Robin.v`). | **proved**. As C208; keys as in the robin refinement (spread_all 2). |
| C211 | The invariant shows that the destruction succeeds; then the two requests of create_group decide (`ClearFacts.v`). | **partial**. REFUTED for flat16 and robin16: clear(true) first destroys the old table and then allocates a new one. Proved: the exact condition for them, and that clear of a robin map never throws. |
| C212 | Field by field from the copy and move lemmas; the members that differ are not read by these calls (`TakeFacts.v`). | **partial**. REFUTED: the moved or assigned map has a null or foreign last_slot_, find of an absent key is undefined. Proved: the operations are defined and change nothing if memory is refused; iteration, size, contains and the function objects are those of the source; with different allocators the source keeps its elements. |
| C213 | rehash_impl gives equal results for maps that differ in last_slot_ and slot_threshold_ only (`rehash_alike`); then the reachability of the source. | **partial**. REFUTED for calls that keep the capacity. Proved: every call that changes the capacity, and clear(true) of a map with storage, gives a map that agrees with the abstract map for all further calls; any reserve repairs the source of a move. |
| C214 | operator -- finds the last element in front of a position (`prev_spec`), by induction on the position. | **proved**. For the layout without indirection; begin() itself is not decremented. std::erase_if, which walks like this, does not compile (erase(iterator)). |
| C215 | `x & ~(2^k - 1)` is `2^k * (x / 2^k)` (`land_align`); the sum is split by its overflow (`round_sum`). | **partial**. REFUTED: within one alignment of 2^64 both return 0 without any failed assertion. Proved for every argument whose rounded value fits, and that the wrap-around gives 0 for all others; check_alignment and the rejected alignments without exception. |
| C216 | Induction on the length of the ranges (`swap_loop_spec`). | **partial**. REFUTED if NDEBUG is not defined: first1 has reached last1 when the assertion computes their distance, so that every call with a non-empty range aborts. Proved without assertions; iterators are pointers into one memory. |
| C217 | Arithmetic; the multiplier exceeds 2^12. | **partial**. REFUTED where unsigned long has 32 bits: the product is cut and twelve bits are shifted out. Proved: both mum variants; fibonacci_hash32 is injective with 64-bit longs. |
| C218 | Bounds of the hashes before the shift. | **partial**. REFUTED for the fibonacci policy: fibonacci_hash32 has twenty bits, so that only slots below capacity / 4096 are indices, as with 64 bits (C82). Proved: the range, for the mum policy with and without excluded keys. That every slot is an index under the mum policy is not claimed. |
| C219 | Induction on the length of the range (`walk_spec`, `r_walk_spec`); linear arithmetic. | **proved**. Pointers are positions in one array; positions outside are undefined behaviour. string_iterator repeats const_string_iterator; one model serves both. |
| C220 | Case analysis; a reference to a local is the outcome Dead, whose use is undefined. | **partial**. REFUTED for both string iterators: *it++ uses a dead object, in every call. Proved: the iterator itself moves; reverse_iterator returns the old iterator. |
| C221 | Induction on the number of steps; the overloads equal one expression (`advance_agree`). | **partial**. REFUTED for negative offsets of input and forward iterators, which are ignored. Proved otherwise; backwards the distance of iterators without random access is undefined behaviour. Iterators are positions in an array; differences do not overflow. |
| C222 | Induction on the fuel of each loop; the searches of the two models return the same, and growing does not depend on the key equality. | **proved**. Group15, group16, flat16, robin and robin16 maps. |
| C223 | Witnesses by `vm_compute`. Partial: under the conditions of C43 one round of `r_emplace_c` suffices, so that an exception is that of the first search, which compares no element twice (`search_c_once`). | **partial**. REFUTED for robin and robin16 maps: after twelve (130) insertions another one displaces elements, finds no place, grows the map and compares with the same element again; an exception then leaves a larger map. Proved for robin hood maps whose keys are spread (C43). |
| C224 | n & (n - 1) is 0 only for a power of two (`land_pred_0`); for n = 2^i * (2m + 1) it is 2^i * 2m, bit by bit (`clear_odd`). | **partial**. REFUTED for 0: the comment at Power2.h:417 demands N && ..., the code has no such test. Proved for all other numbers; clear_low_bit is proved for all numbers. |
| C225 | `erase_slot_spec` keeps the invariant; the slots behind the position are unchanged (`elems_seti_split`), and operator++ finds the next used one (`incr_spec`). Witness by `vm_compute`. | **partial**. REFUTED for maps with an entry sixteen or more slots behind its first one: another key is lost (as C60). Proved for all other maps, with the same resulting map as erase(key). erase(iterator) and erase(first, last) do not compile. |

In `MANIFEST.json` a refuted property has the status `partial` and a note that
starts with REFUTED.

## Findings

Traced through the C++ text; each is a `_refuted` theorem.

1. group15 `shrink_to_fit()` may choose a capacity whose threshold is below the size
   (112 entries, threshold 104).  Erasures from overflowed groups then lower
   `slot_threshold_` below zero; it wraps to 2^64-1, the table is never grown again,
   fills up, and an insertion loops for ever (C08).  `shrink_to_fit(true)` itself can
   loop.
2. group16 raises `slot_threshold_` when it reuses a slot of a group that overflowed
   for the class of the new key, but erasing lowers it only if the group overflowed for
   the class of the erased key.  The threshold exceeds the number of slots, the table
   fills up, and an insertion loops for ever after a single erasure (C09).
3. group15 `reserve(n)` ignores the end mark and the 15/16 ratio: n insertions may
   reallocate (C12).
4. `clear()` on a new group15 map writes to constant memory (C15).
5. A throwing element constructor leaves a control byte without an element (C18).
6. A copy with the capacity of its source has size 0 (C19); the same for a move with a
   different allocator.
7. `insert(first, last)` inserts the first element again and again (C21).
8. Several 64-bit portable fallbacks are wrong (C29).
9. Churn with at most 16 live entries grows a group15 map without bound (C31).
10. `reserve(0)` destroys the content (C32); `max_load_factor(x)` always doubles (C33);
    `reserve(2^56)` wraps around and returns normally (C34).
11. group16 leaks its group array when the slot allocation throws (C39).
12. `erase_if` on group15 decrements a null iterator (C40); `clear()` keeps a lowered
    growth limit (C42).
13. The byte count of the one-block layout can wrap for slots of 2 MiB and more (C30).
14. robin_hash_map: the distance limit is dead code (an 8-bit number is compared with
    `max_lookups << 8`), so twelve keys that share the last position write behind the
    slot array, and 129 keys with one home make a distance read as negative (C45).
15. robin_hash_map: `find` of an absent key differs from `end()` in a map without storage
    (C46) and after a failed growth (C51); the moved-from map keeps its threshold and
    writes to constant memory (C49); `swap` and assignment leave `last_slot_` behind
    (C50); `clear()` without storage writes to constant memory (C52); shrinking may
    overflow the smaller arrays (C53); `max_load_factor` keeps the old limit (C56).

16. flat16_hash_map: `erase` decides from the group of the erased slot alone whether to mark
    it empty, and so ends the search for entries placed behind it (C60).
17. flat16_hash_map: `drop_deleted_no_grow` skips the slots it should move and moves those
    it should skip; it runs after erasures or a changed load factor (C61).
18. flat16_hash_map: `clear()` resets only part of the control bytes, leaves entries to be
    found and may remove the end mark (C63); small capacity requests loop for ever (C64); a
    copy fills up and then loses everything (C66); refused slots lose the entries (C67);
    `left_empties_` wraps (C68); `matchEmptyOrDeleted` computes the exclusion of the end mark
    and discards it (C69).
19. `hash_crc32` and `primaryHash` read up to 7 bytes beyond a key (C74, C76); this includes
    `float` keys of `hash_helper` (C84).  Keys that differ in zeros at the end collide (C75).
20. `hash_helper<T *>` hashes eight bytes of the object pointed at instead of the pointer (C87).
21. `string_hash_helper` with Times31 reads twice or four times the length of a wide string
    (C85).
22. `fibonacci_hash_policy` maps every key to slot 0 up to 2^28 slots: `fibonacci_hash64` keeps
    36 bits and the policy shifts once more (C82).  Both policies do so for string keys
    with a hasher of 32 bits.
23. The generic `uint128_mul` drops a carry (C78); `primaryHash` for machines that are not x86
    joins words wrongly and depends on the address (C77); `msvc_fnv_1a` differs from FNV-1a for
    4 and 8 bytes (C79); the rocksdb hash shifts negative values (C86); +0.0 and -0.0 hash
    differently (C84); the upper half of `int_hash_crc32` adds nothing (C83).
24. fnv1a.h: the two halves of a key overlap unless its length is a multiple of the step, and
    changes in the overlap can cancel out (C89).  `_rotl_twise128` shifts by five bytes instead
    of rotating by five bits; the dropped bytes do not enter the hash (C90).
25. sha1.h: the length does not enter `sha1_x86`, so zeros at the end go unnoticed (C92).
    `sha1_msg2` reads up to 15 bytes beyond a key (C93), and two fixed bits of every 64-byte
    key cancel (C94).
26. Strings: stl::StrEqual with two lengths lacks a `return` (C95); the C library variant stops
    at zeros (C95, C99); the word and SSE variants read behind the strings (C96) and look only
    at part of wide strings (C98); the SSE variant takes all strings of 2^31 to 2^32 characters
    for equal (C97); memcmp does not order wide characters (C99).  `<=` and `>=` of
    string_view are `>` and `<`, and `<`, `>` depend on the values memcmp returns (C100); substr
    overflows, copy returns 0 (C101); a default view is smaller than itself (C102).
27. robin16_hash_map: `erase` runs over the end of the slots when displaced elements continue in
    slot 0 (C103); in maps with less than 16 slots the padding words match keys whose second hash
    is 0 (C104); `clear(false)` keeps the copied control words (C105); `max_load_factor` does not
    recompute the threshold (C106); refused slots lose the elements (C107); a moved-from map has
    null pointers that everything reads (C108); the 256th key with the same position is lost
    (C109).  erase(iterator), erase(first, last) and erase_if do not compile.

28. formatter.h: count_digits of two bytes is at most 3, and the least integers overflow (C125);
    itoa writes outside its buffer for wide characters (C126) and loses the last two digits of
    64-bit numbers (C127); to_hex swaps constructor arguments (C128); %c prints a number, %i and
    %x nothing (C129); %% ends the output of sprintf_direct (C130); sprintf never returns (C131).
    No other file includes formatter.h.

29. MT19937_32.h and MT19937_64.h: `next_state` reads `p[N - M]` instead of `p[M - N]`, behind the
    state array, so every first `rand()` and every `srand()` is undefined (C132); the 64-bit file
    seeds with the shift of the 32-bit one (C133) and has the masks of r = 63 (C134); an empty key
    list is read (C136).  The benchmarks use these generators.
30. RandomGen.h: ranges of half the numbers or more overflow or divide by 0, and
    `nextInt(maxValue)` takes a negative bound for a large one (C137).  LibcRand.h joins overlapping
    draws, so with glibc some bits are set three times out of four (C139).

31. Exceptions from element constructors in the two tables.  `copy_slots_array_from` begins
    to destroy at the very slot whose construction failed; if that is slot 0 nothing is destroyed,
    and nobody releases the arrays.  The other branch destroys a table with a marked raw slot
    (C140).  `rehash_impl` has no handler: the
    map has the new arrays with a marked raw slot, the old arrays are lost (C141).
32. The robin, flat16 and robin16 maps mark a slot as used before they construct the element
    there, and have no handler: after a constructor that throws, every look-up of that key,
    every traversal and, in flat16 and robin16, the destructor read raw memory (C142-C144).
    This is so for every map and every new key.
33. robin_hash_map with large elements (indirect layout), for every map: `find` of an absent
    key never equals `end()` (C146), and no map with an entry can be copied (C147).
34. The same layout: `erase` compares a control's position with `max_slot_capacity`
    and takes keys behind it for absent; distances wrap beyond 128; colliding keys leave the
    controls (C148).  `clear()` after a failed growth writes behind the controls (C150), an
    insertion into a moved-from map writes to a constant array (C151).
35. BitVec.h: `mm256_insert_epi32` with AVX2 stores 0 at odd indexes (C153),
    `mm256_cvtsi256_si32_high` copies the sign (C154).
36. string_helper.h and string_view_array.h: helpers on one buffer must be undone in reverse
    order, copies write again (C156); `clear`, `pop_back` and `resize` leak (C157).
37. `bucket_size` of the two tables is always 1, so the analyzer's numbers are those of a
    full table and a difference wraps (C158, C159).
38. Power2.h: `countTrailingZeros<N>` rounds N up first, so it is wrong for all N that are not
    powers of two (C161); for narrow types `log2_int` and `countLeadingZeros` are wrong (C162).
39. hash_helper.h: integers that differ by a multiple of 2^32 have the same hash (C165); with CRC
    the empty string has the hash 0 by pointer and length, 2^32 - 1 as a string (C166).
40. group15 and group16 maps: `emplace(p)` with an lvalue pair that is not const moves from it, as
    do `emplace_hint` and `insert_or_assign` with a key of a convertible type (C167).  Range
    insertion with mutable iterators therefore empties the source, and inserts the moved-from pair
    as a second element (C168, C169).
41. An element of the map passed as mapped value is read after it has been freed if the insertion
    grows the map (C170).
42. `m = {…}` keeps the first pair of the list only (C171).
43. `load_factor()` can exceed `max_load_factor()`: the smallest maps and group16 maps after
    erasures reach 1.0, and a `max_load_factor(float)` that throws has already changed the maximum
    (C172).
44. A hasher that throws while a group map grows or rehashes loses all elements that have not been
    moved yet, and their memory (C173).
45. `emplace_impl(First, Args...)` destroys its temporary element after `transfer` has done so
    (C174).  Only an allocator with its own `construct()` selects that overload.
46. robin_hash_map with in-place elements that have destructors (`<int, std::unique_ptr<T>>`):
    when a displacement finds no place, `emplace_rich_slot` moves the element in the insertion
    slot onto itself and destroys it, and marks the slot as used (C175).
47. robin_hash_map: the exchange of `insert_to_place` constructs over the object that
    `construct_empty_slot` has put into the spare slot (C176).
48. robin_hash_map: `emplace` through a temporary element does not destroy it when the first attempt
    finds no place (C177).
49. fnv1a.h: the hash of a key of 96 (192) bytes depends on whether `__SSE2__`, only `__AVX__` or
    neither is defined (C178), so that hashes must not be stored or exchanged.
50. robin_hash_map: when the slots are refused after the controls were granted, the controls leak; when
    a rehash is refused, `max_lookups_` is already that of the new table, and the destructor returns the
    slots with a wrong size (C179).
51. flat16_hash_map and robin16_hash_map: `groups_` is overwritten before the slots are requested, so
    the old groups leak when these are refused; so do the groups of a constructor that throws (C180, C181).
52. robin_hash_map loses the elements not yet moved, and their memory, when the hasher throws during a
    growth (C182).  flat16_hash_map and robin16_hash_map declare `get_hash` noexcept without a condition:
    a hasher that throws ends the program (C183, C184).
53. An insertion into a full flat16 map grows it and then searches again; if the key equality throws
    then, or only then finds an equal key, the capacity has doubled although nothing was inserted (C190).
54. In flat16 maps of four or eight slots a search compares the same element twice, through its
    mirrored control byte (C191).
55. A key that differs from itself, such as a NaN, is inserted anew by every insertion.  All copies
    share a home, and the twelfth may run past the end of a robin hood table of 32 slots (C192).
56. The same key inserted 257 times into a robin16 map, with success each time, leaves 255 elements;
    with a destructor, one element is never destroyed (C195).
57. An insertion into a robin16 map compares the key again after growing; if that comparison throws,
    the map has grown (C196).
58. The copy constructors of flat16 and robin16 maps default-construct the hasher and the key equality
    instead of copying them: a copy may miss keys or hold equal ones (C198, C199).
59. bucket_count() is the constant 16 in flat16 and robin16 maps and the number of elements in a robin map;
    bucket() may be larger (C201).
60. equal_range() of a robin map without storage is a range of four positions, and its load_factor() is 0 / 0
    (C204, C205).
61. The constructors of flat16, robin16 and robin maps from a range or a list do not give back their storage
    and elements if an insertion throws (C207).
62. clear(true) of flat16 and robin16 maps allocates although it is noexcept: a refused request ends the program
    (C211).
63. Robin maps that are move-assigned, or moved with an equal allocator, have a null or foreign `last_slot_`, as
    swapped ones do (C212); a reserve to another capacity repairs them (C213).
64. `align_to` and `pointer_align_to` return 0 for arguments within one alignment of 2^64 (C215).
65. The assertion of `swap_ranges` computes the distance of the first range after its loop has consumed it: with
    assertions every call for a non-empty range, and swap of arrays, aborts (C216).
66. On machines of 32 bits the fibonacci policy uses capacity / 4096 slots (C218), the first one only up to 4096
    slots, for the same reason as with 64 bits (C82).
67. The postfix operators of the string iterators return a reference to a local object: `*it++` is undefined
    (C220).
68. `advance` ignores negative offsets of input and forward iterators (C221).
69. An insertion into a robin or robin16 map that displaces elements and finds no place
    compares its key with the same elements again after growing; an exception of the key
    equality then leaves a larger map. One insertion of a 131st key into a robin16 map can
    make 8192 slots of 512 (C223).
70. `is_pow2` answers true for 0, contrary to the comment above it (C224).
71. `erase(const_iterator)` of flat16 can make other keys disappear, as `erase(key)` does (C225).

## Trusted base

* Coq's kernel (8.16.1), including its virtual machine (`vm_compute`).
* `Print Assumptions` prints "Closed under the global context" for every theorem of
  `Properties*.v`: no axioms, neither own ones nor the standard library's.
* The fidelity of the model to the C++ text as cited in each definition, with the
  simplifications listed above.  The C++ code was read, not run.
