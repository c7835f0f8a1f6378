# Formal model of poplar-trie in Rocq (Coq 8.16.1)

Source: `/repo` (header-only C++17 library). Model and proofs: `/verif/rocq/theories`
(`Model/` = the code, `Props/` = specifications and final theorems, `Proofs/` = everything in between).

## 1. How the code is modelled

* **Outcomes.** Every C++ function becomes a total Gallina function returning
  `outcome A := Ret a | Throw e | UB | AssertFail | Diverge`.  Out-of-range vector access, null
  dereference, reading past a `char_range` or block, shifts by >= the word size are `UB`.  `assert` is always
  *checked* (a failing one is `AssertFail`), so a theorem that concludes `Ret` holds for debug and
  NDEBUG builds alike, and `AssertFail` means "the asserted condition is false", whatever the build.
  Two asserts that do fail on legal input carry a build flag (`dbg`):
  `plain_fkhash_trie::add_child`/`expand_` (`key != 0`) and `map::make_symb_` (`codes_[c] != 255`).
* **Words.** `uint64_t` values are `N` with explicit `mod 2^64` wherever the code can wrap
  (shifts left, multiplication, addition, subtraction, negation).  Block sizes (`length + sizeof(value)`)
  do not wrap because valid operations bound them (`valid_op`).
* **Loops.** `while`/`for(;;)` become `loop step s`, iteration with early exit and 2^64 steps of (binary)
  fuel; exhausting it is `Diverge`.  Theorems conclude `Ret`, hence prove termination.
* **Vectors.** `std::vector` is `vec A` = length + finite map with default, bounds-checked.
* **Heap.** Label buffers (`std::unique_ptr<uint8_t[]>`) live in a per-store heap `block id -> bytes`;
  value pointers are `(block id, offset)`; freeing removes the block, so dangling pointers are visible.
  `chunk_buf_` (a `std::vector<uint8_t>` that is appended to) gets a fresh block on every append (the
  standard allows any append to reallocate; pointers into it are therefore never assumed stable).
* **Templates.** Tries and label stores are records of operations (`trie_ops`, `nlm_ops`); `map` is a function
  of them, `if constexpr` on `trie_type_id` is a case distinction.  No functors, no module types.
  Template parameters are arguments: MaxFactor (1..99), value size, chunk size (8/16/32/64,
  basics.hpp:126-143), ValBits, the displacement parameters of the compact tries.
* **Floating point.** `max_size_` uses stdlib `SpecFloat` binary64 arithmetic (no axioms).

## 2. Files

| layer | model | proofs | specification / theorems |
|---|---|---|---|
| base | `Base`, `Tables` (generated lookup tables) | `BaseP` | |
| bits | `BitTools`, `BitToolsSse`, `CompactVector`, `BitVector`, `VByte`, `Hash`, `MaxSize` | `BitToolsP`, `BitTools2P`, `SelectP`, `SseP`, `CompactVectorP`, `BitVectorP`, `VByteP`, `HashP`, `MaxSizeP` | `Spec`, `BitProps` (C30-C39, C43) |
| open addressing | | `ProbeP` (linear probing over slots), `RemapP` (remapping during a Bonsai expansion) | |
| tables | `StdTable`, `CompactHashTable` | `StdTableP`, `ChtLinP`/`ChtWordP`/`ChtP`/`ChtSetP`, `TableHistP` | `TableSpec`, `TableProps` (C26-C29) |
| tries | `BonsaiRemap`, `PlainBonsaiTrie`, `PlainFkhashTrie`, `DspTable`, `CompactBonsaiTrie`, `CompactFkhashTrie` | `TrieRepP`, `PlainBonsaiP`, `PlainFkP`, `DspP`, `CompactBonsaiP`, `CompactFkP`, `TrieHistP`, `TrieInstP` | `TrieSpec`, `TrieProps` (C18-C25) |
| labels | `Heap`, `PlainNlm`, `CompactNlm` | `HeapP`, `EntriesP`, `PlainNlmP`, `CompactBonsaiNlmP`, `CompactFkNlmP`, `NlmHistP` | `NlmSpec`, `NlmProps` (C17, C40-C42) |
| map | `Map`, `PlainAliases`, `CompactAliases`, `Aliases`, `Instances`, `AllocBytes`, `Api`, `ApiTry`, `ApiString`, `Oom`, `Move`, `Destroy`, `Stats`, `Histogram`, `Visits`, `Slots`, `Program` | `StoreP`, `PairP`, `PlainOpsP`, `CompactOpsP`, `KeyP`, `PdtP`, `CountP`, `MapP`, `MapApiP`, `MapHistP`, `AliasP`, `SpecP`, `ReachP`, `InstP`, `AlignP`, `SumP`, `AllocP`, `LimitP`, `NulP`, `FastP`, `TryP`, `OomP`, `PresentP`, `StringP`, `OwnP`, `ShareP`, `LengthP`, `StatsP`, `HistP`, `StatsDefP`, `LifeP`, `VisitsP`, `VisitsPresentP`, `VisitsGrowP`, `ProgP`, `InstMoreP`, `InstNulP`, `InstAlignP`, `SlotsP`, `InstStepP` | `MapSpec`, `ReachSpec`, `MapProps` (C01-C08, C09a, C11a-C13, C15, C45), `LimitProps` (C09b, C10, C11b, C14, C16), `TrySpec`, `TryProps` (C44), `HashSpec`, `InstSpec`, `InstProps` (C46), `AlignSpec`, `AlignProps` (C47), `AllocSpec`, `AllocProps` (C48), `OomSpec`, `OomProps` (C49), `PresentSpec`, `PresentProps` (C50), `StringSpec`, `StringProps` (C51), `DestroySpec`, `DestroyProps` (C52), `ShareSpec`, `ShareProps` (C53), `StatsProps` (C54), `HistProps` (C57), `LifeSpec`, `LifeProps` (C11c), `VisitsProps` (C55), `ProgSpec`, `ProgProps` (C56, C16b), `InstMoreSpec`, `InstMore` (C46: C01, C12, C15, C44, C45 for every instantiation), `InstNul` (C10, C14 for every instantiation), `AlignInst` (C47 for every instantiation), `SlotsProps` (C58), `InstStep` (C46: C02, C04, C05, C06 for every instantiation) |

Every definition of `Model/` cites the file and lines it models.  Each `Props/*Props.v` ends with a
`Print Assumptions` of all its theorems and has examples that meet the hypotheses.

## 3. Properties: model and method

* **C01-C04, C07, C08, C12, C13, C15**: one refinement.  `MapSpec.v` is the specification: a history of
  `Update`/`Find` on a finite map from byte strings to byte strings.  Every alias meets the contract
  `store_ok` (trie + label store as a finite map from symbol paths to labels and values, `StoreP`, `PairP`,
  `AliasP`); over any such store the map refines a path-decomposed trie (`PdtP`, `MapP`), which refines the
  dictionary (`MapHistP`).  `C13` uses that every step concludes `Ret`.
* **C05** direct; the constructor's domain is exact (`C05_constructor_exact`), and what happens outside it is stated (`C05_constructor_limit`); **C06** invariant over histories.
* **C09** number of codes = number of distinct bytes branched on (`codes_ok`); release builds past the limit by computation; builds with assertions: the update invariant with the assertion of make_symb_ as a permitted stop (`update_body_gen`, `store_ok_weak`), for all instantiations and any bytes.
* **C11b, C29, C28b, C31c, C32b, C38c**: witnesses (closed computations checked by the kernel VM) or direct
  proofs; **C14** and **C16** are proved for every reachable non-empty map.
* **C10** `NulP`: find on "valid key + extra bytes" for every reachable map (the walk through the trie is the walk of
  the valid key; then the comparison at its last node decides), update of such a key on a new map and on a
  map with one key; update of any range that find accepts (the walk of update is the walk of find, see C50).  `InstNul` has the same (`C10_every_*`),
  and C14 (`C14_every_*`), for every instantiation: the proofs need one fact per label store, about its compare, and
  one about the add_child of the plain FK trie (`pack_nul`).
* **C44** the refinement of C01 once more, with the exception as an outcome: the number of codes is 254 before and
  255 after it and never exceeds 255 on such keys (`TryP`).
* **C45** the paths of all nodes are among the "slots" (label, j-th step node) of the path-decomposed trie (`CountP`);
  the store invariant `tight`: the capacity is the initial one or the previous doubling happened at 90%.
* **C46** the contract `store_ok` once more, for any template arguments (`Instances`, `InstP`); the refinement of C01 and
  C11a only needs the contract.  `InstStep` (C02, C04, C05, C06) and `InstMore` state C01, C12, C15, C44 and C45 for every instantiation (`C46_find`,
  `C46_same_contents`, `C46_default`, `C46_strong_guarantee`, `C46_one_node_per_key`, `C46_reserved`).
* **Any Hasher** (C18-C29, C46, C48): the models take the hasher as a parameter (`plain_hasher`: any function,
  `bij_hasher`: constructor, hash and hash_inv); the proofs use nothing of a plain hasher and of the others only that
  `hash_inv` undoes `hash` on every universe of 1 to 63 bits (`bijective` in `HashSpec.v`; `split_mix_hasher` by C30).
* **C47** the pointer relation of each label store fixes the offset; blocks are aligned as operator new returns them, so
  offsets decide alignment.
* **C48** the size of every vector is part of the invariants; the label counters are sums over the labels, each of
  which belongs to one key (`SumP`, `AllocP`); the table of large displacements has one entry a node and was doubled only
  when full (`st_snug`).
* **C49** `Oom.v` runs update with one allocation failing at a named place and returns the map as it is left at that moment
  (members are only written after the allocations of add_child, checked function by function in its first comment); the
  invariant of C01 with more step nodes, codes or a doubled table covers what is left.
* **C50** the walk of update along existing nodes: `store_ok` says of every add_child on an existing edge that it returns it and
  changes nothing, or only doubles an FK-hash table (`quiet` in `StoreP`); loop invariant in `PresentP`. For arbitrary byte ranges
  (`C50_update_as_find`) the two walks are run in lock step (`loop_lock`): each step of find that goes on is a step of update that goes on.
* **C51** the dictionary of C46 under the injection that appends the terminator; induction over the buffer for strlen.
* **C52** an ownership invariant of the label stores (every allocated block is held by exactly one owner), preserved by every
  operation that returns, whatever its arguments; destruction deletes what the owners hold, and deleting twice is UB in the model.
* **C53** induction over path-decomposed tries (`dvalid_ind`: the deepest label removed last): total label length + keys = 1 +
  distinct prefixes; the byte counters of the plain stores are that sum (`labels_ok` in `AllocP`).
* **C11a** heap invariant: blocks of the plain stores are never freed, moved or shared.
* **C11c** the store contracts carry a predicate of facts that survive every operation (`tok` in `StoreP`): the position
  of a label in an FK store, and the pointers of completed chunks (`closed_keeps` in `CompactFkNlmP`). `LifeP` counts
  newer keys against the number of nodes, which tells when a chunk is complete.
* **C17, C40-C42** label store invariants over histories of insert/append/expand.
* **C18-C25** refinement of each trie to `path -> node id`, then stated observationally for everything
  built by public operations (`built`, `dynamic_trie` in `TrieSpec.v`).
* **C26-C28** refinement to finite maps; the compact hash table in unrolled coordinates over Z.
* **C30** xorshift involution + kernel check of 63 x 3 inverse multipliers; **C39** invertibility of each step.
* **C31-C33** bit-level characterisation of get/set; **C34** induction; **C35-C37** digit decomposition and
  finite sweeps lifted by lemmas; **C43** both branches against the same specification; **C38** sweep over all (b, factor) in SpecFloat.
* **C54** the map with its counters (`Stats.v`) is erased to the map of `Map.v` by a simulation (outcome equality, no hypotheses); the
  capacity is 2^(initial bits + num_resize) as an invariant of every call that returns, shown for the four tries from their code; for the
  steps: steps + size() = nodes, carried through the loop of update with the invariant of C01 (a step is counted iff `add_child` adds);
  for the labels: a label store with the counters meets the contract of a label store with the counts in its invariant (`LengthP.v`), so
  the sum is that of C53 over the labels of the dictionary. A default-constructed map is replaced by map(0, 32) at its first update
  (`StatsDefP.v`), so that a history on it is one on map(0, 32).
* **C55** find and update with ghost counters (`Visits.v`: the counters are ours, not the source's; erasing them gives `Map.v`'s functions,
  outcome equality without hypotheses, by a simulation). The bound is an invariant of the loop: a matched prefix is never longer than what is
  left of the range (`compare_le`, for every label store in any state), and every step uses lambda matched bytes, every edge one byte.
  For a range that is found, update runs in lockstep with find, with equal counters (`VisitsPresentP.v`, the simulation of C50 with counters).
  The nodes an update adds are at most the children and steps it counts (`VisitsGrowP.v`: the accounting of C54 with the ghost counters in place of the statistics).
* **C56** programs over numbered map variables (`Program.v`: construction, default construction, move, `std::swap` as its three moves,
  destruction, calls; overwritten and dropped objects run their destructor; a ledger of the bytes allocated in the whole process, which only calls, construction and destructors change) against the
  relation `does` of `ProgSpec.v`. Invariant: every object is a life of C52, and every object that holds contents is the end of the
  history of these contents (C11c applied to that history and one more call). Each object has a heap of its own: that the allocator
  gives different objects different blocks is part of the trusted base, and so is that a `std::vector` assigned to itself by move
  releases its elements and is empty afterwards (libstdc++; the standard leaves it unspecified), which decides `x = std::move(x)`.
* **C57** the compact tries with `num_dsps_` (`Histogram.v`: add_child and both expansions again, with the counting) are erased to those of
  `Stats.v` (outcome equality, no hypotheses). The counts are an invariant of every call that returns (`HistP.v`, the framework of the
  capacity of C54): the auxiliary tables hold maps as large as the last two counts, whose keys are slots in use, so that an insertion is
  never an overwrite; for FK-hash the expansion's recount equals the number of old ids, by counting over the old slots.
* **C58** `find` with a ghost counter of the iterations of the probing loop of the trie (`Slots.v`; erasing it gives `Map.v`'s find for
  every map). A search that passes d slots passes d slots in use (`passed_count`: distinct ones, by their distance from the home slot),
  and the slots in use are those of the nodes (`pr_cnt` and its like), slot 0 of the plain Bonsai table aside; over the loop of find every
  search is one of those counted in C55 (`find_p_s`, `find_p_v`: a find with both counters is erased to either). The capacity of the table does not occur.

## 4. Hypotheses that appear in the map theorems

* `supported vs cb e ks`: sizeof(Value) >= 1; max(16, capa_bits) + log2(lambda) <= 55; the distinct
  keys passed to update need fewer than 2^(54-e) - 1 trie nodes, a key of n bytes counting 1 + (n-1)/2^e (`nodes_for`, C45);
  at most 254 distinct bytes, the terminator included.  These are the
  representational limits (slot number + symbol in one 64-bit word; C09).
* `valid_op`: keys end in their only NUL and are shorter than the address space (C10 shows what happens
  otherwise).
* `no_trap dbg a ks`: in a debug build of plain/semi-compact FK-hash maps the empty string is not used (C14 shows
  that this is needed).
* `yields a cb e ks r Q`: `r` returns with `Q`; for `compact_bonsai_map`/`compact_fkhash_map` only, when the keys need
  more than 3/4 * 2^max(16,capa_bits) nodes (`near_full`, same count), `r` may also be `AssertFail`.  Reason: those tries keep
  displacements >= 15 in a `compact_hash_table` over a universe of 2^capa_bits slots, which by C29 cannot hold more than
  80% of its universe; the load limit of the trie is 90%, so keys whose nodes pile up can overflow it.  No bound on the
  number of displaced nodes holds for all inputs, so the reservation is part of the statements
  (`C19_exact`/`C21_exact` and the definition of `near_full` say when it cannot happen).  In a release build the same
  states shift by a wrapped width instead, which is undefined.  C46: the reservation needs an AuxCht with a lower load limit than the trie
  (`i_near_full`); `C46_no_reservation` covers all other instantiations, and
  `C46_reservation_needed` is a history of two updates that does hit the assertion.
* Tries: `built` allows every sequence of public operations whose identifiers come from the trie itself;
  `can_grow`/`may_add` keep slot + symbol within a word; expanding a plain Bonsai trie needs symb_bits >= 1.
* Compact hash table: cloning into a universe needs strict room because the first run of groups is
  processed twice by `clone`; an empty table never terminates (C28).
* C38: exact up to 2^49 slots; the map theorems only use what holds for all sizes.

## 5. Trusted base

* Coq's kernel including its VM (`vm_compute`, `vm_cast_no_check`), `coqc`, and the correspondence between `/repo` and
  `Model/` (checked by reading; lookup tables and constants are extracted from the sources by
  `tools/gen_tables.py`).
* **Print Assumptions**: "Closed under the global context" for every theorem named in `MANIFEST.json` (printed
  one by one in `BitProps` and `TableProps`, and for the tuples `trie_props`, `nlm_props`, `map_props`, `limit_props`, `try_props`, `inst_props`, `align_props`, `alloc_props`, `oom_props`, `present_props`, `string_props`, `destroy_props`, `share_props`, `stats_props`, `hist_props`, `life_props`, `visits_props`, `prog_props`, `more_props`, `nul_props`, `align_inst_props`, `slots_props`, `inst_step_props` of
  all theorems at the end of the other Props files).  The only axioms in the *loaded* libraries are the seven sealed constants of
  `Coq.ssr.ssrunder.Under_rel` (module sealing in the standard library's ssreflect, loaded by std++); no theorem
  depends on them.
* Libraries: Coq's standard library and std++ (finite maps, lists).

**Modelled**: `map.hpp` (constructors, find, update, size, capa_size, alloc_bytes, move constructor and assignment, destructor), the four tries (constructors, get_root, add_root,
find_child, add_child, get_parent_and_symb, needs_to_expand, expand with its node_map), the four label stores (compare, insert,
append, append_dummy, expand, size, label accounting, destructor; every new[] and delete[], deleting twice is UB), `compact_hash_table` (get, set, clone/expand), `standard_hash_table`
(get, set, expand), `compact_vector`, `bit_vector`, `bit_tools` (portable code and SSE4.2 branches; the compiler builtins popcount, ctzll, clzll after their documentation), `vbyte`, `hash`,
`bijective_hash::split_mix_hasher` (and any other Hasher argument, by its contract), `basics` (`make_char_range`, `size_p2`, `decompose_value`, chunk types), aliases of `poplar.hpp`.

**Not modelled**: memory exhaustion (`std::bad_alloc`) other than in update (C49; there a growing label buffer fails at its first
allocation only), strict aliasing and faults of
`reinterpret_cast<value_type*>` (reads and writes through unaligned pointers, C47, are modelled as byte copies),
the capacities `std::vector` chooses (`alloc_bytes`: a vector made with n elements and never resized has capacity n, the capacities of the growing vectors of the FK-hash stores are universally quantified), `rate_steps()`, the rates of the displacement histogram and the average label length as doubles, `show_stats`, the bench,
sample and test programs, concurrency (the library has none).

## 6. Testing the theorems

`seeded/mutations.py` lists the seeded bugs (file, text, replacement, the claim that becomes false, the files in which
the failure is expected), `tools/seed.py` applies them one at a time to a scratch copy in /tmp and rebuilds, and
`seeded/LOG.jsonl` records which theorems stopped proving.
