{
 "C30": {
  "note": "all universes of 1..63 bits, all points; table of 63 x 3 primes checked in the kernel"
 },
 "C31": {
  "note": "for every history of constructor + sets; total buffer below 2^64-64 bits"
 },
 "C32": {
  "note": "prefix kept and growth zero for never-shrunk vectors; shrink+grow exposes stale contents (witness)"
 },
 "C33": {
  "note": "for every history of constructor/set/append_bit/append_bits; get_bits with len = 64 evaluates 1<<64"
 },
 "C35": {
  "note": "portable (non SSE4.2) code"
 },
 "C36": {
  "note": "portable (non SSE4.2) code"
 },
 "C38": {
  "note": "all 58 x 99 combinations evaluated in binary64 by the kernel (SpecFloat); inexact from 2^50 on"
 },
 "C26": {
  "note": "every max factor 1..99 and both constructors; keys other than UINT64_MAX; fewer than MaxFactor% of 2^57 keys; any hash function"
 },
 "C27": {
  "note": "every value width and max factor; universes of 12..57 bits with slots below 64 bits; sets while the table holds fewer than MaxFactor% of the universe; any bijective hasher"
 },
 "C28": {
  "note": "also into a larger universe; strict room in the target universe is needed because clone processes the first run of groups twice"
 },
 "C29": {
  "note": "stated for every MaxFactor and value width; the fill level is shown reachable in every universe"
 },
 "C01": {
  "note": "all six aliases, all histories of update/find on valid keys within `supported`; compact_*_map may stop at an assertion only if the keys exceed 3/4 of the initial capacity (`near_full`)"
 },
 "C02": {
  "note": "all six aliases, all histories of update/find on valid keys within `supported`; compact_*_map may stop at an assertion only if the keys exceed 3/4 of the initial capacity (`near_full`)"
 },
 "C04": {
  "note": "all six aliases, all histories of update/find on valid keys within `supported`; compact_*_map may stop at an assertion only if the keys exceed 3/4 of the initial capacity (`near_full`)"
 },
 "C07": {
  "note": "all six aliases, all histories of update/find on valid keys within `supported`; compact_*_map may stop at an assertion only if the keys exceed 3/4 of the initial capacity (`near_full`)"
 },
 "C08": {
  "note": "all six aliases, all histories of update/find on valid keys within `supported`; compact_*_map may stop at an assertion only if the keys exceed 3/4 of the initial capacity (`near_full`)"
 },
 "C13": {
  "note": "all six aliases, all histories of update/find on valid keys within `supported`; compact_*_map may stop at an assertion only if the keys exceed 3/4 of the initial capacity (`near_full`)"
 },
 "C15": {
  "note": "all six aliases, all histories of update/find on valid keys within `supported`; compact_*_map may stop at an assertion only if the keys exceed 3/4 of the initial capacity (`near_full`)"
 },
 "C09": {
  "note": "first part for all histories within `supported`; C09_debug_stops: builds with assertions, any bytes, every instantiation; release builds past the limit: witness histories on all 18 alias/chunk-size combinations (256th code lost, then shared with NUL)"
 },
 "C11": {
  "note": "C11_stable_pointers: all histories that keep pointers, plain_bonsai_map and plain_fkhash_map; C11_pointer_lifetimes: all histories, every instantiation, pointers permanent from the start (plain), after ChunkSize newer keys (compact FK), or temporary; C11_dangling_pointers: witness for every alias with compact labels and every chunk size"
 },
 "C18": {
  "note": "every MaxFactor 1..99, capacity and symbol width within a word; full tries: see C25; any hash function"
 },
 "C19": {
  "note": "every template parameter; a compact trie may stop at an assertion when it has more nodes than its displacement table's load limit (C19_exact: never when MaxFactor <= AuxCht's); any bijective hasher"
 },
 "C20": {
  "note": "both builds; in debug builds the edge (root, 0) is excluded (C14); any hash function"
 },
 "C21": {
  "note": "as C19; C21_exact for MaxFactor <= AuxCht's; any bijective hasher"
 },
 "C24": {
  "note": "plain: symb_bits >= 1; compact: may stop at the assertion of C19"
 },
 "C10": {
  "note": "find: every reachable map, every valid key with every tail; update: every reachable map and every range that find accepts (C10_update_as_find), and new maps and maps with one key; demos on every alias; C10_every_*: the same on every template instantiation"
 },
 "C14": {
  "note": "stronger than a witness: every reachable non-empty map of the two aliases aborts; C14_aliases + no_trap in C01-C13 give the rest; C14_every_debug_empty_string, C14_every_other: every instantiation with a plain FK trie, and no other"
 },
 "C16": {
  "note": "std::vector is taken to be empty after being moved from (guaranteed by the standard for construction, true of the implementations for assignment); self-move: C56; plain stores stop at the assertion pos < size in debug builds C16_moved_from: the moved-from map for every instantiation."
 },
 "C49": {
  "note": "Failures are injected at named places of update (OomSpec.v); std::vector growth and release_buf_ in the middle of a label are represented by their first allocation. The damaging failures (label, dummy label, Bonsai doubling) are refuted by computed histories for each alias kind; C49_lost_label_counted is general."
 },
 "C50": {
  "note": "C50_update_present is stated on the state of the map (equal, or an FK-hash table enlarged with everything else equal); C50_pointers observationally. Same limits and reservation (i_yields) as C46. C50_update_as_find drops the validity of the key."
 },
 "C46": {
  "note": "C46_reservation_needed shows an instantiation (AuxCht load factor 1, a Hasher that sends children to the slot of their parent) in which the reserved assertion really fails within the other hypotheses. C46_find, C46_same_contents, C46_default, C46_strong_guarantee, C46_one_node_per_key and C46_reserved are the statements of C01, C12, C15, C44 and C45 for every instantiation, not only the aliases. C46_update_value, C46_other_keys, C46_invalid_keys, C46_constructor, C46_constructor_limit and C46_capacity_grows are C02, C04, C05 and C06; the constructor beyond the limit only for plain tries (that of a compact trie depends on the Hasher; C05_constructor_limit has it for the aliases)."
 },
 "C52": {
  "note": "C52_destroy for every state in `lives` (no validity of keys assumed; only that the calls returned or threw); C52_replaced for the two stores dropped without a destructor; C52_history for runs of find/update with failures. delete of an already released block is UB in the model, so Ret h means no double free."
 },
 "C53": {
  "note": "C53_labels and C53_exact: equalities (as long as the number fits in a uint64_t) for plain label stores; C53_order: equal key sets give equal alloc_bytes(); C53_alloc_bytes: the bound of C48 with the shared prefixes in place of the sum of the keys, for all instantiations."
 },
 "C54": {
  "note": "C54_same/C54_same_default: equality of the outcomes for all histories and keys; C54_resize/C54_resize_default for every history that returns; C54_steps (with C54_no_steps, C54_growth) on supported histories: steps + keys = nodes <= what the key lengths require. C54_lengths: max_length_ and sum_length_ of the label stores on supported histories (label_total of ShareSpec.v, independent of the store and of the order of insertion). The averages rate_steps() and sum_length_ / size() themselves are doubles and are not modelled: the theorems are about their numerators. C54_default: after the first update a default-constructed map behaves as map(0, 32) in all of this (any keys); C54_default_fresh: before it all counters are 0."
 },
 "C55": {
  "note": "C55_find/C55_update: any state of any instantiation; C55_reached adds that find returns after supported histories; C55_update_present: where find succeeds update makes the very same comparisons and lookups; C55_update_grows: the nodes an update adds are at most the children and steps it counted (plus the root of an empty trie); C55_find_same/C55_update_same: without the ghost counters the counted functions are the model's find and update. Counts calls of find_child/add_child/compare, not the probes inside the hash tables."
 },
 "C56": {
  "note": "C56_program and C56_all_released for all programs the specification `does_all` gives a meaning (C56_determined: one only). Calls stay within `room`: the supported region of C46 per map, without its reservation. Self-move is not modelled; each map has its own heap in the model. x = std::move(x) leaves x moved from and releases its blocks (std::vector of libstdc++), std::swap(x, x) changes nothing."
 },
 "C57": {
  "note": "C57_same/C57_same_default: equality of outcomes, maps and other counters with the build of C54 (and so with the plain build) for all histories and keys; C57_histogram and C57_total on the supported histories of C46, compact tries only (the plain tries have no such member). The rates printed by show_stats are doubles and not modelled: the theorems are about their numerators. C57_default/C57_default_fresh: the same for a default-constructed map."
 },
 "C58": {
  "note": "C58_same: without the ghost counter the counted find is the model's find, for every map; C58_per_lookup: every lookup of a child or step (the counts of C55) costs at least 1 and at most nodes + c slots; C58_find: the bound by the length of the key; both after any supported history, with find returning. Counts iterations of the probing loops of find_child (slots of the trie's table), not the probes inside the auxiliary tables of the compact tries' displacements."
 },
 "C47": {
  "note": "C47_offset_inst and C47_misaligned_inst: the same for every instantiation of the map template (the offset depends on the label store only)."
 }
}