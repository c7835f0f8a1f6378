{
 "claims": [
  {
   "property": "C01",
   "status": "proved",
   "theorems": [
    "C01_dictionary",
    "C01_find",
    "C01_find_null"
   ],
   "note": "all six aliases, all histories of update/find on valid keys within `supported`; compact_*_map may stop at an assertion only if the keys exceed 3/4 of the initial capacity (`near_full`)"
  },
  {
   "property": "C02",
   "status": "proved",
   "theorems": [
    "C02_update_value"
   ],
   "note": "all six aliases, all histories of update/find on valid keys within `supported`; compact_*_map may stop at an assertion only if the keys exceed 3/4 of the initial capacity (`near_full`)"
  },
  {
   "property": "C03",
   "status": "proved",
   "theorems": [
    "C03_size"
   ],
   "note": ""
  },
  {
   "property": "C04",
   "status": "proved",
   "theorems": [
    "C04_other_keys"
   ],
   "note": "all six aliases, all histories of update/find on valid keys within `supported`; compact_*_map may stop at an assertion only if the keys exceed 3/4 of the initial capacity (`near_full`)"
  },
  {
   "property": "C05",
   "status": "proved",
   "theorems": [
    "C05_invalid_keys",
    "C05_find_never_throws",
    "C05_constructor",
    "C05_constructor_limit",
    "C05_constructor_exact"
   ],
   "note": ""
  },
  {
   "property": "C06",
   "status": "proved",
   "theorems": [
    "C06_capacity",
    "C06_capacity_grows"
   ],
   "note": ""
  },
  {
   "property": "C07",
   "status": "proved",
   "theorems": [
    "C07_parameters"
   ],
   "note": "all six aliases, all histories of update/find on valid keys within `supported`; compact_*_map may stop at an assertion only if the keys exceed 3/4 of the initial capacity (`near_full`)"
  },
  {
   "property": "C08",
   "status": "proved",
   "theorems": [
    "C08_aliases"
   ],
   "note": "all six aliases, all histories of update/find on valid keys within `supported`; compact_*_map may stop at an assertion only if the keys exceed 3/4 of the initial capacity (`near_full`)"
  },
  {
   "property": "C09",
   "status": "proved",
   "theorems": [
    "C09_debug_stops",
    "C09_code_exhaustion",
    "C09_code_reuse",
    "C09_no_throw"
   ],
   "note": "first part for all histories within `supported`; C09_debug_stops: builds with assertions, any bytes, every instantiation; release builds past the limit: witness histories on all 18 alias/chunk-size combinations (256th code lost, then shared with NUL)"
  },
  {
   "property": "C10",
   "status": "proved",
   "theorems": [
    "C10_every_compact",
    "C10_every_plain",
    "C10_every_absent",
    "C10_every_not_counted",
    "C10_every_update_as_find",
    "C10_every_first_key",
    "C10_compact_wrong_value",
    "C10_plain_reads_value",
    "C10_update_not_counted",
    "C10_update_as_find",
    "C10_first_key"
   ],
   "note": "find: every reachable map, every valid key with every tail; update: every reachable map and every range that find accepts (C10_update_as_find), and new maps and maps with one key; demos on every alias; C10_every_*: the same on every template instantiation"
  },
  {
   "property": "C11",
   "status": "proved",
   "theorems": [
    "C11_pointer_lifetimes",
    "C11_dangling_pointers",
    "C11_stable_pointers"
   ],
   "note": "C11_stable_pointers: all histories that keep pointers, plain_bonsai_map and plain_fkhash_map; C11_pointer_lifetimes: all histories, every instantiation, pointers permanent from the start (plain), after ChunkSize newer keys (compact FK), or temporary; C11_dangling_pointers: witness for every alias with compact labels and every chunk size"
  },
  {
   "property": "C12",
   "status": "proved",
   "theorems": [
    "C12_order"
   ],
   "note": ""
  },
  {
   "property": "C13",
   "status": "proved",
   "theorems": [
    "C13_safe"
   ],
   "note": "all six aliases, all histories of update/find on valid keys within `supported`; compact_*_map may stop at an assertion only if the keys exceed 3/4 of the initial capacity (`near_full`)"
  },
  {
   "property": "C14",
   "status": "proved",
   "theorems": [
    "C14_every_debug_empty_string",
    "C14_every_other",
    "C14_debug_empty_string",
    "C14_aliases"
   ],
   "note": "stronger than a witness: every reachable non-empty map of the two aliases aborts; C14_aliases + no_trap in C01-C13 give the rest; C14_every_debug_empty_string, C14_every_other: every instantiation with a plain FK trie, and no other"
  },
  {
   "property": "C15",
   "status": "proved",
   "theorems": [
    "C15_default_find",
    "C15_default_update",
    "C15_default_history"
   ],
   "note": "all six aliases, all histories of update/find on valid keys within `supported`; compact_*_map may stop at an assertion only if the keys exceed 3/4 of the initial capacity (`near_full`)"
  },
  {
   "property": "C16",
   "status": "proved",
   "theorems": [
    "C16_move",
    "C16_plain_storage",
    "C16_assign",
    "C16_assign_from",
    "C16_moved_from"
   ],
   "note": "std::vector is taken to be empty after being moved from (guaranteed by the standard for construction, true of the implementations for assignment); self-move: C56; plain stores stop at the assertion pos < size in debug builds C16_moved_from: the moved-from map for every instantiation."
  },
  {
   "property": "C17",
   "status": "proved",
   "theorems": [
    "C17_plain_bonsai",
    "C17_compact_bonsai",
    "C17_plain_fkhash",
    "C17_compact_fkhash",
    "C17_no_leak_plain"
   ],
   "note": ""
  },
  {
   "property": "C18",
   "status": "proved",
   "theorems": [
    "C18_plain_bonsai"
   ],
   "note": "every MaxFactor 1..99, capacity and symbol width within a word; full tries: see C25; any hash function"
  },
  {
   "property": "C19",
   "status": "proved",
   "theorems": [
    "C19_compact_bonsai",
    "C19_exact"
   ],
   "note": "every template parameter; a compact trie may stop at an assertion when it has more nodes than its displacement table's load limit (C19_exact: never when MaxFactor <= AuxCht's); any bijective hasher"
  },
  {
   "property": "C20",
   "status": "proved",
   "theorems": [
    "C20_plain_fkhash"
   ],
   "note": "both builds; in debug builds the edge (root, 0) is excluded (C14); any hash function"
  },
  {
   "property": "C21",
   "status": "proved",
   "theorems": [
    "C21_compact_fkhash",
    "C21_exact"
   ],
   "note": "as C19; C21_exact for MaxFactor <= AuxCht's; any bijective hasher"
  },
  {
   "property": "C22",
   "status": "proved",
   "theorems": [
    "C22_plain_fkhash",
    "C22_compact_fkhash"
   ],
   "note": ""
  },
  {
   "property": "C23",
   "status": "proved",
   "theorems": [
    "C23_plain_bonsai",
    "C23_compact_bonsai"
   ],
   "note": ""
  },
  {
   "property": "C24",
   "status": "proved",
   "theorems": [
    "C24_plain_bonsai",
    "C24_compact_bonsai"
   ],
   "note": "plain: symb_bits >= 1; compact: may stop at the assertion of C19"
  },
  {
   "property": "C25",
   "status": "proved",
   "theorems": [
    "C25_plain_bonsai",
    "C25_compact_bonsai",
    "C25_reachable"
   ],
   "note": ""
  },
  {
   "property": "C26",
   "status": "proved",
   "theorems": [
    "C26_history",
    "C26_constructible"
   ],
   "note": "every max factor 1..99 and both constructors; keys other than UINT64_MAX; fewer than MaxFactor% of 2^57 keys; any hash function"
  },
  {
   "property": "C27",
   "status": "proved",
   "theorems": [
    "C27_history",
    "C27_history_wide"
   ],
   "note": "every value width and max factor; universes of 12..57 bits with slots below 64 bits; sets while the table holds fewer than MaxFactor% of the universe; any bijective hasher"
  },
  {
   "property": "C28",
   "status": "proved",
   "theorems": [
    "C28_copies",
    "C28_empty_diverges"
   ],
   "note": "also into a larger universe; strict room in the target universe is needed because clone processes the first run of groups twice"
  },
  {
   "property": "C29",
   "status": "proved",
   "theorems": [
    "C29_overfull",
    "C29_reachable"
   ],
   "note": "stated for every MaxFactor and value width; the fill level is shown reachable in every universe"
  },
  {
   "property": "C30",
   "status": "proved",
   "theorems": [
    "C30_split_mix_bijection",
    "C30_split_mix_constructible",
    "C30_split_mix_injective"
   ],
   "note": "all universes of 1..63 bits, all points; table of 63 x 3 primes checked in the kernel"
  },
  {
   "property": "C31",
   "status": "proved",
   "theorems": [
    "C31_compact_vector_array",
    "C31_compact_vector_constructor",
    "C31_width_zero_ub"
   ],
   "note": "for every history of constructor + sets; total buffer below 2^64-64 bits"
  },
  {
   "property": "C32",
   "status": "proved",
   "theorems": [
    "C32_resize_keeps_prefix",
    "C32_resize_stale_refuted"
   ],
   "note": "prefix kept and growth zero for never-shrunk vectors; shrink+grow exposes stale contents (witness)"
  },
  {
   "property": "C33",
   "status": "proved",
   "theorems": [
    "C33_bit_vector_list",
    "C33_append_total",
    "C33_get_bits_64_undefined"
   ],
   "note": "for every history of constructor/set/append_bit/append_bits; get_bits with len = 64 evaluates 1<<64"
  },
  {
   "property": "C34",
   "status": "proved",
   "theorems": [
    "C34_vbyte_roundtrip"
   ],
   "note": ""
  },
  {
   "property": "C35",
   "status": "proved",
   "theorems": [
    "C35_popcnt",
    "C35_get_set_bit"
   ],
   "note": "portable (non SSE4.2) code"
  },
  {
   "property": "C36",
   "status": "proved",
   "theorems": [
    "C36_select"
   ],
   "note": "portable (non SSE4.2) code"
  },
  {
   "property": "C37",
   "status": "proved",
   "theorems": [
    "C37_msb",
    "C37_ceil_log2",
    "C37_words_for",
    "C37_is_power2",
    "C37_bits_to_bytes"
   ],
   "note": ""
  },
  {
   "property": "C38",
   "status": "proved",
   "theorems": [
    "C38_load_limit_exact",
    "C38_load_limit_below_capacity",
    "C38_load_limit_rounding_refuted"
   ],
   "note": "all 58 x 99 combinations evaluated in binary64 by the kernel (SpecFloat); inexact from 2^50 on"
  },
  {
   "property": "C39",
   "status": "proved",
   "theorems": [
    "C39_vigna_injective",
    "C39_seeded_injective"
   ],
   "note": ""
  },
  {
   "property": "C40",
   "status": "proved",
   "theorems": [
    "C40_bonsai_insert",
    "C40_bonsai_compare",
    "C40_fkhash_append",
    "C40_fkhash_compare"
   ],
   "note": ""
  },
  {
   "property": "C41",
   "status": "proved",
   "theorems": [
    "C41_expand",
    "C41_moved"
   ],
   "note": ""
  },
  {
   "property": "C42",
   "status": "proved",
   "theorems": [
    "C42_compact_bonsai",
    "C42_compact_fkhash"
   ],
   "note": ""
  },
  {
   "property": "C43",
   "status": "proved",
   "theorems": [
    "C43_builds_agree",
    "C43_select_out_of_range"
   ],
   "note": ""
  },
  {
   "property": "C44",
   "status": "proved",
   "theorems": [
    "C44_one_throw",
    "C44_strong_guarantee",
    "C44_kept_pointers"
   ],
   "note": ""
  },
  {
   "property": "C45",
   "status": "proved",
   "theorems": [
    "C45_nodes",
    "C45_one_node_per_key",
    "C45_capacity",
    "C45_reserved"
   ],
   "note": ""
  },
  {
   "property": "C46",
   "status": "proved",
   "theorems": [
    "C46_find",
    "C46_same_contents",
    "C46_default",
    "C46_strong_guarantee",
    "C46_one_node_per_key",
    "C46_reserved",
    "C46_dictionary",
    "C46_no_reservation",
    "C46_agree",
    "C46_pointers",
    "C46_one_throw",
    "C46_bounds",
    "C46_aliases",
    "C46_reservation_needed",
    "C46_update_value",
    "C46_other_keys",
    "C46_invalid_keys",
    "C46_constructor",
    "C46_constructor_limit",
    "C46_capacity_grows"
   ],
   "note": "C46_reservation_needed shows an instantiation (AuxCht load factor 1, a Hasher that sends children to the slot of their parent) in which the reserved assertion really fails within the other hypotheses. C46_find, C46_same_contents, C46_default, C46_strong_guarantee, C46_one_node_per_key and C46_reserved are the statements of C01, C12, C15, C44 and C45 for every instantiation, not only the aliases. C46_update_value, C46_other_keys, C46_invalid_keys, C46_constructor, C46_constructor_limit and C46_capacity_grows are C02, C04, C05 and C06; the constructor beyond the limit only for plain tries (that of a compact trie depends on the Hasher; C05_constructor_limit has it for the aliases)."
  },
  {
   "property": "C47",
   "status": "proved",
   "theorems": [
    "C47_offset_inst",
    "C47_misaligned_inst",
    "C47_offset",
    "C47_misaligned"
   ],
   "note": "C47_offset_inst and C47_misaligned_inst: the same for every instantiation of the map template (the offset depends on the label store only)."
  },
  {
   "property": "C48",
   "status": "proved",
   "theorems": [
    "C48_alloc_bytes",
    "C48_trie_bytes",
    "C48_at_least"
   ],
   "note": ""
  },
  {
   "property": "C49",
   "status": "proved",
   "theorems": [
    "C49_failed_update_does_nothing",
    "C49_pointers",
    "C49_constructor",
    "C49_no_failure",
    "C49_lost_label_counted",
    "C49_lost_label",
    "C49_lost_dummy",
    "C49_lost_doubling"
   ],
   "note": "Failures are injected at named places of update (OomSpec.v); std::vector growth and release_buf_ in the middle of a label are represented by their first allocation. The damaging failures (label, dummy label, Bonsai doubling) are refuted by computed histories for each alias kind; C49_lost_label_counted is general."
  },
  {
   "property": "C50",
   "status": "proved",
   "theorems": [
    "C50_update_present",
    "C50_update_as_find",
    "C50_pointers"
   ],
   "note": "C50_update_present is stated on the state of the map (equal, or an FK-hash table enlarged with everything else equal); C50_pointers observationally. Same limits and reservation (i_yields) as C46. C50_update_as_find drops the validity of the key."
  },
  {
   "property": "C51",
   "status": "proved",
   "theorems": [
    "C51_dictionary",
    "C51_c_string",
    "C51_unterminated",
    "C51_embedded_nul"
   ],
   "note": ""
  },
  {
   "property": "C52",
   "status": "proved",
   "theorems": [
    "C52_destroy",
    "C52_replaced",
    "C52_history"
   ],
   "note": "C52_destroy for every state in `lives` (no validity of keys assumed; only that the calls returned or threw); C52_replaced for the two stores dropped without a destructor; C52_history for runs of find/update with failures. delete of an already released block is UB in the model, so Ret h means no double free."
  },
  {
   "property": "C53",
   "status": "proved",
   "theorems": [
    "C53_labels",
    "C53_exact",
    "C53_order",
    "C53_alloc_bytes"
   ],
   "note": "C53_labels and C53_exact: equalities (as long as the number fits in a uint64_t) for plain label stores; C53_order: equal key sets give equal alloc_bytes(); C53_alloc_bytes: the bound of C48 with the shared prefixes in place of the sum of the keys, for all instantiations."
  },
  {
   "property": "C54",
   "status": "proved",
   "theorems": [
    "C54_same",
    "C54_same_default",
    "C54_resize",
    "C54_resize_default",
    "C54_steps",
    "C54_no_steps",
    "C54_growth",
    "C54_lengths",
    "C54_default",
    "C54_default_fresh"
   ],
   "note": "C54_same/C54_same_default: equality of the outcomes for all histories and keys; C54_resize/C54_resize_default for every history that returns; C54_steps (with C54_no_steps, C54_growth) on supported histories: steps + keys = nodes <= what the key lengths require. C54_lengths: max_length_ and sum_length_ of the label stores on supported histories (label_total of ShareSpec.v, independent of the store and of the order of insertion). The averages rate_steps() and sum_length_ / size() themselves are doubles and are not modelled: the theorems are about their numerators. C54_default: after the first update a default-constructed map behaves as map(0, 32) in all of this (any keys); C54_default_fresh: before it all counters are 0."
  },
  {
   "property": "C55",
   "status": "proved",
   "theorems": [
    "C55_find_same",
    "C55_update_same",
    "C55_find",
    "C55_update",
    "C55_reached",
    "C55_update_present",
    "C55_update_grows"
   ],
   "note": "C55_find/C55_update: any state of any instantiation; C55_reached adds that find returns after supported histories; C55_update_present: where find succeeds update makes the very same comparisons and lookups; C55_update_grows: the nodes an update adds are at most the children and steps it counted (plus the root of an empty trie); C55_find_same/C55_update_same: without the ghost counters the counted functions are the model's find and update. Counts calls of find_child/add_child/compare, not the probes inside the hash tables."
  },
  {
   "property": "C56",
   "status": "proved",
   "theorems": [
    "C56_program",
    "C56_all_released",
    "C56_determined"
   ],
   "note": "C56_program and C56_all_released for all programs the specification `does_all` gives a meaning (C56_determined: one only). Calls stay within `room`: the supported region of C46 per map, without its reservation. Self-move is not modelled; each map has its own heap in the model. x = std::move(x) leaves x moved from and releases its blocks (std::vector of libstdc++), std::swap(x, x) changes nothing."
  },
  {
   "property": "C57",
   "status": "proved",
   "theorems": [
    "C57_same",
    "C57_same_default",
    "C57_histogram",
    "C57_total",
    "C57_default",
    "C57_default_fresh"
   ],
   "note": "C57_same/C57_same_default: equality of outcomes, maps and other counters with the build of C54 (and so with the plain build) for all histories and keys; C57_histogram and C57_total on the supported histories of C46, compact tries only (the plain tries have no such member). The rates printed by show_stats are doubles and not modelled: the theorems are about their numerators. C57_default/C57_default_fresh: the same for a default-constructed map."
  },
  {
   "property": "C58",
   "status": "proved",
   "theorems": [
    "C58_same",
    "C58_per_lookup",
    "C58_find"
   ],
   "note": "C58_same: without the ghost counter the counted find is the model's find, for every map; C58_per_lookup: every lookup of a child or step (the counts of C55) costs at least 1 and at most nodes + c slots; C58_find: the bound by the length of the key; both after any supported history, with find returning. Counts iterations of the probing loops of find_child (slots of the trie's table), not the probes inside the auxiliary tables of the compact tries' displacements."
  }
 ]
}