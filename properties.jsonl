{"id": "C01", "title": "The map is a string dictionary", "statement": "For every history of update(key), writes through the returned pointer and find(key) on a poplar map, every find returns nullptr exactly when the key was never passed to update, and otherwise a pointer to the value last written through a pointer returned for that very key; keys are non-empty ranges whose only NUL is the last byte.", "quantifier": "every one of the six map aliases, every value size, every sequence of operations, every set of keys (at most 254 distinct branching bytes), every power-of-two lambda and initial capacity", "why_tests_cant": "The histories, keys and growth points are unbounded; unit tests insert one word list once.", "anchors": ["include/poplar/map.hpp: map::find", "include/poplar/map.hpp: map::update", "include/poplar.hpp: plain_bonsai_map, semi_compact_bonsai_map, compact_bonsai_map, plain_fkhash_map, semi_compact_fkhash_map, compact_fkhash_map"]}
{"id": "C02", "title": "A newly inserted key starts at zero, an existing key keeps its value", "statement": "update(key) returns a non-null pointer; the pointed-to value is all-zero if the key was not registered, and the previously stored value if it was.", "quantifier": "every reachable map state and every valid key", "why_tests_cant": "Needs all histories, including those in which storage was moved or reallocated in between.", "anchors": ["include/poplar/map.hpp: map::update", "include/poplar/plain_bonsai_nlm.hpp: insert", "include/poplar/compact_bonsai_nlm.hpp: insert", "include/poplar/plain_fkhash_nlm.hpp: append", "include/poplar/compact_fkhash_nlm.hpp: append"]}
{"id": "C03", "title": "size() counts distinct keys", "statement": "size() always equals the number of distinct keys that have been successfully passed to update.", "quantifier": "every history on every map alias", "why_tests_cant": "Requires every interleaving of repeated and new keys.", "anchors": ["include/poplar/map.hpp: map::size", "include/poplar/map.hpp: map::update"]}
{"id": "C04", "title": "Operations on one key do not disturb another", "statement": "An update of (and a write through the pointer returned for) key k leaves the result of find(k') unchanged for every other key k', also when the operation makes the table grow or adds internal step nodes.", "quantifier": "every reachable map state, all pairs of distinct keys", "why_tests_cant": "Pairs of keys and growth points cannot be enumerated.", "anchors": ["include/poplar/map.hpp: map::update", "include/poplar/map.hpp: map::expand_if_needed_"]}
{"id": "C05", "title": "Invalid arguments are rejected and change nothing", "statement": "find and update throw on an empty range and on a range whose last byte is not NUL, and the map is unchanged; find never throws on a valid key; the constructor throws when lambda is not a power of two (0 included), and otherwise builds a map exactly when max(16, capa_bits) + log2 lambda is at most 55; beyond that the plain tries throw, the compact ones fail an assertion, and a shift count of 64 or more is undefined.", "quantifier": "every state, every byte range, every lambda", "why_tests_cant": "All states and all byte strings.", "anchors": ["include/poplar/map.hpp: map::find", "include/poplar/map.hpp: map::update", "include/poplar/map.hpp: map::map"]}
{"id": "C06", "title": "Growth is transparent and the load stays below the limit", "statement": "After every operation the hash table capacity is a power of two, at least 2^16 and at least the requested capacity, never shrinks, and the number of trie nodes is below MaxFactor percent of it (at most, for the FK-hash tries), so a probe always finds an empty slot.", "quantifier": "every history on every map alias", "why_tests_cant": "Needs every growth point of every history.", "anchors": ["include/poplar/map.hpp: map::capa_size", "include/poplar/plain_bonsai_trie.hpp: expand", "include/poplar/compact_bonsai_trie.hpp: expand", "include/poplar/plain_fkhash_trie.hpp: expand_", "include/poplar/compact_fkhash_trie.hpp: expand_"]}
{"id": "C07", "title": "Results do not depend on lambda or on the initial capacity", "statement": "Two maps of the same alias built with different power-of-two lambdas and different initial capacities give the same outputs for the same history.", "quantifier": "all pairs of parameters and all histories", "why_tests_cant": "A relational property over all histories.", "anchors": ["include/poplar/map.hpp: map::map", "include/poplar/map.hpp: map::make_symb_"]}
{"id": "C08", "title": "The six aliases are interchangeable", "statement": "The same history gives the same outputs (find results, values seen by update, size) on every alias.", "quantifier": "all pairs of aliases and all histories", "why_tests_cant": "A relational property over all histories.", "anchors": ["include/poplar.hpp: plain_bonsai_map, semi_compact_bonsai_map, compact_bonsai_map, plain_fkhash_map, semi_compact_fkhash_map, compact_fkhash_map"]}
{"id": "C09", "title": "Byte-alphabet limit", "statement": "update does not throw on a valid key while at most 254 distinct byte values (the terminator included) occur in the keys; when a 255th distinct branching byte is met update throws after having recorded the byte, so repeating the call succeeds, and a 256th byte is then silently given the reserved code: a key inserted through it is reported absent by find although update returned a pointer for it, and the next key through it gives the byte the code of NUL, so that two different keys share one value on the compact stores. In builds with assertions none of this can be observed: whatever bytes the keys contain, every history shows the dictionary (with at most one exception) or stops at an assertion, the latter only if all 256 byte values occur.", "quantifier": "every history (first part, and builds with assertions); existence of a history (release builds past the limit)", "why_tests_cant": "The limit depends on the union of all bytes seen over the whole history.", "anchors": ["include/poplar/map.hpp: map::update", "include/poplar/map.hpp: map::codes_"]}
{"id": "C10", "title": "Embedded NUL bytes break the dictionary contract", "statement": "The restriction of C01 to keys whose only NUL is the last byte is necessary: on the compact label stores find returns another key's value for a key with an embedded NUL that was never inserted, or reads past the end of the key; on the plain stores the comparison runs into the value bytes, so writing a value makes a registered key disappear. Neither find nor update rejects such keys although the std::string overloads can produce them; update of any byte range for which find returns a pointer hands out that same (wrong) pointer and inserts nothing.", "quantifier": "every reachable map, every valid key followed by extra bytes (find), every byte range for which find returns a pointer (update); new maps and maps with one key (update of a range that find does not accept)", "why_tests_cant": "Tests only use C strings.", "anchors": ["include/poplar/compact_bonsai_nlm.hpp: compare", "include/poplar/plain_bonsai_nlm.hpp: compare", "include/poplar/compact_fkhash_nlm.hpp: compare", "include/poplar/plain_fkhash_nlm.hpp: compare", "include/poplar/basics.hpp: make_char_range"]}
{"id": "C11", "title": "Value pointers of the plain maps are stable; those of the compact maps are not", "statement": "For plain_bonsai_map and plain_fkhash_map a pointer returned by update or find for key k stays dereferenceable and keeps designating k's value after any further operations. In every instantiation of map a pointer stays valid until the next new key is registered; with the compact label store of the FK tries a pointer obtained for k when at least ChunkSize keys newer than k are registered stays valid for ever. For the compact label stores there is a history in which a pointer returned by update dangles after one later update of another key, and with chunks of 8 labels 7 newer keys are not enough.", "quantifier": "every history that keeps pointers within these lifetimes, every instantiation of map; existence (dangling pointers)", "why_tests_cant": "Every later history, including every growth.", "anchors": ["include/poplar/plain_bonsai_nlm.hpp: expand", "include/poplar/plain_fkhash_nlm.hpp: append", "include/poplar/compact_bonsai_nlm.hpp: insert", "include/poplar/compact_fkhash_nlm.hpp: append"]}
{"id": "C12", "title": "Insertion order does not matter", "statement": "Registering the same keys with the same values in any order yields maps that answer every find alike and have the same size.", "quantifier": "all permutations of all finite key/value lists", "why_tests_cant": "All permutations; the internal trie shape does depend on the order.", "anchors": ["include/poplar/map.hpp: map::update", "include/poplar/map.hpp: map::find"]}
{"id": "C13", "title": "No undefined behaviour, no failed assertion, no endless loop on valid use", "statement": "On valid keys find and update terminate, never read or write outside their buffers and never violate an assertion, as long as the structure stays within its representational limits (capacity bits + symbol bits < 64; for the compact tries, the auxiliary displacement table below 80% of the capacity). The one exception is the debug-build assertion of C14.", "quantifier": "every history on every map alias", "why_tests_cant": "Absence of UB must hold on every path.", "anchors": ["include/poplar/map.hpp: map::find", "include/poplar/map.hpp: map::update"]}
{"id": "C14", "title": "Debug builds abort on the empty string in plain FK-hash maps", "statement": "In a build with assertions, updating a plain or semi-compact FK-hash map with one non-empty key and then with the empty string fails the assertion key != 0 of add_child; without assertions the same history works correctly. All other assertions hold in both builds.", "quantifier": "existence of a history; build flag", "why_tests_cant": "The project's tests run with assertions disabled.", "anchors": ["include/poplar/plain_fkhash_trie.hpp: add_child"]}
{"id": "C15", "title": "A default-constructed map is an empty map", "statement": "On a default-constructed map find returns nullptr for every valid key and size() is 0; its first update behaves exactly like that of a map constructed with capa_bits 0 and lambda 32.", "quantifier": "every valid key, every later history", "why_tests_cant": "Every subsequent history.", "anchors": ["include/poplar/map.hpp: map::map", "include/poplar/map.hpp: map::update"]}
{"id": "C16", "title": "A moved-from map is not reusable", "statement": "After a map holding a key was moved from, it still reports its old size and calling find on it dereferences emptied storage (undefined behaviour); the moved-to map answers every find like the original. A map that is assigned to by move, whatever it held before (a map in use or one that was moved from), goes on with the history of the source: size, capacity and all later calls.", "quantifier": "every alias, every reachable non-empty map; for assignment any target and any later history", "why_tests_cant": "Undefined behaviour is not observable by a passing test.", "anchors": ["include/poplar/map.hpp: map::map(map&&)", "include/poplar/map.hpp: map::operator=(map&&)"]}
{"id": "C17", "title": "Label accounting of the stores is exact", "statement": "The byte count kept for alloc_bytes equals the total size of the label buffers that are actually allocated (plus, for the compact FK-hash store, the open buffer counted separately), and the label count equals the number of stored labels, across inserts and expansions.", "quantifier": "every history of every label store", "why_tests_cant": "Accounting drift only shows over long histories.", "anchors": ["include/poplar/plain_bonsai_nlm.hpp: label_bytes_", "include/poplar/compact_bonsai_nlm.hpp: label_bytes_", "include/poplar/plain_fkhash_nlm.hpp: label_bytes_", "include/poplar/compact_fkhash_nlm.hpp: label_bytes_"]}
{"id": "C18", "title": "plain_bonsai_trie is a dynamic trie", "statement": "For every plain_bonsai_trie built by its public operations: find_child(v,s) returns the child once added and nil otherwise; add_child returns true exactly when the child is new, gives it an identifier no other node has, increases size() by one, and leaves the result of find_child for every other (node, symbol) pair unchanged; the same holds across expansions up to the renaming returned by the expansion.", "quantifier": "every reachable trie, every node, every symbol below symb_size, every Hasher (for a compact trie: every bijective one)", "why_tests_cant": "Open addressing correctness depends on the whole insertion history and hash clustering.", "anchors": ["include/poplar/plain_bonsai_trie.hpp: find_child, add_child, expand"]}
{"id": "C19", "title": "compact_bonsai_trie is a dynamic trie", "statement": "For every compact_bonsai_trie built by its public operations: find_child(v,s) returns the child once added and nil otherwise; add_child returns true exactly when the child is new, gives it an identifier no other node has, increases size() by one, and leaves the result of find_child for every other (node, symbol) pair unchanged; the same holds across expansions up to the renaming returned by the expansion.", "quantifier": "every reachable trie, every node, every symbol below symb_size, every Hasher (for a compact trie: every bijective one)", "why_tests_cant": "Open addressing correctness depends on the whole insertion history and hash clustering.", "anchors": ["include/poplar/compact_bonsai_trie.hpp: find_child, add_child, expand"]}
{"id": "C20", "title": "plain_fkhash_trie is a dynamic trie", "statement": "For every plain_fkhash_trie built by its public operations: find_child(v,s) returns the child once added and nil otherwise; add_child returns true exactly when the child is new, gives it an identifier no other node has, increases size() by one, and leaves the result of find_child for every other (node, symbol) pair unchanged; the same holds across expansions up to the renaming returned by the expansion.", "quantifier": "every reachable trie, every node, every symbol below symb_size, every Hasher (for a compact trie: every bijective one)", "why_tests_cant": "Open addressing correctness depends on the whole insertion history and hash clustering.", "anchors": ["include/poplar/plain_fkhash_trie.hpp: find_child, add_child, expand"]}
{"id": "C21", "title": "compact_fkhash_trie is a dynamic trie", "statement": "For every compact_fkhash_trie built by its public operations: find_child(v,s) returns the child once added and nil otherwise; add_child returns true exactly when the child is new, gives it an identifier no other node has, increases size() by one, and leaves the result of find_child for every other (node, symbol) pair unchanged; the same holds across expansions up to the renaming returned by the expansion.", "quantifier": "every reachable trie, every node, every symbol below symb_size, every Hasher (for a compact trie: every bijective one)", "why_tests_cant": "Open addressing correctness depends on the whole insertion history and hash clustering.", "anchors": ["include/poplar/compact_fkhash_trie.hpp: find_child, add_child, expand"]}
{"id": "C22", "title": "FK-hash node identifiers are consecutive and never change", "statement": "The i-th node added to a plain or compact FK-hash trie (the root being number 0) has identifier i, and automatic growth changes no identifier.", "quantifier": "every reachable FK-hash trie", "why_tests_cant": "All growth points.", "anchors": ["include/poplar/plain_fkhash_trie.hpp: add_child, expand_", "include/poplar/compact_fkhash_trie.hpp: add_child, expand_"]}
{"id": "C23", "title": "get_parent_and_symb inverts find_child", "statement": "In a plain or compact Bonsai trie, get_parent_and_symb(c) = (v,s) exactly when find_child(v,s) = c; it returns nil for the root and for every slot that is not a node.", "quantifier": "every reachable Bonsai trie, every slot", "why_tests_cant": "All table states.", "anchors": ["include/poplar/plain_bonsai_trie.hpp: get_parent_and_symb", "include/poplar/compact_bonsai_trie.hpp: get_parent_and_symb"]}
{"id": "C24", "title": "Bonsai expansion returns an exact renaming", "statement": "expand() doubles the capacity, keeps size(), and returns a node map that sends the root to the root, is injective on nodes, gives UINT64_MAX for every non-node slot, and satisfies: find_child(v,s)=c before iff find_child(map[v],s)=map[c] after.", "quantifier": "every reachable Bonsai trie", "why_tests_cant": "All trie shapes and hash layouts.", "anchors": ["include/poplar/plain_bonsai_trie.hpp: expand, node_map", "include/poplar/compact_bonsai_trie.hpp: expand, node_map"]}
{"id": "C25", "title": "A full Bonsai trie refuses new children silently", "statement": "When size() = max_size(), add_child of a missing child returns false, changes neither the trie nor the node identifier - the same boolean as for an existing child - and needs_to_expand() is true exactly in that situation.", "quantifier": "every full Bonsai trie", "why_tests_cant": "All full tables.", "anchors": ["include/poplar/plain_bonsai_trie.hpp: add_child, needs_to_expand", "include/poplar/compact_bonsai_trie.hpp: add_child, needs_to_expand"]}
{"id": "C26", "title": "standard_hash_table is a map", "statement": "For every sequence of set/get on keys other than UINT64_MAX, get returns the last value set for the key and nil for others; set returns true exactly for new keys; size() counts distinct keys; growth is transparent.", "quantifier": "every operation sequence, every Hasher", "why_tests_cant": "Unbounded histories, clustering and rehashing.", "anchors": ["include/poplar/standard_hash_table.hpp: get, set, expand_"]}
{"id": "C27", "title": "compact_hash_table is a map", "statement": "For every sequence of set/get with keys below the universe size and values below val_mask, get returns the last value set for the key and nil for others; set returns true exactly for new keys; size() counts distinct keys; the quotient/bit layout with group displacement and growth is transparent.", "quantifier": "every operation sequence, every bijective Hasher, every universe and value width that fits, as long as the table need not outgrow the universe", "why_tests_cant": "The virgin/change-bit layout has unboundedly many cluster shapes.", "anchors": ["include/poplar/compact_hash_table.hpp: get, set, clone, find_ass_cbit_, copy_from_right_"]}
{"id": "C28", "title": "clone of a compact_hash_table copies it, and never terminates on an empty one", "statement": "clone into an empty, sufficiently large table terminates and yields a table with the same contents, provided the source is non-empty; on an empty source clone loops forever.", "quantifier": "every reachable table", "why_tests_cant": "Non-termination is not testable; all cluster shapes.", "anchors": ["include/poplar/compact_hash_table.hpp: clone"]}
{"id": "C29", "title": "A compact_hash_table cannot hold more than 80% of its universe", "statement": "Once size() has reached 80% of the universe size, the next set builds a table with more capacity bits than universe bits: the assertion capa_bits <= univ_bits fails (undefined shift without assertions), even for a key that is already stored.", "quantifier": "every table at that fill level", "why_tests_cant": "Requires filling a whole universe.", "anchors": ["include/poplar/compact_hash_table.hpp: set, compact_hash_table(uint32_t,uint32_t)"]}
{"id": "C30", "title": "split_mix_hasher is a bijection with the stated inverse", "statement": "For every universe of 1 to 63 bits, hash maps the universe into itself, hash_inv(hash(x)) = x and hash(hash_inv(x)) = x.", "quantifier": "all 63 universe widths and all x below 2^width", "why_tests_cant": "The 2^63 inputs cannot be enumerated; the test samples x below 1024.", "anchors": ["include/poplar/bijective_hash.hpp: split_mix_hasher, PRIME_TABLE"]}
{"id": "C31", "title": "compact_vector is an array of fixed-width integers", "statement": "For every width below 64: after set(i,v), get(i) = v and get(j) is unchanged for every j <> i, including elements that straddle word boundaries; a fresh vector reads 0 (or the given initial value) everywhere; no access leaves the buffer; the constructor throws exactly when width >= 64.", "quantifier": "every size, width, index and value", "why_tests_cant": "All (width, index, offset) combinations and contents.", "anchors": ["include/poplar/compact_vector.hpp: compact_vector, get, set"]}
{"id": "C32", "title": "compact_vector::resize keeps the prefix but not zeroes", "statement": "resize keeps every element below both sizes; growing a vector that was never shrunk yields zero elements, but after shrinking and growing again elements can reappear non-zero.", "quantifier": "every vector and size (first part); existence (second part)", "why_tests_cant": "All sizes and widths.", "anchors": ["include/poplar/compact_vector.hpp: resize"]}
{"id": "C33", "title": "bit_vector is an array of bits", "statement": "set/get behave as an array of bits; append_bit and append_bits append exactly the given bits after the existing ones; get_bits(pos,len) returns the len bits from pos, also across a word boundary, for 0 <= len <= 63 (len = 64 evaluates an undefined shift).", "quantifier": "every vector, position, length and bit pattern", "why_tests_cant": "All alignments and contents.", "anchors": ["include/poplar/bit_vector.hpp"]}
{"id": "C34", "title": "vbyte round-trips and is self-delimiting", "statement": "For every 64-bit value, decode of its encoding returns the value and the encoded length, whatever bytes follow; append appends the same bytes as encode; size predicts the length.", "quantifier": "all 2^64 values and all suffixes", "why_tests_cant": "2^64 values.", "anchors": ["include/poplar/vbyte.hpp"]}
{"id": "C35", "title": "popcnt counts the set bits", "statement": "The portable popcnt for 8, 16, 32 and 64 bits equals the number of one bits; the masked variant counts the one bits strictly below position i.", "quantifier": "all words, all positions", "why_tests_cant": "2^64 words.", "anchors": ["include/poplar/bit_tools.hpp: popcnt, POPCNT_TABLE"]}
{"id": "C36", "title": "select returns the position of the i-th one bit", "statement": "For 1 <= i <= popcnt(x), the portable select(x,i) is a position p whose bit is set and below which exactly i-1 bits are set.", "quantifier": "all words x and ranks i", "why_tests_cant": "2^64 words.", "anchors": ["include/poplar/bit_tools.hpp: select, PS_OVERFLOW, LT_SEL"]}
{"id": "C37", "title": "msb and ceil_log2", "statement": "The portable msb(x) is floor(log2 x) for x > 0 and 0 for 0; ceil_log2(x) is the least n with x <= 2^n for x >= 1; words_for is the ceiling of bits/64; is_power2 decides powers of two; bits_to_bytes is the ceiling of bits/8.", "quantifier": "all 64-bit words", "why_tests_cant": "2^64 words.", "anchors": ["include/poplar/bit_tools.hpp: msb, ceil_log2, words_for, MSB_TABLE", "include/poplar/basics.hpp: is_power2, bits_to_bytes"]}
{"id": "C38", "title": "The floating-point load limit is the exact integer one", "statement": "static_cast<uint64_t>(capacity * MaxFactor / 100.0) in binary64 arithmetic equals floor(capacity*MaxFactor/100) for every capacity 2^b with b <= 49 and every MaxFactor from 1 to 99 (at b = 50 and MaxFactor 54 it is one too large), and is below the capacity for every b up to 57.", "quantifier": "all supported capacities and factors", "why_tests_cant": "Rounding errors would appear only for huge tables.", "anchors": ["include/poplar/plain_bonsai_trie.hpp: max_size_", "include/poplar/compact_hash_table.hpp: max_size_", "include/poplar/standard_hash_table.hpp: max_size_"]}
{"id": "C39", "title": "vigna_hasher is injective on 64-bit words", "statement": "Two different 64-bit keys never have the same full 64-bit hash (the static hash, or operator() with any seed), so plain tables only collide through masking.", "quantifier": "all pairs of 64-bit words, all seeds", "why_tests_cant": "2^128 pairs.", "anchors": ["include/poplar/hash.hpp: vigna_hasher::hash, vigna_hasher::operator()"]}
{"id": "C40", "title": "Label stores return the stored label and value", "statement": "For each of the four label stores: after inserting a label at a position, compare at this position with an equal key returns a pointer to its value, and with any other valid key returns nullptr and the length of the longest common prefix; other positions are unaffected.", "quantifier": "every store history, every position, every label and key", "why_tests_cant": "All label lengths, chunk populations and insertion orders.", "anchors": ["include/poplar/plain_bonsai_nlm.hpp", "include/poplar/compact_bonsai_nlm.hpp", "include/poplar/plain_fkhash_nlm.hpp", "include/poplar/compact_fkhash_nlm.hpp"]}
{"id": "C41", "title": "Label store expansion moves every label to its new position", "statement": "expand(pos_map) of the Bonsai stores moves label and value of every mapped position to the new position, drops nothing and overwrites nothing, for every injective position map.", "quantifier": "every store state and every injective map into the doubled range", "why_tests_cant": "All maps.", "anchors": ["include/poplar/plain_bonsai_nlm.hpp: expand", "include/poplar/compact_bonsai_nlm.hpp: expand, get_slice_, set_slice_, get_allocs_"]}
{"id": "C42", "title": "Chunked label buffers hold exactly their labels", "statement": "In the compact stores each allocated chunk buffer is exactly the concatenation, in position order, of vbyte(length)+label+value of the positions marked in its bitmap (dummy entries being a single 0 byte), with no slack and no missing byte.", "quantifier": "every reachable compact store, every chunk size 8/16/32/64", "why_tests_cant": "All insertion orders within a chunk.", "anchors": ["include/poplar/compact_bonsai_nlm.hpp: insert, set_slice_", "include/poplar/compact_fkhash_nlm.hpp: append, append_dummy, release_buf_"]}
{"id": "C43", "title": "The SSE4.2 build and the portable build compute the same functions", "statement": "popcnt (all widths, masked or not), msb, ceil_log2 and select (for ranks 1..popcount) return the same result whether or not the library is compiled with __SSE4_2__, so maps built by either build behave alike; for ranks above the number of ones the SSE4.2 select has no defined result.", "quantifier": "all 64-bit words, all widths, all positions and ranks", "why_tests_cant": "2^64 words; one build only tests one branch.", "anchors": ["include/poplar/bit_tools.hpp: popcnt, select, msb, ceil_log2"]}
{"id": "C44", "title": "update throws at most once, and without effect", "statement": "On keys with at most 255 different bytes a user who catches the exception of update and goes on sees at most one exception in the whole life of the map; the throwing call leaves size() and the result of every find as they were, the same call again succeeds, pointers of the plain maps kept across the exception stay good, and the rest of the history is that of the dictionary.", "quantifier": "every history of updates and finds with at most 255 different bytes, every place of the exception, every alias, value size, capacity and lambda", "why_tests_cant": "The exception can hit any call of any history, with step nodes already added and after any number of expansions.", "anchors": ["include/poplar/map.hpp: update, codes_, num_codes_"]}
{"id": "C45", "title": "Nodes and capacity are bounded by what the keys need", "statement": "The number of trie nodes is at least the number of distinct keys and at most the sum, over the distinct keys, of 1 + (length - 1) / lambda (length with the terminator), so it equals size() if no key is longer than lambda; capa_size() is the initial capacity unless the nodes fill at least 90% of half of it, so a map constructed with enough room never grows.", "quantifier": "every history of updates and finds, every alias, value size, initial capacity and lambda", "why_tests_cant": "A wasted node or a doubling too early needs a particular interleaving of branching depths, steps and expansions; the bound must hold for all key sets.", "anchors": ["include/poplar/map.hpp: update, capa_size, expand_if_needed_", "include/poplar/plain_bonsai_trie.hpp: needs_to_expand, expand", "include/poplar/plain_fkhash_trie.hpp: add_child, expand_", "include/poplar/compact_bonsai_trie.hpp: expand", "include/poplar/compact_fkhash_trie.hpp: add_child, expand_"]}
{"id": "C46", "title": "Every instantiation of the map template is the same dictionary", "statement": "Not only the aliases of poplar.hpp: map<Trie, NLM> for any of the four tries with a plain or compact label store of its kind (including the pairs no alias uses, such as a compact trie over a plain store), any MaxFactor, Dsp1Bits, AuxCht and AuxMap parameters and any Hasher (of a compact trie and its AuxCht: any bijective one), constructed with any capacity and power-of-two lambda, answers every history of find, update and size as a dictionary does; two instantiations give the same answers; with a plain label store every returned pointer stays valid whatever the trie; on keys with 255 different bytes at most one update throws, without effect; only a compact trie whose MaxFactor exceeds that of its AuxCht may stop at an assertion, and only when the keys nearly fill the AuxCht.", "quantifier": "every combination of trie, label store, MaxFactor 1..99, Dsp1Bits and AuxCht width 1..16, AuxCht load factor 1..99, AuxMap load factor 51..99, Hasher, chunk size, value size, initial capacity, lambda and history", "why_tests_cant": "Templates are compiled and tested only for a few argument combinations; some bugs (a hard-wired constant, a limit that fits the defaults only) are invisible to all of them.", "anchors": ["include/poplar/map.hpp: map", "include/poplar/plain_bonsai_trie.hpp: plain_bonsai_trie", "include/poplar/plain_fkhash_trie.hpp: plain_fkhash_trie", "include/poplar/compact_bonsai_trie.hpp: compact_bonsai_trie", "include/poplar/compact_fkhash_trie.hpp: compact_fkhash_trie", "include/poplar/compact_hash_table.hpp: compact_hash_table", "include/poplar/standard_hash_table.hpp: standard_hash_table"]}
{"id": "C47", "title": "Value pointers are not aligned for the value type", "statement": "The value of the first key lies at a fixed byte offset in its block: the key length with the terminator (plain stores), or the bytes of the entry size plus the key length (compact stores). So for every instantiation of the map template, value size, capacity and lambda there is a key of at most four bytes whose value pointer, as returned by update, is at an odd address: a value type with an alignment requirement above 1 must be accessed through memcpy, contrary to what value_type* suggests.", "quantifier": "every alias and every instantiation of the template, chunk size, value size, capacity, lambda, build mode, and every first key for the offset", "why_tests_cant": "x86 tolerates misaligned accesses, so tests pass; that no padding is ever added must be seen from the layout for all value sizes.", "anchors": ["include/poplar/plain_bonsai_nlm.hpp: insert", "include/poplar/plain_fkhash_nlm.hpp: append", "include/poplar/compact_bonsai_nlm.hpp: insert", "include/poplar/compact_fkhash_nlm.hpp: append", "include/poplar/map.hpp: update"]}
{"id": "C48", "title": "alloc_bytes accounts for the map within tight bounds", "statement": "After any history alloc_bytes() of every instantiation is at most: a fixed number of bits for each of the capa_size() slots (quotient or edge, displacement, identifier, label pointer or chunk pointer and bitmap), the table of large displacements (64 slots or at most twice what its load factor requires), the growing vectors of the FK-hash stores, the bytes of the distinct keys present with their values (with a length header of a byte for 7 bits in compact stores), and 256 bytes; capa_size() is the initial capacity or within the factor 2*100/MaxFactor of the nodes of the keys. The hash tables of the tries are always counted, for the plain tries to the bit; and unless the sum exceeds 64 bits, at least the slots, pointers and a value for every key are counted (stores that count all their labels).", "quantifier": "every instantiation, value size, initial capacity, lambda and history, every capacity std::vector may choose for its growing vectors", "why_tests_cant": "A counter that is not updated on one path (expansion, long label, dummy entry) shows only after particular histories; the bound must hold for all of them.", "anchors": ["include/poplar/map.hpp: alloc_bytes", "include/poplar/plain_bonsai_trie.hpp: alloc_bytes", "include/poplar/plain_fkhash_trie.hpp: alloc_bytes", "include/poplar/compact_bonsai_trie.hpp: alloc_bytes", "include/poplar/compact_fkhash_trie.hpp: alloc_bytes", "include/poplar/plain_bonsai_nlm.hpp: alloc_bytes, label_bytes_", "include/poplar/plain_fkhash_nlm.hpp: alloc_bytes, label_bytes_", "include/poplar/compact_bonsai_nlm.hpp: alloc_bytes, label_bytes_", "include/poplar/compact_fkhash_nlm.hpp: alloc_bytes, label_bytes_", "include/poplar/compact_vector.hpp: alloc_bytes", "include/poplar/standard_hash_table.hpp: alloc_bytes", "include/poplar/compact_hash_table.hpp: alloc_bytes"]}
{"id": "C49", "title": "Running out of memory inside update", "statement": "If an allocation of update fails inside the trie's hash table (adding a step node or the branching edge, including the doubling of the FK-hash tables and the overflow tables of the compact tries) or in the constructor that a default-constructed map calls first, update throws std::bad_alloc and nothing observable has changed: size(), every find and every later update behave as if the call had not been made, and with a plain label store every pointer returned earlier stays valid. If instead the allocation of a label fails, size() counts the key although it was not inserted and looking it up hits the missing label (compact_fkhash_nlm: keys are associated with each other's values); a failing dummy label of an FK-hash trie breaks the next insertion, and a failing doubling of a Bonsai trie leaves an unlabelled edge and a full table.", "quantifier": "every instantiation, value size, capacity, lambda, build mode, every history of find and update in which any of the update calls fail at any place inside the table, with the map used on afterwards; the damaging failures are shown for every alias kind on concrete histories, the miscount of size() for every state and every place", "why_tests_cant": "Tests do not inject allocation failures, and could not try every allocation of every history; what is left behind (new byte codes, step nodes, a doubled table) matters only to later calls.", "anchors": ["include/poplar/map.hpp: update, expand_if_needed_", "include/poplar/plain_bonsai_trie.hpp: add_child", "include/poplar/plain_fkhash_trie.hpp: add_child, expand_", "include/poplar/compact_bonsai_trie.hpp: add_child, update_slot_", "include/poplar/compact_fkhash_trie.hpp: add_child, expand_, update_slot_", "include/poplar/compact_hash_table.hpp: set", "include/poplar/standard_hash_table.hpp: set", "include/poplar/plain_bonsai_nlm.hpp: insert", "include/poplar/plain_fkhash_nlm.hpp: append", "include/poplar/compact_bonsai_nlm.hpp: insert", "include/poplar/compact_fkhash_nlm.hpp: append"]}
{"id": "C50", "title": "Updating a present key changes nothing; pointers live until the next new key", "statement": "update(k) for a key that is already registered returns the same pointer as find(k) and leaves the map as it was (and so for every byte range on which find returns a pointer, valid key or not); only a map over an FK-hash trie may enlarge its hash table (capa_size() grows), with the same size, trie nodes, labels and values. Consequently pointers returned by find or update of any map, also of the semi-compact and compact ones whose pointers can move, stay valid until update is called with a key that is not registered: every find, read, write and update of a present key in between leaves them designating the current value of their key.", "quantifier": "every instantiation of map<Trie, NLM> (template arguments, any Hasher), value size, capacity, lambda, build mode, every history of find, update, and reads and writes through kept pointers", "why_tests_cant": "The claim ranges over all histories and all positions at which a pointer is used again; an existing-key update walks the same code as an insertion (steps, codes, add_child with its growth check), so only some table states would reveal a side effect.", "anchors": ["include/poplar/map.hpp: update, find", "include/poplar/plain_fkhash_trie.hpp: add_child", "include/poplar/compact_fkhash_trie.hpp: add_child", "include/poplar/plain_bonsai_trie.hpp: add_child", "include/poplar/compact_bonsai_trie.hpp: add_child", "include/poplar/compact_bonsai_nlm.hpp: compare", "include/poplar/compact_fkhash_nlm.hpp: compare"]}
{"id": "C51", "title": "With std::string and const char* keys the map is a dictionary over strings", "statement": "find(s) and update(s) with std::strings without NUL bytes, and with make_char_range(p) of terminated C strings, in any mixture, behave as one dictionary over the strings: equal strings are the same key however they are passed, the empty string and strings that are prefixes of each other are different keys, and no call throws. make_char_range(p) reads nothing after the first NUL and needs one; make_char_range of a std::string with a NUL inside is not cut there and is not a valid key.", "quantifier": "every history of calls, every string and buffer, every instantiation of map<Trie, NLM>, value size, capacity, lambda, build mode", "why_tests_cant": "Only a proof covers all strings; prefixes, the empty string and the terminator byte as a branching byte are corner cases that interact with the shape of the trie.", "anchors": ["include/poplar/map.hpp: find(const std::string&), update(const std::string&)", "include/poplar/basics.hpp: make_char_range, char_range"]}
{"id": "C52", "title": "Destroying a map releases every block it allocated, once", "statement": "Whatever was done to a map - construction, updates with any bytes as keys that return, throw or run out of memory, writes through pointers, being moved from - its destructor releases every label block the map still owns and none twice; the label store that the first update of an uninitialised map replaces, and the one left by a move, own nothing.", "quantifier": "every sequence of calls with any arguments, every failure point of update, every instantiation of map<Trie, NLM>, value size, build mode", "why_tests_cant": "A leak or a double free shows only for the histories that reach it (growth in the middle of a chunk, a failed allocation, a moved-from map).", "anchors": ["include/poplar/map.hpp: ~map, operator=(map&&), update", "include/poplar/plain_bonsai_nlm.hpp: expand", "include/poplar/compact_bonsai_nlm.hpp: insert, expand", "include/poplar/compact_fkhash_nlm.hpp: release_buf_"]}
{"id": "C53", "title": "Common prefixes of the keys are stored once; the memory reported does not depend on the order of insertion", "statement": "The labels of a map hold exactly one byte for every distinct non-empty prefix of the keys present (terminators included), less one for each key after the first (its branching byte is in the trie), plus one value per key: alloc_bytes() of a map with plain trie and plain labels is this plus a fixed cost per slot, to the byte, whatever the order, values and repetitions of the updates; for the compact structures it is within that plus a length header per key.", "quantifier": "every history, key set, instantiation of map<Trie, NLM>, value size, build mode, capacity the standard library picks for the growing vectors", "why_tests_cant": "That splitting a label loses or duplicates no byte must hold for every insertion order of every key set.", "anchors": ["include/poplar/map.hpp: update, alloc_bytes", "include/poplar/plain_bonsai_nlm.hpp: insert, expand, alloc_bytes", "include/poplar/plain_fkhash_nlm.hpp: append, alloc_bytes", "include/poplar/compact_bonsai_nlm.hpp: insert, alloc_bytes", "include/poplar/compact_fkhash_nlm.hpp: append, alloc_bytes"]}
{"id": "C54", "title": "The statistics build counts what it says and changes nothing", "statement": "With POPLAR_EXTRA_STATS defined every sequence of calls has the same outcome as without it (results, sizes, capacity, exceptions); num_resize() is the number of doublings of the hash table, capa_size() = initial capacity * 2^num_resize(), and it is the number that the nodes need; rate_steps() * size() is the number of trie nodes that stand for no key, so it is at most the nodes that the lengths of the keys require beyond one per key, and 0 when no key is longer than lambda. The counters of the label stores hold the total length of all labels (which depends on the set of keys only: the bytes of their trie less one per key but the first, modulo 2^64) and the length of the longest label, which is at least the average and at most the longest key.", "quantifier": "every history of find and update, with any keys for the equality of the builds and for num_resize(), every instantiation of map<Trie, NLM>, value size, capacity, lambda, build mode", "why_tests_cant": "A counter missed on one path (an expansion inside add_child, a step node that already exists, the first insertion into a default-constructed map) shows only after particular histories.", "anchors": ["include/poplar/map.hpp: update, rate_steps, num_resize, num_steps_", "include/poplar/plain_bonsai_trie.hpp: expand, num_resize_", "include/poplar/compact_bonsai_trie.hpp: expand, num_resize_", "include/poplar/plain_fkhash_trie.hpp: add_child, expand_, num_resize_", "include/poplar/compact_fkhash_trie.hpp: add_child, expand_, num_resize_", "include/poplar/plain_bonsai_nlm.hpp: insert, expand, max_length_, sum_length_", "include/poplar/compact_bonsai_nlm.hpp: insert, expand, max_length_, sum_length_", "include/poplar/plain_fkhash_nlm.hpp: append, append_dummy, max_length_, sum_length_", "include/poplar/compact_fkhash_nlm.hpp: append, append_dummy, max_length_, sum_length_"]}
{"id": "C55", "title": "find and update look at a number of labels and nodes that depends on the key alone", "statement": "For any map, whatever it holds, and any byte range k of length n (below 2^64): if find or update of k returns, it has compared at most n + 1 labels, looked up or added at most n children by a byte of k, and at most n / lambda step nodes (together: children + lambda * steps <= n, labels <= children + 1); after any supported history find of a valid key does return, update of a key that find finds makes exactly the same comparisons and lookups, and update adds at most as many nodes as the children and step nodes it counts (and the root). So the number of hash lookups and label comparisons of a call never grows with the number of keys.", "quantifier": "every instantiation of map<Trie, NLM>, state of the map, build mode, value size, lambda, byte range shorter than 2^64", "why_tests_cant": "A walk that advances by nothing on some mismatch, or by less than it matched, shows only for particular key sets.", "anchors": ["include/poplar/map.hpp: find, update", "include/poplar/plain_bonsai_nlm.hpp: compare", "include/poplar/plain_fkhash_nlm.hpp: compare", "include/poplar/compact_bonsai_nlm.hpp: compare", "include/poplar/compact_fkhash_nlm.hpp: compare"]}
{"id": "C56", "title": "In programs with several maps every map shows the dictionary of the contents it holds", "statement": "Any program that constructs, default-constructs, moves, swaps, assigns and destroys any number of maps and calls find, update and size() on those that hold contents shows exactly what one dictionary per map shows: contents, and the pointers into them, go where they are moved; a map moved from can be moved, swapped, assigned to and destroyed; assignment and destruction release every block of the old contents once, so that at no point a byte is allocated that belongs to no map, and after the last destruction none at all.", "quantifier": "every program of any length over any number of map variables, every instantiation of map<Trie, NLM>, value size, build mode; every map within the limits of its parameters", "why_tests_cant": "Sharing or losing a block between source and target of a move shows only in particular interleavings of moves, swaps, later updates and destruction.", "anchors": ["include/poplar/map.hpp: move constructor and assignment, destructor, find, update, size", "include/poplar/plain_bonsai_nlm.hpp: move, destructor", "include/poplar/plain_fkhash_nlm.hpp: move, destructor", "include/poplar/compact_bonsai_nlm.hpp: move, destructor", "include/poplar/compact_fkhash_nlm.hpp: move, destructor"]}
{"id": "C57", "title": "The displacement histogram of the statistics build counts every node but the root once", "statement": "In a build with POPLAR_EXTRA_STATS a compact trie counts in num_dsps_ (whose entries show_stats prints as rates of the nodes) how many nodes keep their displacement in the slot, in the quotient table and in the last auxiliary table: after any history the three counts add up to the nodes of the trie without the root (keys plus steps minus one), the second and the third are the numbers of entries of the two auxiliary tables, an expansion leaves no count of the old table behind, and counting changes no result, size or capacity.", "quantifier": "every history of update and find, every map over a compact trie (any Hasher that is a bijection, displacement parameters, load limit, label store), capacity, lambda, value size, build mode", "why_tests_cant": "The three classes and the recounting at an expansion need long displacements and several doublings, and a count is wrong only when some earlier class or expansion was mishandled.", "anchors": ["include/poplar/compact_bonsai_trie.hpp: update_slot_, add_child, expand, show_stats", "include/poplar/compact_fkhash_trie.hpp: update_slot_, add_child, expand_, show_stats", "include/poplar/map.hpp: show_stats"]}
{"id": "C58", "title": "find inspects at most one slot per node of the trie for each byte of the key, however the keys collide", "statement": "After any history, find of any valid key k, present or absent, returns after inspecting at most |k| * (t + c) slots of the hash table of the trie, where t is the number of nodes of the trie and c is 2 (plain Bonsai), 1 (compact Bonsai) or 0 (FK-hash tries): every lookup of a child or of a step (at most one per byte of the key, C55) inspects at least one slot and at most t + c: it ends at the child or at the first vacant slot, and passes no slot twice. This holds for any Hasher, so it bounds the work an adversarial choice of keys can cause, and it does not depend on the capacity.", "quantifier": "every instantiation of map<Trie, NLM> (any Hasher, bijective for the compact tries), value size, initial capacity, lambda, build mode, every history of update and find, every valid key", "why_tests_cant": "A search that misses the vacant slot, wraps around or passes the root or slot 0 wrongly runs on only in tables with particular collisions.", "anchors": ["include/poplar/map.hpp: find", "include/poplar/plain_bonsai_trie.hpp: find_child", "include/poplar/compact_bonsai_trie.hpp: find_child", "include/poplar/plain_fkhash_trie.hpp: find_child", "include/poplar/compact_fkhash_trie.hpp: find_child"]}
