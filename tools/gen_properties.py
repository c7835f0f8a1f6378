#!/usr/bin/env python3
# Writes /verif/properties.jsonl (single source of the property texts).
import json
P = []
def p(id, title, statement, quantifier, why, anchors):
    P.append(dict(id=id, title=title, statement=statement, quantifier=quantifier,
                  why_tests_cant=why, anchors=anchors))
M = "include/poplar/map.hpp: map::"
ALIAS = "include/poplar.hpp: plain_bonsai_map, semi_compact_bonsai_map, compact_bonsai_map, plain_fkhash_map, semi_compact_fkhash_map, compact_fkhash_map"

p("C01","The map is a string dictionary",
  "For every history of update(key), writes through the returned pointer and find(key) on a poplar map, every find returns nullptr exactly when the key was never passed to update, and otherwise a pointer to the value last written through a pointer returned for that very key; keys are non-empty ranges whose only NUL is the last byte.",
  "every one of the six map aliases, every value size, every sequence of operations, every set of keys (at most 254 distinct branching bytes), every power-of-two lambda and initial capacity",
  "The histories, keys and growth points are unbounded; unit tests insert one word list once.",
  [M+"find", M+"update", ALIAS])
p("C02","A newly inserted key starts at zero, an existing key keeps its value",
  "update(key) returns a non-null pointer; the pointed-to value is all-zero if the key was not registered, and the previously stored value if it was.",
  "every reachable map state and every valid key", "Needs all histories, including those in which storage was moved or reallocated in between.",
  [M+"update","include/poplar/plain_bonsai_nlm.hpp: insert","include/poplar/compact_bonsai_nlm.hpp: insert","include/poplar/plain_fkhash_nlm.hpp: append","include/poplar/compact_fkhash_nlm.hpp: append"])
p("C03","size() counts distinct keys",
  "size() always equals the number of distinct keys that have been successfully passed to update.",
  "every history on every map alias", "Requires every interleaving of repeated and new keys.", [M+"size", M+"update"])
p("C04","Operations on one key do not disturb another",
  "An update of (and a write through the pointer returned for) key k leaves the result of find(k') unchanged for every other key k', also when the operation makes the table grow or adds internal step nodes.",
  "every reachable map state, all pairs of distinct keys", "Pairs of keys and growth points cannot be enumerated.", [M+"update", M+"expand_if_needed_"])
p("C05","Invalid arguments are rejected and change nothing",
  "find and update throw on an empty range and on a range whose last byte is not NUL, and the map is unchanged; find never throws on a valid key; the constructor throws when lambda is not a power of two (0 included), and otherwise builds a map exactly when max(16, capa_bits) + log2 lambda is at most 55; beyond that the plain tries throw, the compact ones fail an assertion, and a shift count of 64 or more is undefined.",
  "every state, every byte range, every lambda", "All states and all byte strings.", [M+"find", M+"update", M+"map"])
p("C06","Growth is transparent and the load stays below the limit",
  "After every operation the hash table capacity is a power of two, at least 2^16 and at least the requested capacity, never shrinks, and the number of trie nodes is below MaxFactor percent of it (at most, for the FK-hash tries), so a probe always finds an empty slot.",
  "every history on every map alias", "Needs every growth point of every history.", [M+"capa_size","include/poplar/plain_bonsai_trie.hpp: expand","include/poplar/compact_bonsai_trie.hpp: expand","include/poplar/plain_fkhash_trie.hpp: expand_","include/poplar/compact_fkhash_trie.hpp: expand_"])
p("C07","Results do not depend on lambda or on the initial capacity",
  "Two maps of the same alias built with different power-of-two lambdas and different initial capacities give the same outputs for the same history.",
  "all pairs of parameters and all histories", "A relational property over all histories.", [M+"map", M+"make_symb_"])
p("C08","The six aliases are interchangeable",
  "The same history gives the same outputs (find results, values seen by update, size) on every alias.",
  "all pairs of aliases and all histories", "A relational property over all histories.", [ALIAS])
p("C09","Byte-alphabet limit",
  "update does not throw on a valid key while at most 254 distinct byte values (the terminator included) occur in the keys; when a 255th distinct branching byte is met update throws after having recorded the byte, so repeating the call succeeds, and a 256th byte is then silently given the reserved code: a key inserted through it is reported absent by find although update returned a pointer for it, and the next key through it gives the byte the code of NUL, so that two different keys share one value on the compact stores. In builds with assertions none of this can be observed: whatever bytes the keys contain, every history shows the dictionary (with at most one exception) or stops at an assertion, the latter only if all 256 byte values occur.",
  "every history (first part, and builds with assertions); existence of a history (release builds past the limit)", "The limit depends on the union of all bytes seen over the whole history.", [M+"update", M+"codes_"])
p("C10","Embedded NUL bytes break the dictionary contract",
  "The restriction of C01 to keys whose only NUL is the last byte is necessary: on the compact label stores find returns another key's value for a key with an embedded NUL that was never inserted, or reads past the end of the key; on the plain stores the comparison runs into the value bytes, so writing a value makes a registered key disappear. Neither find nor update rejects such keys although the std::string overloads can produce them; update of any byte range for which find returns a pointer hands out that same (wrong) pointer and inserts nothing.",
  "every reachable map, every valid key followed by extra bytes (find), every byte range for which find returns a pointer (update); new maps and maps with one key (update of a range that find does not accept)", "Tests only use C strings.", ["include/poplar/compact_bonsai_nlm.hpp: compare","include/poplar/plain_bonsai_nlm.hpp: compare","include/poplar/compact_fkhash_nlm.hpp: compare","include/poplar/plain_fkhash_nlm.hpp: compare","include/poplar/basics.hpp: make_char_range"])
p("C11","Value pointers of the plain maps are stable; those of the compact maps are not",
  "For plain_bonsai_map and plain_fkhash_map a pointer returned by update or find for key k stays dereferenceable and keeps designating k's value after any further operations. In every instantiation of map a pointer stays valid until the next new key is registered; with the compact label store of the FK tries a pointer obtained for k when at least ChunkSize keys newer than k are registered stays valid for ever. For the compact label stores there is a history in which a pointer returned by update dangles after one later update of another key, and with chunks of 8 labels 7 newer keys are not enough.",
  "every history that keeps pointers within these lifetimes, every instantiation of map; existence (dangling pointers)", "Every later history, including every growth.", ["include/poplar/plain_bonsai_nlm.hpp: expand","include/poplar/plain_fkhash_nlm.hpp: append","include/poplar/compact_bonsai_nlm.hpp: insert","include/poplar/compact_fkhash_nlm.hpp: append"])
p("C12","Insertion order does not matter",
  "Registering the same keys with the same values in any order yields maps that answer every find alike and have the same size.",
  "all permutations of all finite key/value lists", "All permutations; the internal trie shape does depend on the order.", [M+"update", M+"find"])
p("C13","No undefined behaviour, no failed assertion, no endless loop on valid use",
  "On valid keys find and update terminate, never read or write outside their buffers and never violate an assertion, as long as the structure stays within its representational limits (capacity bits + symbol bits < 64; for the compact tries, the auxiliary displacement table below 80% of the capacity). The one exception is the debug-build assertion of C14.",
  "every history on every map alias", "Absence of UB must hold on every path.", [M+"find", M+"update"])
p("C14","Debug builds abort on the empty string in plain FK-hash maps",
  "In a build with assertions, updating a plain or semi-compact FK-hash map with one non-empty key and then with the empty string fails the assertion key != 0 of add_child; without assertions the same history works correctly. All other assertions hold in both builds.",
  "existence of a history; build flag", "The project's tests run with assertions disabled.", ["include/poplar/plain_fkhash_trie.hpp: add_child"])
p("C15","A default-constructed map is an empty map",
  "On a default-constructed map find returns nullptr for every valid key and size() is 0; its first update behaves exactly like that of a map constructed with capa_bits 0 and lambda 32.",
  "every valid key, every later history", "Every subsequent history.", [M+"map", M+"update"])
p("C16","A moved-from map is not reusable",
  "After a map holding a key was moved from, it still reports its old size and calling find on it dereferences emptied storage (undefined behaviour); the moved-to map answers every find like the original. A map that is assigned to by move, whatever it held before (a map in use or one that was moved from), goes on with the history of the source: size, capacity and all later calls.",
  "every alias, every reachable non-empty map; for assignment any target and any later history", "Undefined behaviour is not observable by a passing test.", [M+"map(map&&)", M+"operator=(map&&)"])
p("C17","Label accounting of the stores is exact",
  "The byte count kept for alloc_bytes equals the total size of the label buffers that are actually allocated (plus, for the compact FK-hash store, the open buffer counted separately), and the label count equals the number of stored labels, across inserts and expansions.",
  "every history of every label store", "Accounting drift only shows over long histories.", ["include/poplar/plain_bonsai_nlm.hpp: label_bytes_","include/poplar/compact_bonsai_nlm.hpp: label_bytes_","include/poplar/plain_fkhash_nlm.hpp: label_bytes_","include/poplar/compact_fkhash_nlm.hpp: label_bytes_"])
for i,(n,extra) in enumerate([("plain_bonsai_trie","include/poplar/plain_bonsai_trie.hpp"),("compact_bonsai_trie","include/poplar/compact_bonsai_trie.hpp"),("plain_fkhash_trie","include/poplar/plain_fkhash_trie.hpp"),("compact_fkhash_trie","include/poplar/compact_fkhash_trie.hpp")]):
    p(f"C{18+i}",f"{n} is a dynamic trie",
      f"For every {n} built by its public operations: find_child(v,s) returns the child once added and nil otherwise; add_child returns true exactly when the child is new, gives it an identifier no other node has, increases size() by one, and leaves the result of find_child for every other (node, symbol) pair unchanged; the same holds across expansions up to the renaming returned by the expansion.",
      "every reachable trie, every node, every symbol below symb_size, every Hasher (for a compact trie: every bijective one)", "Open addressing correctness depends on the whole insertion history and hash clustering.", [extra+": find_child, add_child, expand"])
p("C22","FK-hash node identifiers are consecutive and never change",
  "The i-th node added to a plain or compact FK-hash trie (the root being number 0) has identifier i, and automatic growth changes no identifier.",
  "every reachable FK-hash trie", "All growth points.", ["include/poplar/plain_fkhash_trie.hpp: add_child, expand_","include/poplar/compact_fkhash_trie.hpp: add_child, expand_"])
p("C23","get_parent_and_symb inverts find_child",
  "In a plain or compact Bonsai trie, get_parent_and_symb(c) = (v,s) exactly when find_child(v,s) = c; it returns nil for the root and for every slot that is not a node.",
  "every reachable Bonsai trie, every slot", "All table states.", ["include/poplar/plain_bonsai_trie.hpp: get_parent_and_symb","include/poplar/compact_bonsai_trie.hpp: get_parent_and_symb"])
p("C24","Bonsai expansion returns an exact renaming",
  "expand() doubles the capacity, keeps size(), and returns a node map that sends the root to the root, is injective on nodes, gives UINT64_MAX for every non-node slot, and satisfies: find_child(v,s)=c before iff find_child(map[v],s)=map[c] after.",
  "every reachable Bonsai trie", "All trie shapes and hash layouts.", ["include/poplar/plain_bonsai_trie.hpp: expand, node_map","include/poplar/compact_bonsai_trie.hpp: expand, node_map"])
p("C25","A full Bonsai trie refuses new children silently",
  "When size() = max_size(), add_child of a missing child returns false, changes neither the trie nor the node identifier - the same boolean as for an existing child - and needs_to_expand() is true exactly in that situation.",
  "every full Bonsai trie", "All full tables.", ["include/poplar/plain_bonsai_trie.hpp: add_child, needs_to_expand","include/poplar/compact_bonsai_trie.hpp: add_child, needs_to_expand"])
p("C26","standard_hash_table is a map",
  "For every sequence of set/get on keys other than UINT64_MAX, get returns the last value set for the key and nil for others; set returns true exactly for new keys; size() counts distinct keys; growth is transparent.",
  "every operation sequence, every Hasher", "Unbounded histories, clustering and rehashing.", ["include/poplar/standard_hash_table.hpp: get, set, expand_"])
p("C27","compact_hash_table is a map",
  "For every sequence of set/get with keys below the universe size and values below val_mask, get returns the last value set for the key and nil for others; set returns true exactly for new keys; size() counts distinct keys; the quotient/bit layout with group displacement and growth is transparent.",
  "every operation sequence, every bijective Hasher, every universe and value width that fits, as long as the table need not outgrow the universe", "The virgin/change-bit layout has unboundedly many cluster shapes.", ["include/poplar/compact_hash_table.hpp: get, set, clone, find_ass_cbit_, copy_from_right_"])
p("C28","clone of a compact_hash_table copies it, and never terminates on an empty one",
  "clone into an empty, sufficiently large table terminates and yields a table with the same contents, provided the source is non-empty; on an empty source clone loops forever.",
  "every reachable table", "Non-termination is not testable; all cluster shapes.", ["include/poplar/compact_hash_table.hpp: clone"])
p("C29","A compact_hash_table cannot hold more than 80% of its universe",
  "Once size() has reached 80% of the universe size, the next set builds a table with more capacity bits than universe bits: the assertion capa_bits <= univ_bits fails (undefined shift without assertions), even for a key that is already stored.",
  "every table at that fill level", "Requires filling a whole universe.", ["include/poplar/compact_hash_table.hpp: set, compact_hash_table(uint32_t,uint32_t)"])
p("C30","split_mix_hasher is a bijection with the stated inverse",
  "For every universe of 1 to 63 bits, hash maps the universe into itself, hash_inv(hash(x)) = x and hash(hash_inv(x)) = x.",
  "all 63 universe widths and all x below 2^width", "The 2^63 inputs cannot be enumerated; the test samples x below 1024.", ["include/poplar/bijective_hash.hpp: split_mix_hasher, PRIME_TABLE"])
p("C31","compact_vector is an array of fixed-width integers",
  "For every width below 64: after set(i,v), get(i) = v and get(j) is unchanged for every j <> i, including elements that straddle word boundaries; a fresh vector reads 0 (or the given initial value) everywhere; no access leaves the buffer; the constructor throws exactly when width >= 64.",
  "every size, width, index and value", "All (width, index, offset) combinations and contents.", ["include/poplar/compact_vector.hpp: compact_vector, get, set"])
p("C32","compact_vector::resize keeps the prefix but not zeroes",
  "resize keeps every element below both sizes; growing a vector that was never shrunk yields zero elements, but after shrinking and growing again elements can reappear non-zero.",
  "every vector and size (first part); existence (second part)", "All sizes and widths.", ["include/poplar/compact_vector.hpp: resize"])
p("C33","bit_vector is an array of bits",
  "set/get behave as an array of bits; append_bit and append_bits append exactly the given bits after the existing ones; get_bits(pos,len) returns the len bits from pos, also across a word boundary, for 0 <= len <= 63 (len = 64 evaluates an undefined shift).",
  "every vector, position, length and bit pattern", "All alignments and contents.", ["include/poplar/bit_vector.hpp"])
p("C34","vbyte round-trips and is self-delimiting",
  "For every 64-bit value, decode of its encoding returns the value and the encoded length, whatever bytes follow; append appends the same bytes as encode; size predicts the length.",
  "all 2^64 values and all suffixes", "2^64 values.", ["include/poplar/vbyte.hpp"])
p("C35","popcnt counts the set bits",
  "The portable popcnt for 8, 16, 32 and 64 bits equals the number of one bits; the masked variant counts the one bits strictly below position i.",
  "all words, all positions", "2^64 words.", ["include/poplar/bit_tools.hpp: popcnt, POPCNT_TABLE"])
p("C36","select returns the position of the i-th one bit",
  "For 1 <= i <= popcnt(x), the portable select(x,i) is a position p whose bit is set and below which exactly i-1 bits are set.",
  "all words x and ranks i", "2^64 words.", ["include/poplar/bit_tools.hpp: select, PS_OVERFLOW, LT_SEL"])
p("C37","msb and ceil_log2",
  "The portable msb(x) is floor(log2 x) for x > 0 and 0 for 0; ceil_log2(x) is the least n with x <= 2^n for x >= 1; words_for is the ceiling of bits/64; is_power2 decides powers of two; bits_to_bytes is the ceiling of bits/8.",
  "all 64-bit words", "2^64 words.", ["include/poplar/bit_tools.hpp: msb, ceil_log2, words_for, MSB_TABLE","include/poplar/basics.hpp: is_power2, bits_to_bytes"])
p("C38","The floating-point load limit is the exact integer one",
  "static_cast<uint64_t>(capacity * MaxFactor / 100.0) in binary64 arithmetic equals floor(capacity*MaxFactor/100) for every capacity 2^b with b <= 49 and every MaxFactor from 1 to 99 (at b = 50 and MaxFactor 54 it is one too large), and is below the capacity for every b up to 57.",
  "all supported capacities and factors", "Rounding errors would appear only for huge tables.", ["include/poplar/plain_bonsai_trie.hpp: max_size_","include/poplar/compact_hash_table.hpp: max_size_","include/poplar/standard_hash_table.hpp: max_size_"])
p("C39","vigna_hasher is injective on 64-bit words",
  "Two different 64-bit keys never have the same full 64-bit hash (the static hash, or operator() with any seed), so plain tables only collide through masking.",
  "all pairs of 64-bit words, all seeds", "2^128 pairs.", ["include/poplar/hash.hpp: vigna_hasher::hash, vigna_hasher::operator()"])
p("C40","Label stores return the stored label and value",
  "For each of the four label stores: after inserting a label at a position, compare at this position with an equal key returns a pointer to its value, and with any other valid key returns nullptr and the length of the longest common prefix; other positions are unaffected.",
  "every store history, every position, every label and key", "All label lengths, chunk populations and insertion orders.", ["include/poplar/plain_bonsai_nlm.hpp","include/poplar/compact_bonsai_nlm.hpp","include/poplar/plain_fkhash_nlm.hpp","include/poplar/compact_fkhash_nlm.hpp"])
p("C41","Label store expansion moves every label to its new position",
  "expand(pos_map) of the Bonsai stores moves label and value of every mapped position to the new position, drops nothing and overwrites nothing, for every injective position map.",
  "every store state and every injective map into the doubled range", "All maps.", ["include/poplar/plain_bonsai_nlm.hpp: expand","include/poplar/compact_bonsai_nlm.hpp: expand, get_slice_, set_slice_, get_allocs_"])
p("C42","Chunked label buffers hold exactly their labels",
  "In the compact stores each allocated chunk buffer is exactly the concatenation, in position order, of vbyte(length)+label+value of the positions marked in its bitmap (dummy entries being a single 0 byte), with no slack and no missing byte.",
  "every reachable compact store, every chunk size 8/16/32/64", "All insertion orders within a chunk.", ["include/poplar/compact_bonsai_nlm.hpp: insert, set_slice_","include/poplar/compact_fkhash_nlm.hpp: append, append_dummy, release_buf_"])
p("C43","The SSE4.2 build and the portable build compute the same functions",
  "popcnt (all widths, masked or not), msb, ceil_log2 and select (for ranks 1..popcount) return the same result whether or not the library is compiled with __SSE4_2__, so maps built by either build behave alike; for ranks above the number of ones the SSE4.2 select has no defined result.",
  "all 64-bit words, all widths, all positions and ranks", "2^64 words; one build only tests one branch.", ["include/poplar/bit_tools.hpp: popcnt, select, msb, ceil_log2"])
p("C44","update throws at most once, and without effect",
  "On keys with at most 255 different bytes a user who catches the exception of update and goes on sees at most one exception in the whole life of the map; the throwing call leaves size() and the result of every find as they were, the same call again succeeds, pointers of the plain maps kept across the exception stay good, and the rest of the history is that of the dictionary.",
  "every history of updates and finds with at most 255 different bytes, every place of the exception, every alias, value size, capacity and lambda", "The exception can hit any call of any history, with step nodes already added and after any number of expansions.", ["include/poplar/map.hpp: update, codes_, num_codes_"])
p("C45","Nodes and capacity are bounded by what the keys need",
  "The number of trie nodes is at least the number of distinct keys and at most the sum, over the distinct keys, of 1 + (length - 1) / lambda (length with the terminator), so it equals size() if no key is longer than lambda; capa_size() is the initial capacity unless the nodes fill at least 90% of half of it, so a map constructed with enough room never grows.",
  "every history of updates and finds, every alias, value size, initial capacity and lambda", "A wasted node or a doubling too early needs a particular interleaving of branching depths, steps and expansions; the bound must hold for all key sets.", ["include/poplar/map.hpp: update, capa_size, expand_if_needed_", "include/poplar/plain_bonsai_trie.hpp: needs_to_expand, expand", "include/poplar/plain_fkhash_trie.hpp: add_child, expand_", "include/poplar/compact_bonsai_trie.hpp: expand", "include/poplar/compact_fkhash_trie.hpp: add_child, expand_"])
p("C46","Every instantiation of the map template is the same dictionary",
  "Not only the aliases of poplar.hpp: map<Trie, NLM> for any of the four tries with a plain or compact label store of its kind (including the pairs no alias uses, such as a compact trie over a plain store), any MaxFactor, Dsp1Bits, AuxCht and AuxMap parameters and any Hasher (of a compact trie and its AuxCht: any bijective one), constructed with any capacity and power-of-two lambda, answers every history of find, update and size as a dictionary does; two instantiations give the same answers; with a plain label store every returned pointer stays valid whatever the trie; on keys with 255 different bytes at most one update throws, without effect; only a compact trie whose MaxFactor exceeds that of its AuxCht may stop at an assertion, and only when the keys nearly fill the AuxCht.",
  "every combination of trie, label store, MaxFactor 1..99, Dsp1Bits and AuxCht width 1..16, AuxCht load factor 1..99, AuxMap load factor 51..99, Hasher, chunk size, value size, initial capacity, lambda and history", "Templates are compiled and tested only for a few argument combinations; some bugs (a hard-wired constant, a limit that fits the defaults only) are invisible to all of them.", ["include/poplar/map.hpp: map", "include/poplar/plain_bonsai_trie.hpp: plain_bonsai_trie", "include/poplar/plain_fkhash_trie.hpp: plain_fkhash_trie", "include/poplar/compact_bonsai_trie.hpp: compact_bonsai_trie", "include/poplar/compact_fkhash_trie.hpp: compact_fkhash_trie", "include/poplar/compact_hash_table.hpp: compact_hash_table", "include/poplar/standard_hash_table.hpp: standard_hash_table"])
p("C47","Value pointers are not aligned for the value type",
  "The value of the first key lies at a fixed byte offset in its block: the key length with the terminator (plain stores), or the bytes of the entry size plus the key length (compact stores). So for every instantiation of the map template, value size, capacity and lambda there is a key of at most four bytes whose value pointer, as returned by update, is at an odd address: a value type with an alignment requirement above 1 must be accessed through memcpy, contrary to what value_type* suggests.",
  "every alias and every instantiation of the template, chunk size, value size, capacity, lambda, build mode, and every first key for the offset", "x86 tolerates misaligned accesses, so tests pass; that no padding is ever added must be seen from the layout for all value sizes.", ["include/poplar/plain_bonsai_nlm.hpp: insert", "include/poplar/plain_fkhash_nlm.hpp: append", "include/poplar/compact_bonsai_nlm.hpp: insert", "include/poplar/compact_fkhash_nlm.hpp: append", "include/poplar/map.hpp: update"])
p("C48","alloc_bytes accounts for the map within tight bounds",
  "After any history alloc_bytes() of every instantiation is at most: a fixed number of bits for each of the capa_size() slots (quotient or edge, displacement, identifier, label pointer or chunk pointer and bitmap), the table of large displacements (64 slots or at most twice what its load factor requires), the growing vectors of the FK-hash stores, the bytes of the distinct keys present with their values (with a length header of a byte for 7 bits in compact stores), and 256 bytes; capa_size() is the initial capacity or within the factor 2*100/MaxFactor of the nodes of the keys. The hash tables of the tries are always counted, for the plain tries to the bit; and unless the sum exceeds 64 bits, at least the slots, pointers and a value for every key are counted (stores that count all their labels).",
  "every instantiation, value size, initial capacity, lambda and history, every capacity std::vector may choose for its growing vectors", "A counter that is not updated on one path (expansion, long label, dummy entry) shows only after particular histories; the bound must hold for all of them.", ["include/poplar/map.hpp: alloc_bytes", "include/poplar/plain_bonsai_trie.hpp: alloc_bytes", "include/poplar/plain_fkhash_trie.hpp: alloc_bytes", "include/poplar/compact_bonsai_trie.hpp: alloc_bytes", "include/poplar/compact_fkhash_trie.hpp: alloc_bytes", "include/poplar/plain_bonsai_nlm.hpp: alloc_bytes, label_bytes_", "include/poplar/plain_fkhash_nlm.hpp: alloc_bytes, label_bytes_", "include/poplar/compact_bonsai_nlm.hpp: alloc_bytes, label_bytes_", "include/poplar/compact_fkhash_nlm.hpp: alloc_bytes, label_bytes_", "include/poplar/compact_vector.hpp: alloc_bytes", "include/poplar/standard_hash_table.hpp: alloc_bytes", "include/poplar/compact_hash_table.hpp: alloc_bytes"])
p("C49","Running out of memory inside update",
  "If an allocation of update fails inside the trie's hash table (adding a step node or the branching edge, including the doubling of the FK-hash tables and the overflow tables of the compact tries) or in the constructor that a default-constructed map calls first, update throws std::bad_alloc and nothing observable has changed: size(), every find and every later update behave as if the call had not been made, and with a plain label store every pointer returned earlier stays valid. If instead the allocation of a label fails, size() counts the key although it was not inserted and looking it up hits the missing label (compact_fkhash_nlm: keys are associated with each other's values); a failing dummy label of an FK-hash trie breaks the next insertion, and a failing doubling of a Bonsai trie leaves an unlabelled edge and a full table.",
  "every instantiation, value size, capacity, lambda, build mode, every history of find and update in which any of the update calls fail at any place inside the table, with the map used on afterwards; the damaging failures are shown for every alias kind on concrete histories, the miscount of size() for every state and every place", "Tests do not inject allocation failures, and could not try every allocation of every history; what is left behind (new byte codes, step nodes, a doubled table) matters only to later calls.", ["include/poplar/map.hpp: update, expand_if_needed_", "include/poplar/plain_bonsai_trie.hpp: add_child", "include/poplar/plain_fkhash_trie.hpp: add_child, expand_", "include/poplar/compact_bonsai_trie.hpp: add_child, update_slot_", "include/poplar/compact_fkhash_trie.hpp: add_child, expand_, update_slot_", "include/poplar/compact_hash_table.hpp: set", "include/poplar/standard_hash_table.hpp: set", "include/poplar/plain_bonsai_nlm.hpp: insert", "include/poplar/plain_fkhash_nlm.hpp: append", "include/poplar/compact_bonsai_nlm.hpp: insert", "include/poplar/compact_fkhash_nlm.hpp: append"])
p("C50","Updating a present key changes nothing; pointers live until the next new key",
  "update(k) for a key that is already registered returns the same pointer as find(k) and leaves the map as it was (and so for every byte range on which find returns a pointer, valid key or not); only a map over an FK-hash trie may enlarge its hash table (capa_size() grows), with the same size, trie nodes, labels and values. Consequently pointers returned by find or update of any map, also of the semi-compact and compact ones whose pointers can move, stay valid until update is called with a key that is not registered: every find, read, write and update of a present key in between leaves them designating the current value of their key.",
  "every instantiation of map<Trie, NLM> (template arguments, any Hasher), value size, capacity, lambda, build mode, every history of find, update, and reads and writes through kept pointers", "The claim ranges over all histories and all positions at which a pointer is used again; an existing-key update walks the same code as an insertion (steps, codes, add_child with its growth check), so only some table states would reveal a side effect.", ["include/poplar/map.hpp: update, find", "include/poplar/plain_fkhash_trie.hpp: add_child", "include/poplar/compact_fkhash_trie.hpp: add_child", "include/poplar/plain_bonsai_trie.hpp: add_child", "include/poplar/compact_bonsai_trie.hpp: add_child", "include/poplar/compact_bonsai_nlm.hpp: compare", "include/poplar/compact_fkhash_nlm.hpp: compare"])
p("C51","With std::string and const char* keys the map is a dictionary over strings",
  "find(s) and update(s) with std::strings without NUL bytes, and with make_char_range(p) of terminated C strings, in any mixture, behave as one dictionary over the strings: equal strings are the same key however they are passed, the empty string and strings that are prefixes of each other are different keys, and no call throws. make_char_range(p) reads nothing after the first NUL and needs one; make_char_range of a std::string with a NUL inside is not cut there and is not a valid key.",
  "every history of calls, every string and buffer, every instantiation of map<Trie, NLM>, value size, capacity, lambda, build mode", "Only a proof covers all strings; prefixes, the empty string and the terminator byte as a branching byte are corner cases that interact with the shape of the trie.", ["include/poplar/map.hpp: find(const std::string&), update(const std::string&)", "include/poplar/basics.hpp: make_char_range, char_range"])
p("C52","Destroying a map releases every block it allocated, once",
  "Whatever was done to a map - construction, updates with any bytes as keys that return, throw or run out of memory, writes through pointers, being moved from - its destructor releases every label block the map still owns and none twice; the label store that the first update of an uninitialised map replaces, and the one left by a move, own nothing.",
  "every sequence of calls with any arguments, every failure point of update, every instantiation of map<Trie, NLM>, value size, build mode", "A leak or a double free shows only for the histories that reach it (growth in the middle of a chunk, a failed allocation, a moved-from map).", ["include/poplar/map.hpp: ~map, operator=(map&&), update", "include/poplar/plain_bonsai_nlm.hpp: expand", "include/poplar/compact_bonsai_nlm.hpp: insert, expand", "include/poplar/compact_fkhash_nlm.hpp: release_buf_"])
p("C53","Common prefixes of the keys are stored once; the memory reported does not depend on the order of insertion",
  "The labels of a map hold exactly one byte for every distinct non-empty prefix of the keys present (terminators included), less one for each key after the first (its branching byte is in the trie), plus one value per key: alloc_bytes() of a map with plain trie and plain labels is this plus a fixed cost per slot, to the byte, whatever the order, values and repetitions of the updates; for the compact structures it is within that plus a length header per key.",
  "every history, key set, instantiation of map<Trie, NLM>, value size, build mode, capacity the standard library picks for the growing vectors", "That splitting a label loses or duplicates no byte must hold for every insertion order of every key set.", ["include/poplar/map.hpp: update, alloc_bytes", "include/poplar/plain_bonsai_nlm.hpp: insert, expand, alloc_bytes", "include/poplar/plain_fkhash_nlm.hpp: append, alloc_bytes", "include/poplar/compact_bonsai_nlm.hpp: insert, alloc_bytes", "include/poplar/compact_fkhash_nlm.hpp: append, alloc_bytes"])
p("C54","The statistics build counts what it says and changes nothing",
  "With POPLAR_EXTRA_STATS defined every sequence of calls has the same outcome as without it (results, sizes, capacity, exceptions); num_resize() is the number of doublings of the hash table, capa_size() = initial capacity * 2^num_resize(), and it is the number that the nodes need; rate_steps() * size() is the number of trie nodes that stand for no key, so it is at most the nodes that the lengths of the keys require beyond one per key, and 0 when no key is longer than lambda. The counters of the label stores hold the total length of all labels (which depends on the set of keys only: the bytes of their trie less one per key but the first, modulo 2^64) and the length of the longest label, which is at least the average and at most the longest key.",
  "every history of find and update, with any keys for the equality of the builds and for num_resize(), every instantiation of map<Trie, NLM>, value size, capacity, lambda, build mode", "A counter missed on one path (an expansion inside add_child, a step node that already exists, the first insertion into a default-constructed map) shows only after particular histories.", ["include/poplar/map.hpp: update, rate_steps, num_resize, num_steps_", "include/poplar/plain_bonsai_trie.hpp: expand, num_resize_", "include/poplar/compact_bonsai_trie.hpp: expand, num_resize_", "include/poplar/plain_fkhash_trie.hpp: add_child, expand_, num_resize_", "include/poplar/compact_fkhash_trie.hpp: add_child, expand_, num_resize_", "include/poplar/plain_bonsai_nlm.hpp: insert, expand, max_length_, sum_length_", "include/poplar/compact_bonsai_nlm.hpp: insert, expand, max_length_, sum_length_", "include/poplar/plain_fkhash_nlm.hpp: append, append_dummy, max_length_, sum_length_", "include/poplar/compact_fkhash_nlm.hpp: append, append_dummy, max_length_, sum_length_"])
p("C55","find and update look at a number of labels and nodes that depends on the key alone",
  "For any map, whatever it holds, and any byte range k of length n (below 2^64): if find or update of k returns, it has compared at most n + 1 labels, looked up or added at most n children by a byte of k, and at most n / lambda step nodes (together: children + lambda * steps <= n, labels <= children + 1); after any supported history find of a valid key does return, update of a key that find finds makes exactly the same comparisons and lookups, and update adds at most as many nodes as the children and step nodes it counts (and the root). So the number of hash lookups and label comparisons of a call never grows with the number of keys.",
  "every instantiation of map<Trie, NLM>, state of the map, build mode, value size, lambda, byte range shorter than 2^64", "A walk that advances by nothing on some mismatch, or by less than it matched, shows only for particular key sets.", ["include/poplar/map.hpp: find, update", "include/poplar/plain_bonsai_nlm.hpp: compare", "include/poplar/plain_fkhash_nlm.hpp: compare", "include/poplar/compact_bonsai_nlm.hpp: compare", "include/poplar/compact_fkhash_nlm.hpp: compare"])
p("C56","In programs with several maps every map shows the dictionary of the contents it holds",
  "Any program that constructs, default-constructs, moves, swaps, assigns and destroys any number of maps and calls find, update and size() on those that hold contents shows exactly what one dictionary per map shows: contents, and the pointers into them, go where they are moved; a map moved from can be moved, swapped, assigned to and destroyed; assignment and destruction release every block of the old contents once, so that at no point a byte is allocated that belongs to no map, and after the last destruction none at all.",
  "every program of any length over any number of map variables, every instantiation of map<Trie, NLM>, value size, build mode; every map within the limits of its parameters", "Sharing or losing a block between source and target of a move shows only in particular interleavings of moves, swaps, later updates and destruction.", ["include/poplar/map.hpp: move constructor and assignment, destructor, find, update, size", "include/poplar/plain_bonsai_nlm.hpp: move, destructor", "include/poplar/plain_fkhash_nlm.hpp: move, destructor", "include/poplar/compact_bonsai_nlm.hpp: move, destructor", "include/poplar/compact_fkhash_nlm.hpp: move, destructor"])
p("C57","The displacement histogram of the statistics build counts every node but the root once",
  "In a build with POPLAR_EXTRA_STATS a compact trie counts in num_dsps_ (whose entries show_stats prints as rates of the nodes) how many nodes keep their displacement in the slot, in the quotient table and in the last auxiliary table: after any history the three counts add up to the nodes of the trie without the root (keys plus steps minus one), the second and the third are the numbers of entries of the two auxiliary tables, an expansion leaves no count of the old table behind, and counting changes no result, size or capacity.",
  "every history of update and find, every map over a compact trie (any Hasher that is a bijection, displacement parameters, load limit, label store), capacity, lambda, value size, build mode", "The three classes and the recounting at an expansion need long displacements and several doublings, and a count is wrong only when some earlier class or expansion was mishandled.", ["include/poplar/compact_bonsai_trie.hpp: update_slot_, add_child, expand, show_stats", "include/poplar/compact_fkhash_trie.hpp: update_slot_, add_child, expand_, show_stats", "include/poplar/map.hpp: show_stats"])
p("C58","find inspects at most one slot per node of the trie for each byte of the key, however the keys collide",
  "After any history, find of any valid key k, present or absent, returns after inspecting at most |k| * (t + c) slots of the hash table of the trie, where t is the number of nodes of the trie and c is 2 (plain Bonsai), 1 (compact Bonsai) or 0 (FK-hash tries): every lookup of a child or of a step (at most one per byte of the key, C55) inspects at least one slot and at most t + c: it ends at the child or at the first vacant slot, and passes no slot twice. This holds for any Hasher, so it bounds the work an adversarial choice of keys can cause, and it does not depend on the capacity.",
  "every instantiation of map<Trie, NLM> (any Hasher, bijective for the compact tries), value size, initial capacity, lambda, build mode, every history of update and find, every valid key", "A search that misses the vacant slot, wraps around or passes the root or slot 0 wrongly runs on only in tables with particular collisions.", ["include/poplar/map.hpp: find", "include/poplar/plain_bonsai_trie.hpp: find_child", "include/poplar/compact_bonsai_trie.hpp: find_child", "include/poplar/plain_fkhash_trie.hpp: find_child", "include/poplar/compact_fkhash_trie.hpp: find_child"])
with open('/verif/properties.jsonl','w') as f:
    for q in P: f.write(json.dumps(q)+"\n")
print(len(P))
