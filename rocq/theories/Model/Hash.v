(** Model of include/poplar/hash.hpp and include/poplar/bijective_hash.hpp. *)
From Verif.Model Require Export BitTools.
Local Open Scope N_scope.

(** hash.hpp:37-42 [vigna_hasher::hash] *)
Definition vigna_hash (x : N) : N :=
  let x := mul64 (N.lxor x (shr x 30)) 0xbf58476d1ce4e5b9 in
  let x := mul64 (N.lxor x (shr x 27)) 0x94d049bb133111eb in
  N.lxor x (shr x 31).

(** hash.hpp:43-48, :51 [vigna_hasher::operator()], the seed of the default constructor (no table of the library calls it) *)
Definition vigna_call (seed x : N) : N := vigna_hash (add64 x seed).
Definition vigna_seed : N := 0x9e3779b97f4a7c15.

(** bijective_hash.hpp:142-144 (fields of split_mix_hasher) *)
Record split_mix := mkHasher { h_shift : N; h_univ : size_p2 }.
(** bijective_hash.hpp:101 *)
Definition sm_default : split_mix := mkHasher 0 p2_default.
(** bijective_hash.hpp:103-108 *)
Definition sm_new (univ_bits : N) : outcome split_mix :=
  let* _ := assert_ ((0 <? univ_bits) && (univ_bits <? 64)) in
  let* u := p2_new univ_bits in
  Ret (mkHasher (univ_bits / 2 + 1) u).

(** [PRIME_TABLE[bits][j][k]] *)
Definition prime_entry (bits : N) (inv : bool) (k : N) : outcome N :=
  match nth_error PRIME_TABLE (N.to_nat bits) with
  | None => UB
  | Some (p, q) =>
      let '(a, b, c) := if inv then q else p in
      Ret (if k =? 0 then a else if k =? 1 then b else c)
  end.

(** bijective_hash.hpp:146-151 [hash_<N>] *)
Definition hash_step (h : split_mix) (k x : N) : outcome N :=
  let x := N.lxor x (shr x (h_shift h + k)) in
  let* p := prime_entry (p2_bits (h_univ h)) false k in
  Ret (N.land (mul64 x p) (p2_mask (h_univ h))).
(** bijective_hash.hpp:153-158 [hash_inv_<N>] *)
Definition hash_inv_step (h : split_mix) (k x : N) : outcome N :=
  let* p := prime_entry (p2_bits (h_univ h)) true k in
  let x := N.land (mul64 x p) (p2_mask (h_univ h)) in
  Ret (N.lxor x (shr x (h_shift h + k))).

(** bijective_hash.hpp:110-116 [hash] *)
Definition sm_hash (h : split_mix) (x : N) : outcome N :=
  let* _ := assert_ (x <? p2_size (h_univ h)) in
  let* x := hash_step h 0 x in
  let* x := hash_step h 1 x in
  hash_step h 2 x.
(** bijective_hash.hpp:118-125 [hash_inv] *)
Definition sm_hash_inv (h : split_mix) (x : N) : outcome N :=
  let* _ := assert_ (x <? p2_size (h_univ h)) in
  let* x := hash_inv_step h 2 x in
  let* x := hash_inv_step h 1 x in
  hash_inv_step h 0 x.

(** What the containers use of the template argument Hasher.
    The plain tries and standard_hash_table: [static uint64_t hash(uint64_t)] (plain_bonsai_trie.hpp:78, :103,
    plain_fkhash_trie.hpp:192, standard_hash_table.hpp:140).  Any function; only its low bits are used. *)
Class plain_hasher := PlainHasher { p_hash : N -> N }.
(** The compact tries and compact_hash_table: the default constructor, the construction from the number of bits
    of the universe, [hash] and [hash_inv] (compact_bonsai_trie.hpp:65, :90, :113, :152, :332,
    compact_fkhash_trie.hpp:63, :87, :111, :198, :309-311, compact_hash_table.hpp:61, :70, :101, :193, :255). *)
Class bij_hasher := BijHasher {
  hasher : Type; hasher_default : hasher; hasher_new : N -> outcome hasher;
  hasher_hash : hasher -> N -> outcome N; hasher_hash_inv : hasher -> N -> outcome N }.
(** The default arguments: [hash::vigna_hasher] and [bijective_hash::split_mix_hasher]. *)
Definition vigna_hasher : plain_hasher := PlainHasher vigna_hash.
Definition split_mix_hasher : bij_hasher := BijHasher split_mix sm_default sm_new sm_hash sm_hash_inv.
