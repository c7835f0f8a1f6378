(** The load limit [static_cast<uint64_t>(capa_size_.size() * MaxFactor / 100.0)] computed by
    plain_bonsai_trie.hpp:51, compact_bonsai_trie.hpp:63, plain_fkhash_trie.hpp:55,
    compact_fkhash_trie.hpp:62, compact_hash_table.hpp:59, standard_hash_table.hpp:47:
    a 64-bit product, converted to binary64, divided by 100.0 and truncated. *)
From Verif.Model Require Export Base.
From Coq Require Import SpecFloat.
Local Open Scope N_scope.

Definition double_of_u64 (x : N) : spec_float := binary_normalize 53 1024 (Z.of_N x) 0 false.
(** Truncation towards zero; results here are finite and non-negative. *)
Definition u64_of_double (f : spec_float) : N :=
  match f with
  | S754_finite false m e =>
      Z.to_N (if Z.leb 0 e then Z.shiftl (Z.pos m) e else Z.shiftr (Z.pos m) (Z.opp e))
  | _ => 0
  end.
Definition max_size_of (capa factor : N) : N :=
  u64_of_double (SFdiv 53 1024 (double_of_u64 (mul64 capa factor)) (double_of_u64 100)).
