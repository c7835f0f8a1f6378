(** The memory accounting functions alloc_bytes().  A vector that is constructed with n elements and never
    resized is taken to have capacity n; sizeof(uint64_t) = sizeof(unique_ptr) = 8, sizeof(slot_type) = 16. *)
From Verif.Model Require Export Instances.
Local Open Scope N_scope.

(** compact_vector.hpp:98-100 *)
Definition cv_bytes (cv : compact_vector) : N := mul64 (vlen (cv_chunks cv)) 8.
(** standard_hash_table.hpp:102-104, slot_type :127-130 *)
Definition st_bytes (t : std_table) : N := mul64 (vlen (st_table t)) 16.
(** compact_hash_table.hpp:229-231 *)
Definition ch_bytes {H : bij_hasher} (t : cht) : N := cv_bytes (ch_table t).
(** plain_bonsai_trie.hpp:250-252 *)
Definition pb_bytes (t : pb_trie) : N := cv_bytes (pb_table t).
(** plain_fkhash_trie.hpp:150-155 *)
Definition pf_bytes (t : pf_trie) : N := add64 (cv_bytes (pf_table t)) (cv_bytes (pf_ids t)).
(** compact_bonsai_trie.hpp:292-298 and the first three summands of compact_fkhash_trie.hpp:157-164 *)
Definition dt_bytes {H : trie_hashers} (d : dsp_table) : N :=
  add64 (add64 (cv_bytes (dt_table d)) (ch_bytes (dt_cht d))) (st_bytes (dt_map d)).
Definition cb_bytes {H : trie_hashers} (t : cb_trie) : N := dt_bytes (cb_dt t).
(** compact_fkhash_trie.hpp:157-164 *)
Definition cf_bytes {H : trie_hashers} (t : cf_trie) : N := add64 (dt_bytes (cf_dt t)) (cv_bytes (cf_ids t)).
(** plain_bonsai_nlm.hpp:108-113 *)
Definition pbn_alloc (n : pbn) : N := add64 (mul64 (vlen (pbn_ptrs n)) 8) (pbn_bytes n).
(** compact_bonsai_nlm.hpp:184-190; [cs]: ChunkSize, sizeof(chunk_type) = cs/8 (basics.hpp:126-143) *)
Definition cbn_alloc (cs : N) (n : cbn) : N :=
  add64 (add64 (mul64 (vlen (cbn_ptrs n)) 8) (mul64 (vlen (cbn_chunks n)) (cs / 8))) (cbn_bytes n).
(** plain_fkhash_nlm.hpp:95-100; [cap]: ptrs_.capacity(), chosen by std::vector as ptrs_ grows *)
Definition pfn_alloc (cap : N) (n : pfn) : N := add64 (mul64 cap 8) (pfn_bytes n).
(** compact_fkhash_nlm.hpp:132-138; [cap], [bcap]: chunk_ptrs_.capacity(), chunk_buf_.capacity() *)
Definition cfn_alloc (cap bcap : N) (n : cfn) : N := add64 (add64 (mul64 cap 8) bcap) (cfn_bytes n).

(** The alloc_bytes() of the trie and of the label store of an instantiation. *)
Definition i_trie_bytes (dbg : bool) (i : inst) : tT (i_trie dbg i) -> N :=
  match i return tT (i_trie dbg i) -> N with
  | mkInst (T_plain_bonsai H mf) l => pb_bytes
  | mkInst (T_compact_bonsai H P mf) l => cb_bytes
  | mkInst (T_plain_fkhash H mf) l => pf_bytes
  | mkInst (T_compact_fkhash H P mf) l => cf_bytes
  end.
Definition i_label_bytes (vs : nat) (cap bcap : N) (i : inst) : nT (i_nlm vs i) -> N :=
  match i return nT (i_nlm vs i) -> N with
  | mkInst (T_plain_bonsai _ _) None | mkInst (T_compact_bonsai _ _ _) None => pbn_alloc
  | mkInst (T_plain_bonsai _ _) (Some c) | mkInst (T_compact_bonsai _ _ _) (Some c) => cbn_alloc (cs_val c)
  | mkInst (T_plain_fkhash _ _) None | mkInst (T_compact_fkhash _ _ _) None => pfn_alloc cap
  | mkInst (T_plain_fkhash _ _) (Some c) | mkInst (T_compact_fkhash _ _ _) (Some c) => cfn_alloc cap bcap
  end.
(** map.hpp:213-219; codes_ is a std::array of 256 bytes (map.hpp:252) *)
Definition i_alloc_bytes (dbg : bool) (vs : nat) (cap bcap : N) (i : inst) (m : i_map dbg vs i) : N :=
  add64 (add64 (i_trie_bytes dbg i (m_trie _ _ m)) (i_label_bytes vs cap bcap i (m_nlm _ _ m))) 256.
