(** Model of the defaulted move constructors (map.hpp:239 and those of its members).
    A defaulted move constructor moves member by member: scalars, size_p2, hashers and std::array are
    copied and keep their value in the source; a std::vector is emptied in the source (guaranteed by
    the C++ standard for the move constructor).  The blocks owned by the moved vectors of unique_ptr
    belong to the target afterwards, so the heap of the source has none of its own.
    Move assignment (map.hpp:240) of different maps is at the end of the file. *)
From Verif.Model Require Export Aliases.
Local Open Scope N_scope.

(** compact_vector.hpp:105, members :109-112 *)
Definition cv_moved (v : compact_vector) : compact_vector := mkCV (vnew 0 0) (cv_size v) (cv_mask v) (cv_width v).
(** plain_bonsai_trie.hpp:271, members :274-281 *)
Definition pb_moved (t : pb_trie) : pb_trie :=
  mkPB (cv_moved (pb_table t)) (pb_size t) (pb_max t) (pb_capa t) (pb_symb t).
(** plain_fkhash_trie.hpp:174, members :177-185 *)
Definition pf_moved (t : pf_trie) : pf_trie :=
  mkPF (cv_moved (pf_table t)) (cv_moved (pf_ids t)) (pf_size t) (pf_max t) (pf_capa t) (pf_symb t).
(** compact_hash_table.hpp:251, members :255-263 *)
Definition ch_moved {H : bij_hasher} (c : cht) : cht :=
  mkCht (ch_hasher c) (cv_moved (ch_table c)) (ch_size c) (ch_max c) (ch_univ c) (ch_capa c) (ch_quo c)
    (ch_quo_shift c) (ch_quo_invmask c).
(** standard_hash_table.hpp:122, members :131-134 *)
Definition st_moved (t : std_table) : std_table := mkST (vnew 0 (UINT64_MAX, 0)) (st_size t) (st_max t) (st_capa t).
(** the slots of the compact tries *)
Definition dt_moved {H : trie_hashers} (t : dsp_table) : dsp_table :=
  mkDT (dt_hasher t) (cv_moved (dt_table t)) (ch_moved (dt_cht t)) (st_moved (dt_map t)) (dt_capa t) (dt_symb t).
(** compact_bonsai_trie.hpp:328 *)
Definition cb_moved {H : trie_hashers} (t : cb_trie) : cb_trie := mkCB (dt_moved (cb_dt t)) (cb_size t) (cb_max t).
(** compact_fkhash_trie.hpp:194 *)
Definition cf_moved {H : trie_hashers} (t : cf_trie) : cf_trie := mkCF (dt_moved (cf_dt t)) (cv_moved (cf_ids t)) (cf_size t) (cf_max t).
(** plain_bonsai_nlm.hpp:130, members :134-136 *)
Definition pbn_moved (n : pbn) : pbn := mkPBN (vnew 0 None) (pbn_size n) (pbn_bytes n) hp_empty.
(** plain_fkhash_nlm.hpp:116, members :120-121 *)
Definition pfn_moved (n : pfn) : pfn := mkPFN (vnew 0 None) (pfn_bytes n) hp_empty.
(** compact_bonsai_nlm.hpp:208, members :212-215 *)
Definition cbn_moved (n : cbn) : cbn := mkCBN (vnew 0 None) (vnew 0 0) (cbn_size n) (cbn_bytes n) hp_empty.
(** compact_fkhash_nlm.hpp:156, members :160-163 *)
Definition cfn_moved (n : cfn) : cfn := mkCFN (vnew 0 None) None (cfn_size n) (cfn_bytes n) hp_empty.

Definition a_trie_moved (dbg : bool) (a : alias) : tT (a_trie dbg a) -> tT (a_trie dbg a) :=
  match a with
  | plain_bonsai_map | semi_compact_bonsai_map _ => pb_moved
  | compact_bonsai_map _ => cb_moved
  | compact_fkhash_map _ => cf_moved
  | plain_fkhash_map | semi_compact_fkhash_map _ => pf_moved
  end.
Definition a_nlm_moved (vs : nat) (a : alias) : nT (a_nlm vs a) -> nT (a_nlm vs a) :=
  match a with
  | plain_bonsai_map => pbn_moved
  | semi_compact_bonsai_map c | compact_bonsai_map c => cbn_moved
  | plain_fkhash_map => pfn_moved
  | semi_compact_fkhash_map c | compact_fkhash_map c => cfn_moved
  end.
(** map.hpp:239: [map to(std::move(from))]; the states of [to] and [from] afterwards. *)
Definition a_move (dbg : bool) (vs : nat) (a : alias) (m : a_map dbg vs a) : a_map dbg vs a * a_map dbg vs a :=
  (m, mkMap _ _ (m_ready _ _ m) (m_lambda _ _ m) (a_trie_moved dbg a (m_trie _ _ m))
        (a_nlm_moved vs a (m_nlm _ _ m)) (m_codes _ _ m) (m_num_codes _ _ m) (m_size _ _ m)).
(** map.hpp:240: [to = std::move(from)] for different maps: every member is move-assigned, whatever [to] held (a vector
    moved from is taken to be empty, as in the implementations of the standard library). *)
Definition a_move_assign (dbg : bool) (vs : nat) (a : alias) (to from : a_map dbg vs a) : a_map dbg vs a * a_map dbg vs a :=
  let '(t, n) := (m_trie _ _ from, m_nlm _ _ from) in
  (mkMap _ _ (m_ready _ _ from) (m_lambda _ _ from) t n (m_codes _ _ from) (m_num_codes _ _ from) (m_size _ _ from),
   mkMap _ _ (m_ready _ _ from) (m_lambda _ _ from) (a_trie_moved dbg a t) (a_nlm_moved vs a n)
     (m_codes _ _ from) (m_num_codes _ _ from) (m_size _ _ from)).
