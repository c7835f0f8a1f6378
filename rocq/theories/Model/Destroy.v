(** Destruction of a map (map.hpp:68, [~map() = default]): the destructors of its members.  Those of the tries and of
    codes_ release nothing but std::vectors of plain data; the label stores own blocks. *)
From Verif.Model Require Export Instances Move.
Local Open Scope N_scope.

(** plain_bonsai_nlm.hpp:47, member ptrs_ :134 *)
Definition pbn_destroy (n : pbn) : outcome heap := free_all (pbn_ptrs n) (pbn_heap n).
(** plain_fkhash_nlm.hpp:48, member ptrs_ :120 *)
Definition pfn_destroy (n : pfn) : outcome heap := free_all (pfn_ptrs n) (pfn_heap n).
(** compact_bonsai_nlm.hpp:49, member ptrs_ :213 *)
Definition cbn_destroy (n : cbn) : outcome heap := free_all (cbn_ptrs n) (cbn_heap n).
(** compact_fkhash_nlm.hpp:52, members chunk_ptrs_ and chunk_buf_ :160-161, in the reverse order of declaration *)
Definition cfn_destroy (n : cfn) : outcome heap :=
  let* h := hp_delete (cfn_heap n) (cfn_buf n) in free_all (cfn_ptrs n) h.

Definition i_label_destroy (vs : nat) (i : inst) : nT (i_nlm vs i) -> outcome heap :=
  match i_t i as x, i_l i as y return nT (match x, y with
      | (T_plain_bonsai _ _ | T_compact_bonsai _ _ _), None => pbn_ops vs
      | (T_plain_bonsai _ _ | T_compact_bonsai _ _ _), Some c => cbn_ops (cs_val c) vs
      | (T_plain_fkhash _ _ | T_compact_fkhash _ _ _), None => pfn_ops vs
      | (T_plain_fkhash _ _ | T_compact_fkhash _ _ _), Some c => cfn_ops (cs_val c) vs end) -> outcome heap with
  | (T_plain_bonsai _ _ | T_compact_bonsai _ _ _), None => pbn_destroy
  | (T_plain_bonsai _ _ | T_compact_bonsai _ _ _), Some c => cbn_destroy
  | (T_plain_fkhash _ _ | T_compact_fkhash _ _ _), None => pfn_destroy
  | (T_plain_fkhash _ _ | T_compact_fkhash _ _ _), Some c => cfn_destroy
  end.
(** What is left allocated after the destruction of a map. *)
Definition i_destroy (dbg : bool) (vs : nat) (i : inst) (m : i_map dbg vs i) : outcome heap :=
  i_label_destroy vs i (m_nlm _ _ m).

(** The instantiations' moves: as for the aliases (Move.v). *)
Definition i_trie_moved (dbg : bool) (i : inst) : tT (i_trie dbg i) -> tT (i_trie dbg i) :=
  match i_t i as x return tT (match x with
      | T_plain_bonsai H mf => pb_ops mf | T_compact_bonsai H P mf => cb_ops P mf
      | T_plain_fkhash H mf => pf_ops dbg mf | T_compact_fkhash H P mf => cf_ops P mf end) -> tT (match x with
      | T_plain_bonsai H mf => pb_ops mf | T_compact_bonsai H P mf => cb_ops P mf
      | T_plain_fkhash H mf => pf_ops dbg mf | T_compact_fkhash H P mf => cf_ops P mf end) with
  | T_plain_bonsai _ _ => pb_moved
  | T_compact_bonsai _ _ _ => cb_moved
  | T_plain_fkhash _ _ => pf_moved
  | T_compact_fkhash _ _ _ => cf_moved
  end.
Definition i_nlm_moved (vs : nat) (i : inst) : nT (i_nlm vs i) -> nT (i_nlm vs i) :=
  match i_t i as x, i_l i as y return nT (match x, y with
      | (T_plain_bonsai _ _ | T_compact_bonsai _ _ _), None => pbn_ops vs
      | (T_plain_bonsai _ _ | T_compact_bonsai _ _ _), Some c => cbn_ops (cs_val c) vs
      | (T_plain_fkhash _ _ | T_compact_fkhash _ _ _), None => pfn_ops vs
      | (T_plain_fkhash _ _ | T_compact_fkhash _ _ _), Some c => cfn_ops (cs_val c) vs end) -> nT (match x, y with
      | (T_plain_bonsai _ _ | T_compact_bonsai _ _ _), None => pbn_ops vs
      | (T_plain_bonsai _ _ | T_compact_bonsai _ _ _), Some c => cbn_ops (cs_val c) vs
      | (T_plain_fkhash _ _ | T_compact_fkhash _ _ _), None => pfn_ops vs
      | (T_plain_fkhash _ _ | T_compact_fkhash _ _ _), Some c => cfn_ops (cs_val c) vs end) with
  | (T_plain_bonsai _ _ | T_compact_bonsai _ _ _), None => pbn_moved
  | (T_plain_bonsai _ _ | T_compact_bonsai _ _ _), Some c => cbn_moved
  | (T_plain_fkhash _ _ | T_compact_fkhash _ _ _), None => pfn_moved
  | (T_plain_fkhash _ _ | T_compact_fkhash _ _ _), Some c => cfn_moved
  end.
(** map.hpp:239-240: the map moved from. *)
Definition i_moved_from (dbg : bool) (vs : nat) (i : inst) (m : i_map dbg vs i) : i_map dbg vs i :=
  mkMap _ _ (m_ready _ _ m) (m_lambda _ _ m) (i_trie_moved dbg i (m_trie _ _ m)) (i_nlm_moved vs i (m_nlm _ _ m))
    (m_codes _ _ m) (m_num_codes _ _ m) (m_size _ _ m).
