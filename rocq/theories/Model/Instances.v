(** Every instantiation of the template [map<Trie, NLM>] (map.hpp:38-40): any trie with any template
    arguments, with a label store of the same kind (the static_assert of map.hpp:40). *)
From Verif.Model Require Export Aliases ApiTry.
Local Open Scope N_scope.

(** plain_bonsai_trie.hpp:34-37, compact_bonsai_trie.hpp:34-38, plain_fkhash_trie.hpp:36-38, compact_fkhash_trie.hpp:34-38.
    [mf]: MaxFactor; [P]: Dsp1Bits and the arguments of AuxCht and AuxMap; [H]: the Hasher arguments (of the trie,
    and for the compact ones also of AuxCht and AuxMap). *)
Inductive trie_inst :=
  | T_plain_bonsai (H : plain_hasher) (mf : N) | T_compact_bonsai (H : trie_hashers) (P : dsp_params) (mf : N)
  | T_plain_fkhash (H : plain_hasher) (mf : N) | T_compact_fkhash (H : trie_hashers) (P : dsp_params) (mf : N).
(** The label store: [None] for plain_bonsai_nlm / plain_fkhash_nlm, [Some c] for
    compact_bonsai_nlm / compact_fkhash_nlm with ChunkSize [c]. *)
Record inst := mkInst { i_t : trie_inst; i_l : option chunk_size }.

Definition i_trie (dbg : bool) (i : inst) : trie_ops :=
  match i_t i with
  | T_plain_bonsai H mf => pb_ops mf
  | T_compact_bonsai H P mf => cb_ops P mf
  | T_plain_fkhash H mf => pf_ops dbg mf
  | T_compact_fkhash H P mf => cf_ops P mf
  end.
Definition i_nlm (vs : nat) (i : inst) : nlm_ops :=
  match i_t i, i_l i with
  | (T_plain_bonsai _ _ | T_compact_bonsai _ _ _), None => pbn_ops vs
  | (T_plain_bonsai _ _ | T_compact_bonsai _ _ _), Some c => cbn_ops (cs_val c) vs
  | (T_plain_fkhash _ _ | T_compact_fkhash _ _ _), None => pfn_ops vs
  | (T_plain_fkhash _ _ | T_compact_fkhash _ _ _), Some c => cfn_ops (cs_val c) vs
  end.
(** As for the aliases (Aliases.v). *)
Definition i_map (dbg : bool) (vs : nat) (i : inst) : Type := map_st (i_trie dbg i) (i_nlm vs i).
Definition i_new (dbg : bool) (vs : nat) (i : inst) (capa_bits lambda : N) : outcome (i_map dbg vs i) :=
  map_new (i_trie dbg i) (i_nlm vs i) capa_bits lambda.
Definition i_run (dbg : bool) (vs : nat) (i : inst) (m : i_map dbg vs i) (ops : list op)
  : outcome (list (obs * N) * i_map dbg vs i) := api_run dbg _ _ m ops.
Definition i_hrun (dbg : bool) (vs : nat) (i : inst) (m : i_map dbg vs i) (ops : list hop)
  : outcome (list hobs * i_map dbg vs i * list (option ptr)) := hapi_run dbg _ _ m [] ops.
Definition i_try_run (dbg : bool) (vs : nat) (i : inst) (m : i_map dbg vs i) (ops : list op)
  : outcome (list (tobs * N) * i_map dbg vs i) := try_run dbg _ _ m ops.
Definition i_find (dbg : bool) (vs : nat) (i : inst) (m : i_map dbg vs i) (k : list N) : outcome (option ptr) :=
  map_find dbg _ _ m k.
Definition i_update (dbg : bool) (vs : nat) (i : inst) (m : i_map dbg vs i) (k : list N)
  : outcome (update_result * i_map dbg vs i) := map_update dbg _ _ m k.
Definition i_size (dbg : bool) (vs : nat) (i : inst) (m : i_map dbg vs i) : N := m_size _ _ m.
Definition i_capa_size (dbg : bool) (vs : nat) (i : inst) (m : i_map dbg vs i) : N := map_capa_size _ _ m.
(** The instantiations behind the aliases (poplar.hpp:41-57). *)
Definition inst_of (a : alias) : inst :=
  match a with
  | plain_bonsai_map => mkInst (T_plain_bonsai vigna_hasher 90) None
  | semi_compact_bonsai_map c => mkInst (T_plain_bonsai vigna_hasher 90) (Some c)
  | compact_bonsai_map c => mkInst (T_compact_bonsai std_hashers dp_std 90) (Some c)
  | plain_fkhash_map => mkInst (T_plain_fkhash vigna_hasher 90) None
  | semi_compact_fkhash_map c => mkInst (T_plain_fkhash vigna_hasher 90) (Some c)
  | compact_fkhash_map c => mkInst (T_compact_fkhash std_hashers dp_std 90) (Some c)
  end.
