(** The map aliases of include/poplar.hpp:41-57, with the default template arguments of the tries. *)
From Verif.Model Require Export PlainAliases CompactAliases CompactNlm Api.
Local Open Scope N_scope.

(** basics.hpp:126-143: the chunk sizes for which chunk_type_traits is specialised (template argument
    ChunkSize of the compact label stores; default 16) *)
Inductive chunk_size := cs8 | cs16 | cs32 | cs64.
Definition cs_val (c : chunk_size) : N := match c with cs8 => 8 | cs16 => 16 | cs32 => 32 | cs64 => 64 end.

Inductive alias :=
  | plain_bonsai_map                          (* poplar.hpp:41-42 *)
  | semi_compact_bonsai_map (c : chunk_size)  (* poplar.hpp:44-45 *)
  | compact_bonsai_map (c : chunk_size)       (* poplar.hpp:47-48 *)
  | plain_fkhash_map                          (* poplar.hpp:50-51 *)
  | semi_compact_fkhash_map (c : chunk_size)  (* poplar.hpp:53-54 *)
  | compact_fkhash_map (c : chunk_size).      (* poplar.hpp:56-57 *)

(** plain_bonsai_trie.hpp:37, plain_fkhash_trie.hpp:37, compact_bonsai_trie.hpp:35, compact_fkhash_trie.hpp:35:
    MaxFactor = 90; [dp_std] holds the other defaults of the compact tries *)
Definition a_trie (dbg : bool) (a : alias) : trie_ops :=
  match a with
  | plain_bonsai_map | semi_compact_bonsai_map _ => @pb_ops vigna_hasher 90
  | compact_bonsai_map _ => @cb_ops std_hashers dp_std 90
  | compact_fkhash_map _ => @cf_ops std_hashers dp_std 90
  | plain_fkhash_map | semi_compact_fkhash_map _ => @pf_ops vigna_hasher dbg 90
  end.
Definition a_nlm (vs : nat) (a : alias) : nlm_ops :=
  match a with
  | plain_bonsai_map => pbn_ops vs
  | semi_compact_bonsai_map c | compact_bonsai_map c => cbn_ops (cs_val c) vs
  | plain_fkhash_map => pfn_ops vs
  | semi_compact_fkhash_map c | compact_fkhash_map c => cfn_ops (cs_val c) vs
  end.
(** map<...>(capa_bits, lambda), map<...>(), find, update of an alias; [vs] = sizeof(Value),
    [dbg]: assertions enabled. *)
Definition a_map (dbg : bool) (vs : nat) (a : alias) : Type := map_st (a_trie dbg a) (a_nlm vs a).
Definition a_new (dbg : bool) (vs : nat) (a : alias) (capa_bits lambda : N) : outcome (a_map dbg vs a) :=
  map_new (a_trie dbg a) (a_nlm vs a) capa_bits lambda.
Definition a_default (dbg : bool) (vs : nat) (a : alias) : a_map dbg vs a :=
  map_default (a_trie dbg a) (a_nlm vs a).
Definition a_find (dbg : bool) (vs : nat) (a : alias) (m : a_map dbg vs a) (k : list N) : outcome (option ptr) :=
  map_find dbg (a_trie dbg a) (a_nlm vs a) m k.
Definition a_update (dbg : bool) (vs : nat) (a : alias) (m : a_map dbg vs a) (k : list N)
  : outcome (update_result * a_map dbg vs a) :=
  map_update dbg (a_trie dbg a) (a_nlm vs a) m k.
Definition a_size (dbg : bool) (vs : nat) (a : alias) (m : a_map dbg vs a) : N := m_size _ _ m.
Definition a_capa_size (dbg : bool) (vs : nat) (a : alias) (m : a_map dbg vs a) : N := map_capa_size _ _ m.
(** number of trie nodes *)
Definition a_nodes (dbg : bool) (vs : nat) (a : alias) (m : a_map dbg vs a) : N :=
  t_size (a_trie dbg a) (m_trie _ _ m).
Definition a_read (dbg : bool) (vs : nat) (a : alias) (m : a_map dbg vs a) (p : ptr) : outcome (list N) :=
  map_read _ _ m p.
Definition a_write (dbg : bool) (vs : nat) (a : alias) (m : a_map dbg vs a) (p : ptr) (w : list N)
  : outcome (a_map dbg vs a) := map_write _ _ m p w.
(** A user's history on a map (Api.v). *)
Definition a_run (dbg : bool) (vs : nat) (a : alias) (m : a_map dbg vs a) (ops : list op)
  : outcome (list (obs * N) * a_map dbg vs a) := api_run dbg _ _ m ops.
Definition a_hrun (dbg : bool) (vs : nat) (a : alias) (m : a_map dbg vs a) (ops : list hop)
  : outcome (list hobs * a_map dbg vs a * list (option ptr)) := hapi_run dbg _ _ m [] ops.
