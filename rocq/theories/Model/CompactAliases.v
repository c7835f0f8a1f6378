(** The template instances with a compact trie (include/poplar.hpp:47-48, :56-57). *)
From Verif.Model Require Export CompactBonsaiTrie CompactFkhashTrie Map.
Local Open Scope N_scope.

Section hash.
Context {H : trie_hashers}.
(** compact_bonsai_trie as the Trie parameter.  map.hpp:62 constructs it with two arguments, so
    cht_capa_bits has its default 0 (compact_bonsai_trie.hpp:59). *)
Definition cb_ops (P : dsp_params) (mf : N) : trie_ops := {|
  tT := cb_trie; t_kind := Bonsai; t_default := cb_default;
  t_new := fun capa_bits symb_bits => cb_new P mf capa_bits symb_bits 0;
  t_size := cb_size; t_capa := fun t => dt_capa (cb_dt t);
  t_get_root := cb_get_root; t_add_root := cb_add_root;
  t_find_child := cb_find_child P; t_add_child := cb_add_child P;
  t_needs_to_expand := cb_needs_to_expand;
  t_expand := fun t => let* r := cb_expand P mf t in
                       Ret (mkNM (cnm_size (fst r)) (cnm_get (fst r)), snd r) |}.
(** compact_fkhash_trie as the Trie parameter (map.hpp does not call [expand] on it) *)
Definition cf_ops (P : dsp_params) (mf : N) : trie_ops := {|
  tT := cf_trie; t_kind := Fkhash; t_default := cf_default;
  t_new := fun capa_bits symb_bits => cf_new P mf capa_bits symb_bits 0;
  t_size := cf_size; t_capa := fun t => dt_capa (cf_dt t);
  t_get_root := cf_get_root; t_add_root := cf_add_root;
  t_find_child := cf_find_child P; t_add_child := cf_add_child P mf;
  t_needs_to_expand := fun _ => false; t_expand := fun _ => UB |}.
End hash.
