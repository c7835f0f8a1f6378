(** The template instances with a plain trie (include/poplar.hpp:41-54). *)
From Verif.Model Require Export PlainBonsaiTrie PlainFkhashTrie PlainNlm Map.
Local Open Scope N_scope.

Section hash.
(** the template parameter Hasher *)
Context {H : plain_hasher}.
(** plain_bonsai_trie as the Trie parameter *)
Definition pb_ops (mf : N) : trie_ops := {|
  tT := pb_trie; t_kind := Bonsai; t_default := pb_default; t_new := pb_new mf; t_size := pb_size;
  t_capa := pb_capa; t_get_root := pb_get_root; t_add_root := pb_add_root;
  t_find_child := pb_find_child; t_add_child := pb_add_child;
  t_needs_to_expand := pb_needs_to_expand;
  t_expand := fun t => let* r := pb_expand mf t in
                       Ret (mkNM (pnm_size (fst r)) (pnm_get (fst r)), snd r) |}.
(** plain_fkhash_trie as the Trie parameter *)
Definition pf_ops (dbg : bool) (mf : N) : trie_ops := {|
  tT := pf_trie; t_kind := Fkhash; t_default := pf_default; t_new := pf_new mf; t_size := pf_size;
  t_capa := pf_capa; t_get_root := pf_get_root; t_add_root := pf_add_root;
  t_find_child := pf_find_child; t_add_child := pf_add_child dbg mf;
  t_needs_to_expand := fun _ => false; t_expand := fun _ => UB |}.
End hash.
