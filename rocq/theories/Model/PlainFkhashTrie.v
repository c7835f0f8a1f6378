(** Model of include/poplar/plain_fkhash_trie.hpp. *)
From Verif.Model Require Export PlainBonsaiTrie.
Local Open Scope N_scope.

(** plain_fkhash_trie.hpp:178-183 (fields; statistics are left out) *)
Record pf_trie := mkPF {
  pf_table : compact_vector; pf_ids : compact_vector; pf_size : N; pf_max : N;
  pf_capa : size_p2; pf_symb : size_p2 }.

(** plain_fkhash_trie.hpp:50 *)
Definition pf_default : pf_trie := mkPF cv_default cv_default 0 0 p2_default p2_default.
(** plain_fkhash_trie.hpp:52-58; [mf] is the template parameter MaxFactor *)
Definition pf_new (mf capa_bits symb_bits : N) : outcome pf_trie :=
  let* c := p2_new (N.max trie_min_capa_bits capa_bits) in
  let* s := p2_new symb_bits in
  let* table := cv_new (p2_size c) (p2_bits c + p2_bits s) in
  let* ids := cv_new (p2_size c) (p2_bits c) in
  Ret (mkPF table ids 0 (max_size_of (p2_size c) mf) c s).
(** plain_fkhash_trie.hpp:63-66 *)
Definition pf_get_root (t : pf_trie) : outcome N :=
  let* _ := assert_ (negb (pf_size t =? 0)) in Ret 0.
(** plain_fkhash_trie.hpp:68-71 *)
Definition pf_add_root (t : pf_trie) : outcome pf_trie :=
  let* _ := assert_ (pf_size t =? 0) in
  Ret (mkPF (pf_table t) (pf_ids t) 1 (pf_max t) (pf_capa t) (pf_symb t)).
Section hash.
(** the template parameter Hasher *)
Context {H : plain_hasher}.
(** plain_fkhash_trie.hpp:191-193 [init_id_]; [make_key_] :188-190 and [right_] :194-196 are the
    same as in plain_bonsai_trie.hpp. *)
Definition pf_init_id (t : pf_trie) (key : N) : N := N.land (p_hash key) (p2_mask (pf_capa t)).

(** plain_fkhash_trie.hpp:73-93 *)
Definition pf_find_child (t : pf_trie) (node_id symb : N) : outcome N :=
  let* _ := assert_ (node_id <? p2_size (pf_capa t)) in
  let* _ := assert_ (symb <? p2_size (pf_symb t)) in
  if pf_size t =? 0 then Ret nil_id
  else
    let key := make_key (pf_symb t) node_id symb in
    loop (fun i =>
      let* child_id := cv_get (pf_ids t) i in
      if child_id =? 0 then Ret (inr nil_id)
      else
        let* x := cv_get (pf_table t) i in
        if x =? key then Ret (inr child_id)
        else Ret (inl (right_of (pf_capa t) i))) (pf_init_id t key).

(** plain_fkhash_trie.hpp:198-224 [expand_]; [dbg] says whether the assertion of line 211 (key != 0) is
    active: it fails for the child of the root under symbol 0. *)
Definition pf_expand (dbg : bool) (mf : N) (t : pf_trie) : outcome pf_trie :=
  let* new_ht := pf_new mf (p2_bits (pf_capa t) + 1) (p2_bits (pf_symb t)) in
  let* new_ht :=
    for_range 0 (p2_size (pf_capa t)) (fun i new_ht =>
      let* child_id := cv_get (pf_ids t) i in
      if child_id =? 0 then Ret new_ht
      else
        let* key := cv_get (pf_table t) i in
        let* _ := assert_dbg dbg (negb (key =? 0)) in
        loop (fun new_i =>
          let* c := cv_get (pf_ids new_ht) new_i in
          if c =? 0 then
            let* table := cv_set (pf_table new_ht) new_i key in
            let* ids := cv_set (pf_ids new_ht) new_i child_id in
            Ret (inr (mkPF table ids (pf_size new_ht) (pf_max new_ht) (pf_capa new_ht) (pf_symb new_ht)))
          else Ret (inl (right_of (pf_capa new_ht) new_i))) (pf_init_id new_ht key)) new_ht in
  Ret (mkPF (pf_table new_ht) (pf_ids new_ht) (pf_size t) (pf_max new_ht) (pf_capa new_ht) (pf_symb new_ht)).

(** plain_fkhash_trie.hpp:95-124; [dbg] as above for line 104.  Returns (result, node_id, trie). *)
Definition pf_add_child (dbg : bool) (mf : N) (t : pf_trie) (node_id symb : N)
  : outcome (bool * N * pf_trie) :=
  let* _ := assert_ (node_id <? p2_size (pf_capa t)) in
  let* _ := assert_ (symb <? p2_size (pf_symb t)) in
  let* t := (if pf_max t <=? pf_size t then pf_expand dbg mf t else Ret t) in
  let key := make_key (pf_symb t) node_id symb in
  let* _ := assert_dbg dbg (negb (key =? 0)) in
  loop (fun i =>
    let* child_id := cv_get (pf_ids t) i in
    if child_id =? 0 then
      let node_id := pf_size t in
      let* _ := assert_ (negb (node_id =? 0)) in
      let* table := cv_set (pf_table t) i key in
      let* ids := cv_set (pf_ids t) i node_id in
      Ret (inr (true, node_id, mkPF table ids (add64 (pf_size t) 1) (pf_max t) (pf_capa t) (pf_symb t)))
    else
      let* x := cv_get (pf_table t) i in
      if x =? key then Ret (inr (false, child_id, t))
      else Ret (inl (right_of (pf_capa t) i))) (pf_init_id t key).
End hash.
