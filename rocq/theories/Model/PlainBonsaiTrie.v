(** Model of include/poplar/plain_bonsai_trie.hpp. *)
From Verif.Model Require Export Hash MaxSize CompactVector BitVector BonsaiRemap.
Local Open Scope N_scope.

(** plain_bonsai_trie.hpp:275-279 (fields; statistics are left out) *)
Record pb_trie := mkPB {
  pb_table : compact_vector; pb_size : N; pb_max : N; pb_capa : size_p2; pb_symb : size_p2 }.

(** plain_bonsai_trie.hpp:41 *)
Definition trie_min_capa_bits : N := 16.
(** plain_bonsai_trie.hpp:46 *)
Definition pb_default : pb_trie := mkPB cv_default 0 0 p2_default p2_default.
(** plain_bonsai_trie.hpp:48-53; [mf] is the template parameter MaxFactor *)
Definition pb_new (mf capa_bits symb_bits : N) : outcome pb_trie :=
  let* c := p2_new (N.max trie_min_capa_bits capa_bits) in
  let* s := p2_new symb_bits in
  let* table := cv_new (p2_size c) (p2_bits c + p2_bits s) in
  Ret (mkPB table 0 (max_size_of (p2_size c) mf) c s).
(** plain_bonsai_trie.hpp:57-60 *)
Definition pb_get_root (t : pb_trie) : outcome N :=
  let* _ := assert_ (negb (pb_size t =? 0)) in Ret 1.
(** plain_bonsai_trie.hpp:62-65 *)
Definition pb_add_root (t : pb_trie) : outcome pb_trie :=
  let* _ := assert_ (pb_size t =? 0) in
  Ret (mkPB (pb_table t) 1 (pb_max t) (pb_capa t) (pb_symb t)).
(** plain_bonsai_trie.hpp:284-286 [make_key_] *)
Definition make_key (symb : size_p2) (node_id s : N) : N := N.lor (shl node_id (p2_bits symb)) s.
(** plain_bonsai_trie.hpp:287-289 [right_] *)
Definition right_of (capa : size_p2) (i : N) : N := N.land (add64 i 1) (p2_mask capa).

Section hash.
(** the template parameter Hasher *)
Context {H : plain_hasher}.
(** plain_bonsai_trie.hpp:67-94 *)
Definition pb_find_child (t : pb_trie) (node_id symb : N) : outcome N :=
  let* _ := assert_ (node_id <? p2_size (pb_capa t)) in
  let* _ := assert_ (symb <? p2_size (pb_symb t)) in
  if pb_size t =? 0 then Ret nil_id
  else
    let key := make_key (pb_symb t) node_id symb in
    let* _ := assert_ (negb (key =? 0)) in
    loop (fun i =>
      if i =? 0 then Ret (inl (right_of (pb_capa t) i))
      else
        let* root := pb_get_root t in
        if i =? root then Ret (inl (right_of (pb_capa t) i))
        else
          let* x := cv_get (pb_table t) i in
          if x =? 0 then Ret (inr nil_id)
          else if x =? key then Ret (inr i)
          else Ret (inl (right_of (pb_capa t) i)))
      (N.land (p_hash key) (p2_mask (pb_capa t))).

(** plain_bonsai_trie.hpp:96-132; returns (result, node_id after the call, trie) *)
Definition pb_add_child (t : pb_trie) (node_id symb : N) : outcome (bool * N * pb_trie) :=
  let* _ := assert_ (node_id <? p2_size (pb_capa t)) in
  let* _ := assert_ (symb <? p2_size (pb_symb t)) in
  let key := make_key (pb_symb t) node_id symb in
  let* _ := assert_ (negb (key =? 0)) in
  loop (fun i =>
    if i =? 0 then Ret (inl (right_of (pb_capa t) i))
    else
      let* root := pb_get_root t in
      if i =? root then Ret (inl (right_of (pb_capa t) i))
      else
        let* x := cv_get (pb_table t) i in
        if x =? 0 then
          if pb_size t =? pb_max t then Ret (inr (false, node_id, t))
          else
            let* table := cv_set (pb_table t) i key in
            Ret (inr (true, i, mkPB table (add64 (pb_size t) 1) (pb_max t) (pb_capa t) (pb_symb t)))
        else if x =? key then Ret (inr (false, i, t))
        else Ret (inl (right_of (pb_capa t) i)))
    (N.land (p_hash key) (p2_mask (pb_capa t))).

(** plain_bonsai_trie.hpp:134-144 *)
Definition pb_get_parent_and_symb (t : pb_trie) (node_id : N) : outcome (N * N) :=
  let* _ := assert_ (node_id <? p2_size (pb_capa t)) in
  let* key := cv_get (pb_table t) node_id in
  if key =? 0 then Ret (nil_id, 0)
  else Ret (shr key (p2_bits (pb_symb t)), N.land key (p2_mask (pb_symb t))).

(** plain_bonsai_trie.hpp:146-172 class node_map *)
Record pb_node_map := mkPNM { pnm_map : compact_vector; pnm_done : bit_vector }.
Definition pnm_get (m : pb_node_map) (i : N) : outcome N :=
  let* d := bv_get (pnm_done m) i in
  if d then cv_get (pnm_map m) i else Ret UINT64_MAX.
Definition pnm_size (m : pb_node_map) : N := cv_size (pnm_map m).

(** plain_bonsai_trie.hpp:174-176 *)
Definition pb_needs_to_expand (t : pb_trie) : bool := pb_max t <=? pb_size t.

(** plain_bonsai_trie.hpp:178-224 *)
Definition pb_expand (mf : N) (t : pb_trie) : outcome (pb_node_map * pb_trie) :=
  let* new_ht := pb_new mf (p2_bits (pb_capa t) + 1) (p2_bits (pb_symb t)) in
  let* new_ht := pb_add_root new_ht in
  let done := bv_new (p2_size (pb_capa t)) in
  let* root := pb_get_root t in
  let* done := bv_set done root true in
  let* new_root := pb_get_root new_ht in
  let* table := cv_set (pb_table t) root new_root in
  let* st :=
    bonsai_remap 2 (cv_size table)
      (fun table i => let* x := cv_get table i in Ret (x =? 0))
      (fun table i => pb_get_parent_and_symb
         (mkPB table (pb_size t) (pb_max t) (pb_capa t) (pb_symb t)) i)
      cv_get cv_set pb_add_child (table, done, new_ht) in
  let '(table, done, new_ht) := st in
  Ret (mkPNM table done, new_ht).
End hash.
