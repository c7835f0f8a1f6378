(** Model of include/poplar/compact_fkhash_trie.hpp. *)
From Verif.Model Require Export DspTable.
Local Open Scope N_scope.

Section hash.
Context {H : trie_hashers}.
(** compact_fkhash_trie.hpp:198-206 (fields; statistics are left out) *)
Record cf_trie := mkCF { cf_dt : dsp_table; cf_ids : compact_vector; cf_size : N; cf_max : N }.

(** compact_fkhash_trie.hpp:57 *)
Definition cf_default : cf_trie := mkCF dt_default cv_default 0 0.

Section cf.
  (** Template parameters: MaxFactor and the ones of the slots (compact_fkhash_trie.hpp:35-36). *)
  Context (P : dsp_params) (mf : N).

  (** compact_fkhash_trie.hpp:59-67 *)
  Definition cf_new (capa_bits symb_bits cht_capa_bits : N) : outcome cf_trie :=
    let* dt := dt_new P capa_bits symb_bits cht_capa_bits in
    let c := dt_capa dt in
    let* ids := cv_new_init (p2_size c) (p2_bits c) (p2_mask c) in
    Ret (mkCF dt ids 0 (max_size_of (p2_size c) mf)).
  (** compact_fkhash_trie.hpp:72-75 *)
  Definition cf_get_root (t : cf_trie) : outcome N :=
    let* _ := assert_ (negb (cf_size t =? 0)) in Ret 0.
  (** compact_fkhash_trie.hpp:77-80 *)
  Definition cf_add_root (t : cf_trie) : outcome cf_trie :=
    let* _ := assert_ (cf_size t =? 0) in Ret (mkCF (cf_dt t) (cf_ids t) 1 (cf_max t)).

  (** compact_fkhash_trie.hpp:82-101 *)
  Definition cf_find_child (t : cf_trie) (node_id symb : N) : outcome N :=
    let d := cf_dt t in
    if cf_size t =? 0 then Ret nil_id
    else
      let* x := hasher_hash (dt_hasher d) (make_key (dt_symb d) node_id symb) in
      let '(quo, mod_) := dt_decompose d x in
      loop (fun st : N * N =>
        let '(i, cnt) := st in
        let next := (right_of (dt_capa d) i, add64 cnt 1) in
        let* child_id := cv_get (cf_ids t) i in
        if child_id =? p2_mask (dt_capa d) then Ret (inr nil_id)
        else
          let* c := dt_compare_dsp P d i cnt in
          if c then
            let* q := dt_get_quo P d i in
            if quo =? q then Ret (inr child_id) else Ret (inl next)
          else Ret (inl next)) (mod_, 0).

  (** compact_fkhash_trie.hpp:261-291: [update_slot_] with the line [ids_.set(slot_id, node_id)] *)
  Definition cf_update_slot (t : cf_trie) (i quo dsp node_id : N) : outcome cf_trie :=
    let* d := dt_update_slot P (cf_dt t) i quo dsp in
    let* ids := cv_set (cf_ids t) i node_id in
    Ret (mkCF d ids (cf_size t) (cf_max t)).

  (** compact_fkhash_trie.hpp:293-324 [expand_] *)
  Definition cf_expand (t : cf_trie) : outcome cf_trie :=
    let d := cf_dt t in
    let* new_ht := cf_new (p2_bits (dt_capa d) + 1) (p2_bits (dt_symb d)) 0 in
    let* new_ht :=
      for_range 0 (p2_size (dt_capa d)) (fun i new_ht =>
        let* node_id := cv_get (cf_ids t) i in
        if node_id =? p2_mask (dt_capa d) then Ret new_ht
        else
          let* dist := dt_get_dsp P d i in
          let init_id := dt_init_id d i dist in
          let* q := dt_get_quo P d i in
          let* key := hasher_hash_inv (dt_hasher d) (N.lor (shl q (p2_bits (dt_capa d))) init_id) in
          let nd := cf_dt new_ht in
          let* x := hasher_hash (dt_hasher nd) key in
          let '(quo, mod_) := dt_decompose nd x in
          loop (fun st : N * N =>
            let '(new_i, cnt) := st in
            let* c := cv_get (cf_ids new_ht) new_i in
            if c =? p2_mask (dt_capa nd) then
              let* n := cf_update_slot new_ht new_i quo cnt node_id in Ret (inr n)
            else Ret (inl (right_of (dt_capa nd) new_i, add64 cnt 1))) (mod_, 0)) new_ht in
    Ret (mkCF (cf_dt new_ht) (cf_ids new_ht) (cf_size t) (cf_max new_ht)).

  (** compact_fkhash_trie.hpp:103-128; returns (result, node_id after the call, trie) *)
  Definition cf_add_child (t : cf_trie) (node_id symb : N) : outcome (bool * N * cf_trie) :=
    let* _ := assert_ (node_id <? p2_size (dt_capa (cf_dt t))) in
    let* _ := assert_ (symb <? p2_size (dt_symb (cf_dt t))) in
    let* t := (if cf_max t <=? cf_size t then cf_expand t else Ret t) in
    let d := cf_dt t in
    let* x := hasher_hash (dt_hasher d) (make_key (dt_symb d) node_id symb) in
    let '(quo, mod_) := dt_decompose d x in
    loop (fun st : N * N =>
      let '(i, cnt) := st in
      let next := (right_of (dt_capa d) i, add64 cnt 1) in
      let* child_id := cv_get (cf_ids t) i in
      if child_id =? p2_mask (dt_capa d) then
        let* n := cf_update_slot t i quo cnt (cf_size t) in
        Ret (inr (true, cf_size t, mkCF (cf_dt n) (cf_ids n) (add64 (cf_size t) 1) (cf_max t)))
      else
        let* c := dt_compare_dsp P d i cnt in
        if c then
          let* q := dt_get_quo P d i in
          if quo =? q then Ret (inr (false, child_id, t)) else Ret (inl next)
        else Ret (inl next)) (mod_, 0).

  (** compact_fkhash_trie.hpp:130-132 *)
  Definition cf_needs_to_expand (t : cf_trie) : bool := cf_max t <=? cf_size t.
End cf.
End hash.
