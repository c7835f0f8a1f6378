(** Model of include/poplar/compact_bonsai_trie.hpp. *)
From Verif.Model Require Export DspTable.
Local Open Scope N_scope.

Section hash.
Context {H : trie_hashers}.
(** compact_bonsai_trie.hpp:332-339 (fields; statistics are left out) *)
Record cb_trie := mkCB { cb_dt : dsp_table; cb_size : N; cb_max : N }.

(** compact_bonsai_trie.hpp:57 *)
Definition cb_default : cb_trie := mkCB dt_default 0 0.

Section cb.
  (** Template parameters: MaxFactor and the ones of the slots (compact_bonsai_trie.hpp:35-36). *)
  Context (P : dsp_params) (mf : N).

  (** compact_bonsai_trie.hpp:59-69 *)
  Definition cb_new (capa_bits symb_bits cht_capa_bits : N) : outcome cb_trie :=
    let* dt := dt_new P capa_bits symb_bits cht_capa_bits in
    Ret (mkCB dt 0 (max_size_of (p2_size (dt_capa dt)) mf)).
  (** compact_bonsai_trie.hpp:72-75 *)
  Definition cb_get_root (t : cb_trie) : outcome N :=
    let* _ := assert_ (negb (cb_size t =? 0)) in Ret 0.
  (** compact_bonsai_trie.hpp:77-80 *)
  Definition cb_add_root (t : cb_trie) : outcome cb_trie :=
    let* _ := assert_ (cb_size t =? 0) in Ret (mkCB (cb_dt t) 1 (cb_max t)).

  (** compact_bonsai_trie.hpp:82-107 *)
  Definition cb_find_child (t : cb_trie) (node_id symb : N) : outcome N :=
    let d := cb_dt t in
    let* _ := assert_ (node_id <? p2_size (dt_capa d)) in
    let* _ := assert_ (symb <? p2_size (dt_symb d)) in
    if cb_size t =? 0 then Ret nil_id
    else
      let* x := hasher_hash (dt_hasher d) (make_key (dt_symb d) node_id symb) in
      let '(quo, mod_) := dt_decompose d x in
      loop (fun st : N * N =>
        let '(i, cnt) := st in
        let next := (right_of (dt_capa d) i, add64 cnt 1) in
        let* root := cb_get_root t in
        if i =? root then Ret (inl next)
        else
          let* e := dt_compare_dsp P d i 0 in
          if e then Ret (inr nil_id)
          else
            let* c := dt_compare_dsp P d i cnt in
            if c then
              let* q := dt_get_quo P d i in
              if quo =? q then Ret (inr i) else Ret (inl next)
            else Ret (inl next)) (mod_, 1).

  (** compact_bonsai_trie.hpp:109-140; returns (result, node_id after the call, trie) *)
  Definition cb_add_child (t : cb_trie) (node_id symb : N) : outcome (bool * N * cb_trie) :=
    let d := cb_dt t in
    let* _ := assert_ (node_id <? p2_size (dt_capa d)) in
    let* _ := assert_ (symb <? p2_size (dt_symb d)) in
    let* x := hasher_hash (dt_hasher d) (make_key (dt_symb d) node_id symb) in
    let '(quo, mod_) := dt_decompose d x in
    loop (fun st : N * N =>
      let '(i, cnt) := st in
      let next := (right_of (dt_capa d) i, add64 cnt 1) in
      let* root := cb_get_root t in
      if i =? root then Ret (inl next)
      else
        let* e := dt_compare_dsp P d i 0 in
        if e then
          if cb_size t =? cb_max t then Ret (inr (false, node_id, t))
          else
            let* d' := dt_update_slot P d i quo cnt in
            Ret (inr (true, i, mkCB d' (add64 (cb_size t) 1) (cb_max t)))
        else
          let* c := dt_compare_dsp P d i cnt in
          if c then
            let* q := dt_get_quo P d i in
            if quo =? q then Ret (inr (false, i, t)) else Ret (inl next)
          else Ret (inl next)) (mod_, 1).

  (** compact_bonsai_trie.hpp:142-156, on the slot members (the function does not use size_) *)
  Definition cb_gp (d : dsp_table) (node_id : N) : outcome (N * N) :=
    let* _ := assert_ (node_id <? p2_size (dt_capa d)) in
    let* e := dt_compare_dsp P d node_id 0 in
    if e then Ret (nil_id, 0)
    else
      let* dsp := dt_get_dsp P d node_id in
      let dist := sub64 dsp 1 in
      let init_id := dt_init_id d node_id dist in
      let* q := dt_get_quo P d node_id in
      let* key := hasher_hash_inv (dt_hasher d) (N.lor (shl q (p2_bits (dt_capa d))) init_id) in
      Ret (shr key (p2_bits (dt_symb d)), N.land key (p2_mask (dt_symb d))).
  Definition cb_get_parent_and_symb (t : cb_trie) (node_id : N) : outcome (N * N) := cb_gp (cb_dt t) node_id.

  (** compact_bonsai_trie.hpp:194-196 *)
  Definition cb_needs_to_expand (t : cb_trie) : bool := cb_max t <=? cb_size t.

  (** compact_bonsai_trie.hpp:158-192 class node_map: (map_high_, map_low_, done_flags_) *)
  Record cb_node_map := mkCNM { cnm_high : compact_vector; cnm_low : compact_vector; cnm_done : bit_vector }.
  (** compact_bonsai_trie.hpp:167-176 *)
  Definition cnm_get (m : cb_node_map) (i : N) : outcome N :=
    let* d := bv_get (cnm_done m) i in
    if negb d then Ret UINT64_MAX
    else if cv_size (cnm_high m) =? 0 then cv_get (cnm_low m) i
    else
      let* l := cv_get (cnm_low m) i in
      let* h := cv_get (cnm_high m) i in
      Ret (N.lor l (shl h (cv_width (cnm_low m)))).
  (** compact_bonsai_trie.hpp:178-180 *)
  Definition cnm_size (m : cb_node_map) : N := cv_size (cnm_low m).

  (** compact_bonsai_trie.hpp:220-226, :228-235: the lambdas [get_mapping] and [set_mapping]; the state is
      (table_, map_high) *)
  Definition cb_get_mapping (low : size_p2) (st : compact_vector * compact_vector) (i : N) : outcome N :=
    let '(table, high) := st in
    if cv_size high =? 0 then cv_get table i
    else
      let* l := cv_get table i in
      let* h := cv_get high i in
      Ret (N.lor l (shl h (p2_bits low))).
  Definition cb_set_mapping (low : size_p2) (st : compact_vector * compact_vector) (i v : N)
    : outcome (compact_vector * compact_vector) :=
    let '(table, high) := st in
    if cv_size high =? 0 then let* table := cv_set table i v in Ret (table, high)
    else
      let* table := cv_set table i (N.land v (p2_mask low)) in
      let* high := cv_set high i (shr v (p2_bits low)) in
      Ret (table, high).

  (** compact_bonsai_trie.hpp:198-267 *)
  Definition cb_expand (t : cb_trie) : outcome (cb_node_map * cb_trie) :=
    let d := cb_dt t in
    let* new_ht := cb_new (p2_bits (dt_capa d) + 1) (p2_bits (dt_symb d)) 0 in
    let* new_ht := cb_add_root new_ht in
    let done := bv_new (p2_size (dt_capa d)) in
    let* root := cb_get_root t in
    let* done := bv_set done root true in
    let* low := p2_new (cv_width (dt_table d)) in
    let new_bits := p2_bits (dt_capa (cb_dt new_ht)) in
    let* high := (if p2_bits low <? new_bits then cv_new (p2_size (dt_capa d)) (new_bits - p2_bits low)
                  else Ret cv_default) in
    let* st :=
      bonsai_remap 1 (cv_size (dt_table d))
        (fun st i => dt_compare_dsp P (dt_with_table d (fst st)) i 0)
        (fun st i => cb_gp (dt_with_table d (fst st)) i)
        (cb_get_mapping low) (cb_set_mapping low) cb_add_child ((dt_table d, high), done, new_ht) in
    let '((table, high), done, new_ht) := st in
    Ret (mkCNM high table done, new_ht).
End cb.
End hash.
