(** The build with POPLAR_EXTRA_STATS, completed by the histogram num_dsps_ of the compact tries: how many slots keep
    their displacement in the table itself, in the first and in the second auxiliary table.  The counters of Stats.v are
    here too, so this is the whole build. *)
From Verif.Model Require Export Stats.
Local Open Scope N_scope.

(** compact_bonsai_trie.hpp:342, compact_fkhash_trie.hpp:209: num_dsps_[3], zero in a new trie *)
Definition hist : Type := N * N * N.
Definition hist_zero : hist := (0, 0, 0).

(** A trie [TO] with the member num_dsps_; [add], [expand]: add_child and expand with the counting.  The other functions
    do not call update_slot_. *)
Definition hist_ops (TO : trie_ops) (add : tT TO * hist -> N -> N -> outcome (bool * N * (tT TO * hist)))
    (expand : tT TO * hist -> outcome (node_map * (tT TO * hist))) : trie_ops := {|
  tT := tT TO * hist;
  t_kind := t_kind TO;
  t_default := (t_default TO, hist_zero);
  t_new := fun cb sb => let* t := t_new TO cb sb in Ret (t, hist_zero);
  t_size := fun t => t_size TO (fst t);
  t_capa := fun t => t_capa TO (fst t);
  t_get_root := fun t => t_get_root TO (fst t);
  t_add_root := fun t => let* t' := t_add_root TO (fst t) in Ret (t', snd t);
  t_find_child := fun t => t_find_child TO (fst t);
  t_add_child := add;
  t_needs_to_expand := fun t => t_needs_to_expand TO (fst t);
  t_expand := expand |}.
(** The plain tries have no such member; [hist_zero] stands for its absence. *)
Definition no_hist_add (TO : trie_ops) (t : tT TO * hist) (node_id symb : N) : outcome (bool * N * (tT TO * hist)) :=
  let* r := t_add_child TO (fst t) node_id symb in
  let '(added, node_id, t') := r in Ret (added, node_id, (t', snd t)).
Definition no_hist_expand (TO : trie_ops) (t : tT TO * hist) : outcome (node_map * (tT TO * hist)) :=
  let* r := t_expand TO (fst t) in
  let '(nm, t') := r in Ret (nm, (t', snd t)).

Section hash.
Context {H : trie_hashers}.
Section compact.
  Context (P : dsp_params) (mf : N).

  (** compact_bonsai_trie.hpp:412-420, compact_fkhash_trie.hpp:279-287: the counting in update_slot_ *)
  Definition count_dsp (h : hist) (dsp : N) : hist :=
    let '(n0, n1, n2) := h in
    if dsp <? dsp1_mask P then (add64 n0 1, n1, n2)
    else if dsp <? add64 (dsp1_mask P) (dsp2_mask P) then (n0, add64 n1 1, n2)
    else (n0, n1, add64 n2 1).

  (** compact_bonsai_trie.hpp:109-140 with :412-420; as [cb_add_child] *)
  Definition cbh_add_child (th : cb_trie * hist) (node_id symb : N) : outcome (bool * N * (cb_trie * hist)) :=
    let '(t, h) := th in
    let d := cb_dt t in
    let* _ := assert_ (node_id <? p2_size (dt_capa d)) in
    let* _ := assert_ (symb <? p2_size (dt_symb d)) in
    let* x := hasher_hash (dt_hasher d) (make_key (dt_symb d) node_id symb) in
    let '(quo, mod_) := dt_decompose d x in
    loop (fun st : N * N =>
      let '(i, cnt) := st in
      let next := (right_of (dt_capa d) i, add64 cnt 1) in
      let* root := cb_get_root t in
      if i =? root then Ret (inl next)
      else
        let* e := dt_compare_dsp P d i 0 in
        if e then
          if cb_size t =? cb_max t then Ret (inr (false, node_id, (t, h)))
          else
            let* d' := dt_update_slot P d i quo cnt in
            Ret (inr (true, i, (mkCB d' (add64 (cb_size t) 1) (cb_max t), count_dsp h cnt)))
        else
          let* c := dt_compare_dsp P d i cnt in
          if c then
            let* q := dt_get_quo P d i in
            if quo =? q then Ret (inr (false, i, (t, h))) else Ret (inl next)
          else Ret (inl next)) (mod_, 1).

  (** compact_bonsai_trie.hpp:198-267; as [cb_expand].  The new table counts from zero; the swap (line 264) replaces the
      old counters. *)
  Definition cbh_expand (t : cb_trie) : outcome (cb_node_map * (cb_trie * hist)) :=
    let d := cb_dt t in
    let* new_ht := cb_new P mf (p2_bits (dt_capa d) + 1) (p2_bits (dt_symb d)) 0 in
    let* new_ht := cb_add_root new_ht in
    let done := bv_new (p2_size (dt_capa d)) in
    let* root := cb_get_root t in
    let* done := bv_set done root true in
    let* low := p2_new (cv_width (dt_table d)) in
    let new_bits := p2_bits (dt_capa (cb_dt new_ht)) in
    let* high := (if p2_bits low <? new_bits then cv_new (p2_size (dt_capa d)) (new_bits - p2_bits low)
                  else Ret cv_default) in
    let* st :=
      bonsai_remap 1 (cv_size (dt_table d))
        (fun st i => dt_compare_dsp P (dt_with_table d (fst st)) i 0)
        (fun st i => cb_gp P (dt_with_table d (fst st)) i)
        (cb_get_mapping low) (cb_set_mapping low) cbh_add_child ((dt_table d, high), done, (new_ht, hist_zero)) in
    let '((table, high), done, new_ht) := st in
    Ret (mkCNM high table done, new_ht).

  (** compact_fkhash_trie.hpp:293-324; as [cf_expand], the new table counts from zero *)
  Definition cfh_expand (t : cf_trie) : outcome (cf_trie * hist) :=
    let d := cf_dt t in
    let* new_ht := cf_new P mf (p2_bits (dt_capa d) + 1) (p2_bits (dt_symb d)) 0 in
    let* new_ht :=
      for_range 0 (p2_size (dt_capa d)) (fun i nh =>
        let '(new_ht, h) := nh in
        let* node_id := cv_get (cf_ids t) i in
        if node_id =? p2_mask (dt_capa d) then Ret (new_ht, h)
        else
          let* dist := dt_get_dsp P d i in
          let init_id := dt_init_id d i dist in
          let* q := dt_get_quo P d i in
          let* key := hasher_hash_inv (dt_hasher d) (N.lor (shl q (p2_bits (dt_capa d))) init_id) in
          let nd := cf_dt new_ht in
          let* x := hasher_hash (dt_hasher nd) key in
          let '(quo, mod_) := dt_decompose nd x in
          loop (fun st : N * N =>
            let '(new_i, cnt) := st in
            let* c := cv_get (cf_ids new_ht) new_i in
            if c =? p2_mask (dt_capa nd) then
              let* n := cf_update_slot P new_ht new_i quo cnt node_id in Ret (inr (n, count_dsp h cnt))
            else Ret (inl (right_of (dt_capa nd) new_i, add64 cnt 1))) (mod_, 0)) (new_ht, hist_zero) in
    let '(new_ht, h) := new_ht in
    Ret (mkCF (cf_dt new_ht) (cf_ids new_ht) (cf_size t) (cf_max new_ht), h).

  (** compact_fkhash_trie.hpp:103-128 with :279-287; as [cf_add_child] *)
  Definition cfh_add_child (th : cf_trie * hist) (node_id symb : N) : outcome (bool * N * (cf_trie * hist)) :=
    let* _ := assert_ (node_id <? p2_size (dt_capa (cf_dt (fst th)))) in
    let* _ := assert_ (symb <? p2_size (dt_symb (cf_dt (fst th)))) in
    let* th := (if cf_max (fst th) <=? cf_size (fst th) then cfh_expand (fst th) else Ret th) in
    let '(t, h) := th in
    let d := cf_dt t in
    let* x := hasher_hash (dt_hasher d) (make_key (dt_symb d) node_id symb) in
    let '(quo, mod_) := dt_decompose d x in
    loop (fun st : N * N =>
      let '(i, cnt) := st in
      let next := (right_of (dt_capa d) i, add64 cnt 1) in
      let* child_id := cv_get (cf_ids t) i in
      if child_id =? p2_mask (dt_capa d) then
        let* n := cf_update_slot P t i quo cnt (cf_size t) in
        Ret (inr (true, cf_size t, (mkCF (cf_dt n) (cf_ids n) (add64 (cf_size t) 1) (cf_max t), count_dsp h cnt)))
      else
        let* c := dt_compare_dsp P d i cnt in
        if c then
          let* q := dt_get_quo P d i in
          if quo =? q then Ret (inr (false, child_id, (t, h))) else Ret (inl next)
        else Ret (inl next)) (mod_, 0).

  (** The compact tries with the histogram (as [cb_ops] and [cf_ops], CompactAliases.v) *)
  Definition cbh_ops : trie_ops := hist_ops (cb_ops P mf) cbh_add_child
    (fun t => let* r := cbh_expand (fst t) in Ret (mkNM (cnm_size (fst r)) (cnm_get (fst r)), snd r)).
  Definition cfh_ops : trie_ops := hist_ops (cf_ops P mf) cfh_add_child (fun _ => UB).
End compact.
End hash.

(** ** Every instantiation *)
Definition h_add (dbg : bool) (i : inst) : tT (i_trie dbg i) * hist -> N -> N -> outcome (bool * N * (tT (i_trie dbg i) * hist)) :=
  match i_t i as x return let TO := match x with
      | T_plain_bonsai H mf => pb_ops mf | T_compact_bonsai H P mf => cb_ops P mf
      | T_plain_fkhash H mf => pf_ops dbg mf | T_compact_fkhash H P mf => cf_ops P mf end in
      tT TO * hist -> N -> N -> outcome (bool * N * (tT TO * hist)) with
  | T_plain_bonsai H mf => no_hist_add (pb_ops mf)
  | T_compact_bonsai H P mf => cbh_add_child P
  | T_plain_fkhash H mf => no_hist_add (pf_ops dbg mf)
  | T_compact_fkhash H P mf => cfh_add_child P mf
  end.
Definition h_expand (dbg : bool) (i : inst) : tT (i_trie dbg i) * hist -> outcome (node_map * (tT (i_trie dbg i) * hist)) :=
  match i_t i as x return let TO := match x with
      | T_plain_bonsai H mf => pb_ops mf | T_compact_bonsai H P mf => cb_ops P mf
      | T_plain_fkhash H mf => pf_ops dbg mf | T_compact_fkhash H P mf => cf_ops P mf end in
      tT TO * hist -> outcome (node_map * (tT TO * hist)) with
  | T_plain_bonsai H mf => no_hist_expand (pb_ops mf)
  | T_compact_bonsai H P mf => t_expand (cbh_ops P mf)
  | T_plain_fkhash H mf => no_hist_expand (pf_ops dbg mf)
  | T_compact_fkhash H P mf => t_expand (cfh_ops P mf)
  end.
(** The whole POPLAR_EXTRA_STATS build: num_resize_ (of the trie), num_dsps_, max_length_, sum_length_ and num_steps_. *)
Definition h_base (dbg : bool) (i : inst) : trie_ops := hist_ops (i_trie dbg i) (h_add dbg i) (h_expand dbg i).
Definition h_trie (dbg : bool) (i : inst) : trie_ops := resize_ops (h_base dbg i) (fun t => i_full dbg i (fst t)).
Definition h_map (dbg : bool) (vs : nat) (i : inst) : Type := stats_map (h_trie dbg i) (s_nlm vs i).
Definition h_new (dbg : bool) (vs : nat) (i : inst) (capa_bits lambda : N) : outcome (h_map dbg vs i) :=
  stats_new (h_trie dbg i) (s_nlm vs i) capa_bits lambda.
Definition h_default (dbg : bool) (vs : nat) (i : inst) : h_map dbg vs i := stats_default (h_trie dbg i) (s_nlm vs i).
Definition h_run (dbg : bool) (vs : nat) (i : inst) (s : h_map dbg vs i) (ops : list op)
  : outcome (list (obs * N) * h_map dbg vs i) := stats_run dbg (h_trie dbg i) (s_nlm vs i) s ops.
(** What the other accessors and show_stats read (Stats.v): the map without the histogram. *)
Definition h_rest (dbg : bool) (vs : nat) (i : inst) (s : h_map dbg vs i) : s_map dbg vs i :=
  let m := sm_map _ _ s in
  let t := m_trie _ _ m in
  mkStats (s_trie dbg i) (s_nlm vs i)
    (mkMap (s_trie dbg i) (s_nlm vs i) (m_ready _ _ m) (m_lambda _ _ m) (fst (fst t), snd t) (m_nlm _ _ m)
       (m_codes _ _ m) (m_num_codes _ _ m) (m_size _ _ m)) (sm_steps _ _ s).
(** compact_bonsai_trie.hpp:311-315, compact_fkhash_trie.hpp:177-181: the counters that show_stats divides by size() *)
Definition h_dsps (dbg : bool) (vs : nat) (i : inst) (s : h_map dbg vs i) : hist := snd (fst (m_trie _ _ (sm_map _ _ s))).
(** The sizes of aux_cht_ and aux_map_ of a compact trie, which show_stats prints too
    (compact_bonsai_trie.hpp:319-322, compact_fkhash_trie.hpp:185-188, compact_hash_table.hpp:238, standard_hash_table.hpp:111) *)
Definition aux_sizes (dbg : bool) (i : inst) : tT (i_trie dbg i) -> option (N * N) :=
  match i_t i as x return tT (match x with
      | T_plain_bonsai H mf => pb_ops mf | T_compact_bonsai H P mf => cb_ops P mf
      | T_plain_fkhash H mf => pf_ops dbg mf | T_compact_fkhash H P mf => cf_ops P mf end) -> option (N * N) with
  | T_plain_bonsai _ _ | T_plain_fkhash _ _ => fun _ => None
  | T_compact_bonsai _ _ _ => fun t => Some (ch_size (dt_cht (cb_dt t)), st_size (dt_map (cb_dt t)))
  | T_compact_fkhash _ _ _ => fun t => Some (ch_size (dt_cht (cf_dt t)), st_size (dt_map (cf_dt t)))
  end.
Definition h_aux_sizes (dbg : bool) (vs : nat) (i : inst) (s : h_map dbg vs i) : option (N * N) :=
  aux_sizes dbg i (fst (fst (m_trie _ _ (sm_map _ _ s)))).
