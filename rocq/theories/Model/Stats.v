(** The build with POPLAR_EXTRA_STATS: the counters num_resize_ of the tries, max_length_ and sum_length_ of the label
    stores and num_steps_ of the map.  (Histogram.v adds num_dsps_ of the compact tries.) *)
From Verif.Model Require Export Instances.
Local Open Scope N_scope.

(** ** num_resize_
    A trie with the member num_resize_: plain_bonsai_trie.hpp:280-282, compact_bonsai_trie.hpp:340-341,
    plain_fkhash_trie.hpp:184-186, compact_fkhash_trie.hpp:207-208.  It is 0 in a new trie; the expansion gives the new
    table the old counter plus one (plain_bonsai_trie.hpp:182-184, compact_bonsai_trie.hpp:203-205,
    plain_fkhash_trie.hpp:200-202, compact_fkhash_trie.hpp:295-297).  [full]: whether add_child expands the table first
    (plain_fkhash_trie.hpp:99-101, compact_fkhash_trie.hpp:107-109; never for the Bonsai tries). *)
Definition resize_ops (TO : trie_ops) (full : tT TO -> bool) : trie_ops := {|
  tT := tT TO * N;
  t_kind := t_kind TO;
  t_default := (t_default TO, 0);
  t_new := fun cb sb => let* t := t_new TO cb sb in Ret (t, 0);
  t_size := fun t => t_size TO (fst t);
  t_capa := fun t => t_capa TO (fst t);
  t_get_root := fun t => t_get_root TO (fst t);
  t_add_root := fun t => let* t' := t_add_root TO (fst t) in Ret (t', snd t);
  t_find_child := fun t => t_find_child TO (fst t);
  t_add_child := fun t node_id symb =>
    let* r := t_add_child TO (fst t) node_id symb in
    let '(added, node_id, t') := r in
    Ret (added, node_id, (t', if full (fst t) then add64 (snd t) 1 else snd t));
  t_needs_to_expand := fun t => t_needs_to_expand TO (fst t);
  t_expand := fun t =>
    let* r := t_expand TO (fst t) in
    let '(nm, t') := r in Ret (nm, (t', add64 (snd t) 1)) |}.
Definition i_full (dbg : bool) (i : inst) : tT (i_trie dbg i) -> bool :=
  match i_t i as x return tT (match x with
      | T_plain_bonsai H mf => pb_ops mf | T_compact_bonsai H P mf => cb_ops P mf
      | T_plain_fkhash H mf => pf_ops dbg mf | T_compact_fkhash H P mf => cf_ops P mf end) -> bool with
  | T_plain_bonsai _ _ | T_compact_bonsai _ _ _ => fun _ => false
  | T_plain_fkhash _ _ => fun t => pf_max t <=? pf_size t
  | T_compact_fkhash _ _ _ => fun t => cf_max t <=? cf_size t
  end.

(** ** max_length_ and sum_length_
    A label store with these members: plain_bonsai_nlm.hpp:137-140, compact_bonsai_nlm.hpp:217-220, plain_fkhash_nlm.hpp:122-125,
    compact_fkhash_nlm.hpp:165-168.  They are 0 in a new store and take in the length of every label that is inserted
    (plain_bonsai_nlm.hpp:80-83, compact_bonsai_nlm.hpp:94-97) or appended (plain_fkhash_nlm.hpp:77-80,
    compact_fkhash_nlm.hpp:101-104); dummies are not counted; expansion keeps them (plain_bonsai_nlm.hpp:92-100 does not
    touch them, compact_bonsai_nlm.hpp:170-173 copies them). *)
Definition count_length (c : N * N) (key : list N) : N * N :=
  (N.max (fst c) (N.of_nat (length key)), add64 (snd c) (N.of_nat (length key))).
Definition length_ops (NO : nlm_ops) : nlm_ops := {|
  nT := nT NO * (N * N);
  n_vs := n_vs NO;
  n_default := (n_default NO, (0, 0));
  n_new := fun b => let* n := n_new NO b in Ret (n, (0, 0));
  n_heap := fun n => n_heap NO (fst n);
  n_set_heap := fun n h => (n_set_heap NO (fst n) h, snd n);
  n_compare := fun n => n_compare NO (fst n);
  n_insert := fun n pos key =>
    let* r := n_insert NO (fst n) pos key in
    let '(p, n') := r in Ret (p, (n', count_length (snd n) key));
  n_expand := fun n nm => let* n' := n_expand NO (fst n) nm in Ret (n', snd n);
  n_append := fun n key =>
    let* r := n_append NO (fst n) key in
    let '(p, n') := r in Ret (p, (n', count_length (snd n) key));
  n_append_dummy := fun n => let* n' := n_append_dummy NO (fst n) in Ret (n', snd n);
  n_size := fun n => n_size NO (fst n) |}.

(** ** num_steps_ *)
Section stats.
  Context (dbg : bool) (TS : trie_ops) (NO : nlm_ops).

  (** map.hpp:242-256: the map with the member num_steps_. *)
  Record stats_map := mkStats { sm_map : map_st TS NO; sm_steps : N }.

  (** map.hpp:52, :254-256 *)
  Definition stats_default : stats_map := mkStats (map_default TS NO) 0.
  (** map.hpp:56-65, :254-256 *)
  Definition stats_new (capa_bits lambda : N) : outcome stats_map :=
    let* m := map_new TS NO capa_bits lambda in Ret (mkStats m 0).

  (** map.hpp:155-165 with :157-159; returns (node_id, trie, label store, num_steps_) *)
  Definition stats_add_step (node_id : N) (t : tT TS) (n : nT NO) (steps : N) : outcome (N * tT TS * nT NO * N) :=
    let* r := t_add_child TS t node_id step_symb in
    let '(added, node_id, t) := r in
    if added then
      let* r := expand_if_needed TS NO node_id t n in
      let '(node_id, t, n) := r in
      let steps := add64 steps 1 in
      match t_kind TS with
      | Fkhash =>
          let* _ := assert_ (node_id =? n_size NO n) in
          let* n := n_append_dummy NO n in
          Ret (node_id, t, n, steps)
      | Bonsai => Ret (node_id, t, n, steps)
      end
    else Ret (node_id, t, n, steps).

  (** map.hpp:154-167 *)
  Definition stats_update_steps (lambda : N) (t : tT TS) (n : nT NO) (node_id mtch steps : N)
    : outcome (N * N * tT TS * nT NO * N) :=
    loop (fun st : N * N * tT TS * nT NO * N =>
      let '(node_id, mtch, t, n, steps) := st in
      if lambda <=? mtch then
        let* r := stats_add_step node_id t n steps in
        let '(node_id, t, n, steps) := r in
        Ret (inl (node_id, sub64 mtch lambda, t, n, steps))
      else Ret (inr (node_id, mtch, t, n, steps))) (node_id, mtch, t, n, steps).

  (** map.hpp:146-193 *)
  Definition stats_update_body (st : map_st TS NO * N * N * list N)
    : outcome (map_st TS NO * N * N * list N + update_result * stats_map) :=
    let '(m, steps, node_id, key) := st in
    match key with
    | [] =>
        let* r := n_compare NO (m_nlm _ _ m) node_id key in
        Ret (inr (UPtr (fst r), mkStats m steps))
    | _ =>
        let* r := n_compare NO (m_nlm _ _ m) node_id key in
        let '(vptr, mtch) := r in
        match vptr with
        | Some p => Ret (inr (UPtr (Some p), mkStats m steps))
        | None =>
            let key := advance key mtch in
            let* s := stats_update_steps (m_lambda _ _ m) (m_trie _ _ m) (m_nlm _ _ m) node_id mtch steps in
            let '(node_id, mtch, t, n, steps) := s in
            let* c := deref key in
            let* code := vget (m_codes _ _ m) c in
            let* cs :=
              (if code =? 255 then
                 let* codes := vset (m_codes _ _ m) c (m_num_codes _ _ m mod 256) in
                 Ret (codes, m_num_codes _ _ m + 1, m_num_codes _ _ m + 1 =? 255)
               else Ret (m_codes _ _ m, m_num_codes _ _ m, false)) in
            let '(codes, num_codes, throws) := cs in
            if throws then
              Ret (inr (UThrow ExCodes,
                        mkStats (mkMap TS NO (m_ready _ _ m) (m_lambda _ _ m) t n codes num_codes (m_size _ _ m)) steps))
            else
              let* symb := make_symb dbg codes c mtch in
              let* r := add_leaf TS NO node_id symb (advance key 1) t n in
              let '(p, node_id, t, n) := r in
              match p with
              | Some p =>
                  Ret (inr (UPtr (Some p),
                            mkStats (mkMap TS NO (m_ready _ _ m) (m_lambda _ _ m) t n codes num_codes (add64 (m_size _ _ m) 1)) steps))
              | None =>
                  Ret (inl (mkMap TS NO (m_ready _ _ m) (m_lambda _ _ m) t n codes num_codes (m_size _ _ m), steps,
                            node_id, advance key 1))
              end
        end
    end.
  (** map.hpp:121-195; [*this = this_type{0}] resets the counters too. *)
  Definition stats_update (s : stats_map) (key : list N) : outcome (update_result * stats_map) :=
    let* _ := check_key key in
    if t_size TS (m_trie _ _ (sm_map s)) =? 0 then
      let* s := (if negb (m_ready _ _ (sm_map s)) then stats_new 0 32 else Ret s) in
      let m := sm_map s in
      let* r := add_first TS NO key (m_trie _ _ m) (m_nlm _ _ m) in
      let '(p, t, n) := r in
      Ret (UPtr (Some p),
           mkStats (mkMap TS NO (m_ready _ _ m) (m_lambda _ _ m) t n (m_codes _ _ m) (m_num_codes _ _ m) (add64 (m_size _ _ m) 1))
             (sm_steps s))
    else
      let* root := t_get_root TS (m_trie _ _ (sm_map s)) in
      loop stats_update_body (sm_map s, sm_steps s, root, key).

  (** A history, as Api.v; find (map.hpp:75-115) counts nothing. *)
  Definition stats_step (s : stats_map) (o : op) : outcome ((obs * N) * stats_map) :=
    match o with
    | Update k w =>
        let* r := stats_update s k in
        match r with
        | (UPtr (Some p), s) =>
            let* v := map_read TS NO (sm_map s) p in
            let* m := match w with None => Ret (sm_map s) | Some w => map_write TS NO (sm_map s) p w end in
            Ret ((Saw v, m_size _ _ m), mkStats m (sm_steps s))
        | (UPtr None, _) => UB
        | (UThrow x, _) => Throw x
        end
    | Find k =>
        let* r := map_find dbg TS NO (sm_map s) k in
        match r with
        | Some p => let* v := map_read TS NO (sm_map s) p in Ret ((Found (Some v), m_size _ _ (sm_map s)), s)
        | None => Ret ((Found None, m_size _ _ (sm_map s)), s)
        end
    end.
  Fixpoint stats_run (s : stats_map) (ops : list op) : outcome (list (obs * N) * stats_map) :=
    match ops with
    | [] => Ret ([], s)
    | o :: ops =>
        let* r := stats_step s o in
        let '(x, s) := r in
        let* r := stats_run s ops in
        let '(xs, s) := r in Ret (x :: xs, s)
    end.
End stats.

(** ** Every instantiation *)
Definition s_trie (dbg : bool) (i : inst) : trie_ops := resize_ops (i_trie dbg i) (i_full dbg i).
Definition s_nlm (vs : nat) (i : inst) : nlm_ops := length_ops (i_nlm vs i).
Definition s_map (dbg : bool) (vs : nat) (i : inst) : Type := stats_map (s_trie dbg i) (s_nlm vs i).
Definition s_new (dbg : bool) (vs : nat) (i : inst) (capa_bits lambda : N) : outcome (s_map dbg vs i) :=
  stats_new (s_trie dbg i) (s_nlm vs i) capa_bits lambda.
Definition s_default (dbg : bool) (vs : nat) (i : inst) : s_map dbg vs i := stats_default (s_trie dbg i) (s_nlm vs i).
Definition s_run (dbg : bool) (vs : nat) (i : inst) (s : s_map dbg vs i) (ops : list op)
  : outcome (list (obs * N) * s_map dbg vs i) := stats_run dbg (s_trie dbg i) (s_nlm vs i) s ops.
(** map.hpp:198-204 *)
Definition s_size (dbg : bool) (vs : nat) (i : inst) (s : s_map dbg vs i) : N := m_size _ _ (sm_map _ _ s).
Definition s_capa_size (dbg : bool) (vs : nat) (i : inst) (s : s_map dbg vs i) : N := map_capa_size _ _ (sm_map _ _ s).
(** map.hpp:209-211: num_resize() *)
Definition s_num_resize (dbg : bool) (vs : nat) (i : inst) (s : s_map dbg vs i) : N := snd (m_trie _ _ (sm_map _ _ s)).
(** map.hpp:206-208: rate_steps() is this number divided by size() *)
Definition s_num_steps (dbg : bool) (vs : nat) (i : inst) (s : s_map dbg vs i) : N := sm_steps _ _ s.
(** The nodes of the trie: size() of the trie member (plain_bonsai_trie.hpp:227-229, compact_bonsai_trie.hpp:269-271, plain_fkhash_trie.hpp:127-129, compact_fkhash_trie.hpp:134-136) *)
Definition s_nodes (dbg : bool) (vs : nat) (i : inst) (s : s_map dbg vs i) : N := t_size _ (m_trie _ _ (sm_map _ _ s)).
(** show_stats of the label store prints max_length_ and sum_length_ divided by size()
    (plain_bonsai_nlm.hpp:121-124, compact_bonsai_nlm.hpp:198-201, plain_fkhash_nlm.hpp:107-110, compact_fkhash_nlm.hpp:146-149) *)
Definition s_max_length (dbg : bool) (vs : nat) (i : inst) (s : s_map dbg vs i) : N := fst (snd (m_nlm _ _ (sm_map _ _ s))).
Definition s_sum_length (dbg : bool) (vs : nat) (i : inst) (s : s_map dbg vs i) : N := snd (snd (m_nlm _ _ (sm_map _ _ s))).
