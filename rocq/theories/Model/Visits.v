(** find and update with ghost counters: how many labels they compare and how many children they look up or add.
    The counters are not in the source; apart from them the definitions repeat those of Map.v line by line
    (C55_find_same and C55_update_same: forgetting the counters gives map_find and map_update). *)
From Verif.Model Require Export Instances.
Local Open Scope N_scope.

(** Calls of label_store_.compare; of hash_trie_.find_child or add_child with the symbol of a byte of the key; of the
    same with step_symb. *)
Record visits := mkVisits { v_labels : N; v_edges : N; v_steps : N }.

Section visits.
  Context (dbg : bool) (TO : trie_ops) (NO : nlm_ops).

  (** map.hpp:93-99 *)
  Definition find_steps_v (lambda : N) (t : tT TO) (node_id mtch : N) : outcome (option (N * N) * N) :=
    loop (fun st : N * N * N =>
      let '(node_id, mtch, s) := st in
      if lambda <=? mtch then
        let* node_id := t_find_child TO t node_id step_symb in
        if node_id =? nil_id then Ret (inr (None, s + 1))
        else Ret (inl (node_id, sub64 mtch lambda, s + 1))
      else Ret (inr (Some (node_id, mtch), s))) (node_id, mtch, 0).

  (** map.hpp:84-113: the loop of find, one iteration *)
  Definition find_body_v (m : map_st TO NO) (st : N * list N * visits) : outcome (N * list N * visits + option ptr * visits) :=
    let '(node_id, key, v) := st in
    let v := mkVisits (v_labels v + 1) (v_edges v) (v_steps v) in
    match key with
    | [] => let* r := n_compare NO (m_nlm _ _ m) node_id key in Ret (inr (fst r, v))
    | _ =>
        let* r := n_compare NO (m_nlm _ _ m) node_id key in
        let '(vptr, mtch) := r in
        match vptr with
        | Some p => Ret (inr (Some p, v))
        | None =>
            let key := advance key mtch in
            let* s := find_steps_v (m_lambda _ _ m) (m_trie _ _ m) node_id mtch in
            let v := mkVisits (v_labels v) (v_edges v) (v_steps v + snd s) in
            match fst s with
            | None => Ret (inr (None, v))
            | Some (node_id, mtch) =>
                let* c := deref key in
                let* code := vget (m_codes _ _ m) c in
                if code =? 255 then Ret (inr (None, v))
                else
                  let* symb := make_symb dbg (m_codes _ _ m) c mtch in
                  let* node_id := t_find_child TO (m_trie _ _ m) node_id symb in
                  let v := mkVisits (v_labels v) (v_edges v + 1) (v_steps v) in
                  if node_id =? nil_id then Ret (inr (None, v))
                  else Ret (inl (node_id, advance key 1, v))
            end
        end
    end.
  (** map.hpp:75-115 *)
  Definition map_find_v (m : map_st TO NO) (key : list N) : outcome (option ptr * visits) :=
    let* _ := check_key key in
    if negb (m_ready _ _ m) || (t_size TO (m_trie _ _ m) =? 0) then Ret (None, mkVisits 0 0 0)
    else
      let* root := t_get_root TO (m_trie _ _ m) in
      loop (find_body_v m) (root, key, mkVisits 0 0 0).

  (** map.hpp:154-167 *)
  Definition update_steps_v (lambda : N) (t : tT TO) (n : nT NO) (node_id mtch : N)
    : outcome (N * N * tT TO * nT NO * N) :=
    loop (fun st : N * N * tT TO * nT NO * N =>
      let '(node_id, mtch, t, n, s) := st in
      if lambda <=? mtch then
        let* r := add_step TO NO node_id t n in
        let '(node_id, t, n) := r in
        Ret (inl (node_id, sub64 mtch lambda, t, n, s + 1))
      else Ret (inr (node_id, mtch, t, n, s))) (node_id, mtch, t, n, 0).

  (** map.hpp:146-193 *)
  Definition update_body_v (st : map_st TO NO * N * list N * visits)
    : outcome (map_st TO NO * N * list N * visits + (update_result * map_st TO NO * visits)) :=
    let '(m, node_id, key, v) := st in
    let v := mkVisits (v_labels v + 1) (v_edges v) (v_steps v) in
    match key with
    | [] =>
        let* r := n_compare NO (m_nlm _ _ m) node_id key in
        Ret (inr (UPtr (fst r), m, v))
    | _ =>
        let* r := n_compare NO (m_nlm _ _ m) node_id key in
        let '(vptr, mtch) := r in
        match vptr with
        | Some p => Ret (inr (UPtr (Some p), m, v))
        | None =>
            let key := advance key mtch in
            let* s := update_steps_v (m_lambda _ _ m) (m_trie _ _ m) (m_nlm _ _ m) node_id mtch in
            let '(node_id, mtch, t, n, s) := s in
            let v := mkVisits (v_labels v) (v_edges v) (v_steps v + s) in
            let* c := deref key in
            let* code := vget (m_codes _ _ m) c in
            let* cs :=
              (if code =? 255 then
                 let* codes := vset (m_codes _ _ m) c (m_num_codes _ _ m mod 256) in
                 Ret (codes, m_num_codes _ _ m + 1, m_num_codes _ _ m + 1 =? 255)
               else Ret (m_codes _ _ m, m_num_codes _ _ m, false)) in
            let '(codes, num_codes, throws) := cs in
            if throws then
              Ret (inr (UThrow ExCodes,
                        mkMap TO NO (m_ready _ _ m) (m_lambda _ _ m) t n codes num_codes (m_size _ _ m), v))
            else
              let* symb := make_symb dbg codes c mtch in
              let* r := add_leaf TO NO node_id symb (advance key 1) t n in
              let v := mkVisits (v_labels v) (v_edges v + 1) (v_steps v) in
              let '(p, node_id, t, n) := r in
              match p with
              | Some p =>
                  Ret (inr (UPtr (Some p),
                            mkMap TO NO (m_ready _ _ m) (m_lambda _ _ m) t n codes num_codes (add64 (m_size _ _ m) 1), v))
              | None =>
                  Ret (inl (mkMap TO NO (m_ready _ _ m) (m_lambda _ _ m) t n codes num_codes (m_size _ _ m),
                            node_id, advance key 1, v))
              end
        end
    end.
  (** map.hpp:121-195 *)
  Definition map_update_v (m : map_st TO NO) (key : list N) : outcome (update_result * map_st TO NO * visits) :=
    let* _ := check_key key in
    if t_size TO (m_trie _ _ m) =? 0 then
      let* m := (if negb (m_ready _ _ m) then map_new TO NO 0 32 else Ret m) in
      let* r := add_first TO NO key (m_trie _ _ m) (m_nlm _ _ m) in
      let '(p, t, n) := r in
      Ret (UPtr (Some p),
           mkMap TO NO (m_ready _ _ m) (m_lambda _ _ m) t n (m_codes _ _ m) (m_num_codes _ _ m) (add64 (m_size _ _ m) 1),
           mkVisits 0 0 0)
    else
      let* root := t_get_root TO (m_trie _ _ m) in
      loop update_body_v (m, root, key, mkVisits 0 0 0).
End visits.

(** Any instantiation *)
Definition i_find_v (dbg : bool) (vs : nat) (i : inst) : i_map dbg vs i -> list N -> outcome (option ptr * visits) :=
  map_find_v dbg (i_trie dbg i) (i_nlm vs i).
Definition i_update_v (dbg : bool) (vs : nat) (i : inst) (m : i_map dbg vs i) (k : list N)
  : outcome (update_result * i_map dbg vs i * visits) :=
  map_update_v dbg (i_trie dbg i) (i_nlm vs i) m k.
