(** Model of include/poplar/map.hpp over the operations of its template parameters. *)
From Verif.Model Require Export Heap BitTools BonsaiRemap.
Local Open Scope N_scope.

Section map.
  (** [dbg]: whether the assertion of map.hpp:259 is active. *)
  Context (dbg : bool) (TO : trie_ops) (NO : nlm_ops).

  (** map.hpp:242-250 *)
  Record map_st := mkMap {
    m_ready : bool; m_lambda : N; m_trie : tT TO; m_nlm : nT NO;
    m_codes : vec N; m_num_codes : N; m_size : N }.

  (** map.hpp:240 *)
  Definition step_symb : N := 255.
  (** map.hpp:52 with the default member initialisers :242-250 *)
  Definition map_default : map_st :=
    mkMap false 32 (t_default TO) (n_default NO) (vnew 256 0) 0 0.
  (** map.hpp:56-65 *)
  Definition map_new (capa_bits lambda : N) : outcome map_st :=
    let* _ := throw_if (negb (is_power2 lambda)) ExLambda in
    let* cl := ceil_log2 lambda in
    let* trie := t_new TO capa_bits (8 + cl) in
    let* nlm := n_new NO (p2_bits (t_capa TO trie)) in
    let codes := vnew 256 255 in
    let* codes := vset codes 0 0 in
    Ret (mkMap true lambda trie nlm codes 1 0).

  (** map.hpp:258-261 *)
  Definition make_symb (codes : vec N) (c mtch : N) : outcome N :=
    let* code := vget codes c in
    let* _ := assert_dbg dbg (negb (code =? 255)) in
    Ret (N.lor code (shl mtch 8)).

  (** [*key.begin] *)
  Definition deref (key : list N) : outcome N :=
    match key with c :: _ => Ret c | [] => UB end.
  (** [key.begin += n] *)
  Definition advance (key : list N) (n : N) : list N := skipn (N.to_nat n) key.
  (** map.hpp:76-77, :122-123 *)
  Definition check_key (key : list N) : outcome unit :=
    let* _ := throw_if (match key with [] => true | _ => false end) ExEmptyKey in
    throw_if (negb (List.last key 0 =? 0)) ExNotTerminated.

  (** map.hpp:93-99: [inr None] is the early [return nullptr]. *)
  Definition find_steps (lambda : N) (t : tT TO) (node_id mtch : N) : outcome (option (N * N)) :=
    loop (fun st : N * N =>
      let '(node_id, mtch) := st in
      if lambda <=? mtch then
        let* node_id := t_find_child TO t node_id step_symb in
        if node_id =? nil_id then Ret (inr None)
        else Ret (inl (node_id, sub64 mtch lambda))
      else Ret (inr (Some (node_id, mtch)))) (node_id, mtch).

  (** map.hpp:75-115 *)
  Definition map_find (m : map_st) (key : list N) : outcome (option ptr) :=
    let* _ := check_key key in
    if negb (m_ready m) || (t_size TO (m_trie m) =? 0) then Ret None
    else
      let* root := t_get_root TO (m_trie m) in
      loop (fun st : N * list N =>
        let '(node_id, key) := st in
        match key with
        | [] =>
            let* r := n_compare NO (m_nlm m) node_id key in Ret (inr (fst r))
        | _ =>
            let* r := n_compare NO (m_nlm m) node_id key in
            let '(vptr, mtch) := r in
            match vptr with
            | Some p => Ret (inr (Some p))
            | None =>
                let key := advance key mtch in
                let* s := find_steps (m_lambda m) (m_trie m) node_id mtch in
                match s with
                | None => Ret (inr None)
                | Some (node_id, mtch) =>
                    let* c := deref key in
                    let* code := vget (m_codes m) c in
                    if code =? 255 then Ret (inr None)
                    else
                      let* symb := make_symb (m_codes m) c mtch in
                      let* node_id := t_find_child TO (m_trie m) node_id symb in
                      if node_id =? nil_id then Ret (inr None)
                      else Ret (inl (node_id, advance key 1))
                end
            end
        end) (root, key).

  (** map.hpp:263-272; returns (node_id, trie, label store) *)
  Definition expand_if_needed (node_id : N) (t : tT TO) (n : nT NO) : outcome (N * tT TO * nT NO) :=
    match t_kind TO with
    | Bonsai =>
        if negb (t_needs_to_expand TO t) then Ret (node_id, t, n)
        else
          let* r := t_expand TO t in
          let '(nm, t) := r in
          let* node_id := nm_get nm node_id in
          let* n := n_expand NO n nm in
          Ret (node_id, t, n)
    | Fkhash => Ret (node_id, t, n)
    end.

  (** map.hpp:155-165: one iteration of the step loop; returns (node_id, trie, label store) *)
  Definition add_step (node_id : N) (t : tT TO) (n : nT NO) : outcome (N * tT TO * nT NO) :=
    let* r := t_add_child TO t node_id step_symb in
    let '(added, node_id, t) := r in
    if added then
      let* r := expand_if_needed node_id t n in
      let '(node_id, t, n) := r in
      match t_kind TO with
      | Fkhash =>
          let* _ := assert_ (node_id =? n_size NO n) in
          let* n := n_append_dummy NO n in
          Ret (node_id, t, n)
      | Bonsai => Ret (node_id, t, n)
      end
    else Ret (node_id, t, n).

  (** map.hpp:154-167 *)
  Definition update_steps (lambda : N) (t : tT TO) (n : nT NO) (node_id mtch : N)
    : outcome (N * N * tT TO * nT NO) :=
    loop (fun st : N * N * tT TO * nT NO =>
      let '(node_id, mtch, t, n) := st in
      if lambda <=? mtch then
        let* r := add_step node_id t n in
        let '(node_id, t, n) := r in
        Ret (inl (node_id, sub64 mtch lambda, t, n))
      else Ret (inr (node_id, mtch, t, n))) (node_id, mtch, t, n).

  (** map.hpp:174-187: adding the branching edge; [None] when the child exists already.
      [key] is the rest of the key after the branching byte. *)
  Definition add_leaf (node_id symb : N) (key : list N) (t : tT TO) (n : nT NO)
    : outcome (option ptr * N * tT TO * nT NO) :=
    let* r := t_add_child TO t node_id symb in
    let '(added, node_id, t) := r in
    if added then
      let* r := expand_if_needed node_id t n in
      let '(node_id, t, n) := r in
      match t_kind TO with
      | Fkhash =>
          let* _ := assert_ (node_id =? n_size NO n) in
          let* r := n_append NO n key in
          let '(p, n) := r in Ret (Some p, node_id, t, n)
      | Bonsai =>
          let* r := n_insert NO n node_id key in
          let '(p, n) := r in Ret (Some p, node_id, t, n)
      end
    else Ret (None, node_id, t, n).

  (** map.hpp:131-141: the first insertion *)
  Definition add_first (key : list N) (t : tT TO) (n : nT NO) : outcome (ptr * tT TO * nT NO) :=
    let* t := t_add_root TO t in
    match t_kind TO with
    | Fkhash =>
        let* r := n_append NO n key in
        let '(p, n) := r in Ret (p, t, n)
    | Bonsai =>
        let* root := t_get_root TO t in
        let* r := n_insert NO n root key in
        let '(p, n) := r in Ret (p, t, n)
    end.

  (** Result of update: a pointer, or the exception of map.hpp:171, which leaves a changed map. *)
  Inductive update_result := UPtr (p : option ptr) | UThrow (e : exn).

  (** map.hpp:146-193: the loop of update, one iteration ([inl]: to be continued), and what follows it. *)
  Definition update_body (st : map_st * N * list N) : outcome (map_st * N * list N + update_result * map_st) :=
        let '(m, node_id, key) := st in
        match key with
        | [] =>
            let* r := n_compare NO (m_nlm m) node_id key in
            Ret (inr (UPtr (fst r), m))
        | _ =>
            let* r := n_compare NO (m_nlm m) node_id key in
            let '(vptr, mtch) := r in
            match vptr with
            | Some p => Ret (inr (UPtr (Some p), m))
            | None =>
                let key := advance key mtch in
                let* s := update_steps (m_lambda m) (m_trie m) (m_nlm m) node_id mtch in
                let '(node_id, mtch, t, n) := s in
                let* c := deref key in
                let* code := vget (m_codes m) c in
                let* cs :=
                  (if code =? 255 then
                     let* codes := vset (m_codes m) c (m_num_codes m mod 256) in
                     Ret (codes, m_num_codes m + 1, m_num_codes m + 1 =? 255)
                   else Ret (m_codes m, m_num_codes m, false)) in
                let '(codes, num_codes, throws) := cs in
                if throws then
                  Ret (inr (UThrow ExCodes,
                            mkMap (m_ready m) (m_lambda m) t n codes num_codes (m_size m)))
                else
                  let* symb := make_symb codes c mtch in
                  let* r := add_leaf node_id symb (advance key 1) t n in
                  let '(p, node_id, t, n) := r in
                  match p with
                  | Some p =>
                      Ret (inr (UPtr (Some p),
                                mkMap (m_ready m) (m_lambda m) t n codes num_codes (add64 (m_size m) 1)))
                  | None =>
                      Ret (inl (mkMap (m_ready m) (m_lambda m) t n codes num_codes (m_size m),
                                node_id, advance key 1))
                  end
            end
        end.
  (** map.hpp:121-195.  A [Throw] outcome leaves the map as it was. *)
  Definition map_update (m : map_st) (key : list N) : outcome (update_result * map_st) :=
    let* _ := check_key key in
    if t_size TO (m_trie m) =? 0 then
      let* m := (if negb (m_ready m) then map_new 0 32 else Ret m) in
      let* r := add_first key (m_trie m) (m_nlm m) in
      let '(p, t, n) := r in
      Ret (UPtr (Some p),
           mkMap (m_ready m) (m_lambda m) t n (m_codes m) (m_num_codes m) (add64 (m_size m) 1))
    else
      let* root := t_get_root TO (m_trie m) in
      loop update_body (m, root, key).

  (** map.hpp:202-204 *)
  Definition map_capa_size (m : map_st) : N := p2_size (t_capa TO (m_trie m)).
End map.
