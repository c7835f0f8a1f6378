(** update when an allocation fails: operator new throws std::bad_alloc, update does not catch it, and the map
    is left as it is at that moment. *)
From Verif.Model Require Export Instances.
From Verif.Props Require Export OomSpec.
Local Open Scope N_scope.

(** ** What is left of the tries and label stores
    add_child of the tries: every allocation precedes every change of a member, except for the doubling of the
    FK tries, which replaces the whole table by one with the same nodes:
    - plain_bonsai_trie.hpp:89-119 allocates nothing;
    - plain_fkhash_trie.hpp:99-101: [expand_] (:198-224) fills a new table and then assigns it;
    - compact_bonsai_trie.hpp:127: [update_slot_] (:394-423) calls [set] of AuxCht (compact_hash_table.hpp:91-99: a new
      table, filled by clone, then assigned) or of AuxMap (standard_hash_table.hpp:69-75, :146-160: likewise), and
      only then writes the slot;
    - compact_fkhash_trie.hpp:107-109 and :118: both.
    [grow]: the part of add_child before the search, for the case that it succeeds and update_slot_ fails. *)
Definition i_grow (dbg : bool) (i : inst) : tT (i_trie dbg i) -> outcome (tT (i_trie dbg i)) :=
  match i_t i as x return tT (match x with
      | T_plain_bonsai H mf => pb_ops mf | T_compact_bonsai H P mf => cb_ops P mf
      | T_plain_fkhash H mf => pf_ops dbg mf | T_compact_fkhash H P mf => cf_ops P mf end) -> outcome (tT (match x with
      | T_plain_bonsai H mf => pb_ops mf | T_compact_bonsai H P mf => cb_ops P mf
      | T_plain_fkhash H mf => pf_ops dbg mf | T_compact_fkhash H P mf => cf_ops P mf end)) with
  | T_plain_bonsai _ _ | T_compact_bonsai _ _ _ => fun t => Ret t
  | T_plain_fkhash _ mf => fun t => if pf_max t <=? pf_size t then pf_expand dbg mf t else Ret t
  | T_compact_fkhash _ P mf => fun t => if cf_max t <=? cf_size t then cf_expand P mf t else Ret t
  end.

(** plain_bonsai_nlm.hpp:69-74: make_unique fails after [++size_]. *)
Definition pbn_fail (n : pbn) : outcome pbn := Ret (mkPBN (pbn_ptrs n) (add64 (pbn_size n) 1) (pbn_bytes n) (pbn_heap n)).
(** compact_bonsai_nlm.hpp:86-119: the allocation of line 105 or 119 fails. *)
Definition cbn_fail (cs : N) (vs : nat) (n : cbn) (pos : N) (key : list N) : outcome cbn :=
  let '(chunk_id, pos_in_chunk) := decompose_value cs pos in
  let* c := vget (cbn_chunks n) chunk_id in
  let* bit := get_bit cs c pos_in_chunk in
  let* _ := assert_ (negb bit) in
  let* c := set_bit cs c pos_in_chunk true in
  let* chunks := vset (cbn_chunks n) chunk_id c in
  let length := N.of_nat (length (stored_label key)) in
  let* vsz := vbyte_size (add64 length (N.of_nat vs)) in
  Ret (mkCBN (cbn_ptrs n) chunks (add64 (cbn_size n) 1) (add64 (cbn_bytes n) (vsz + length + N.of_nat vs)) (cbn_heap n)).
(** compact_fkhash_nlm.hpp:96-107, :118-123: [size_++], then the first allocation (of release_buf_, :171-172, or of
    chunk_buf_) fails. *)
Definition cfn_fail (cs : N) (n : cfn) : outcome cfn :=
  let '(chunk_id, pos_in_chunk) := decompose_value cs (cfn_size n) in
  let* buf := buf_bytes n in
  let bytes := if negb (chunk_id =? 0) && (pos_in_chunk =? 0) then add64 (cfn_bytes n) (N.of_nat (length buf)) else cfn_bytes n in
  Ret (mkCFN (cfn_ptrs n) (cfn_buf n) (add64 (cfn_size n) 1) bytes (cfn_heap n)).
(** The label store after a failed insert or append (plain_fkhash_nlm.hpp:71: nothing changed yet). *)
Definition i_label_fail (vs : nat) (i : inst) : nT (i_nlm vs i) -> N -> list N -> outcome (nT (i_nlm vs i)) :=
  match i_t i as x, i_l i as y return nT (match x, y with
      | (T_plain_bonsai _ _ | T_compact_bonsai _ _ _), None => pbn_ops vs
      | (T_plain_bonsai _ _ | T_compact_bonsai _ _ _), Some c => cbn_ops (cs_val c) vs
      | (T_plain_fkhash _ _ | T_compact_fkhash _ _ _), None => pfn_ops vs
      | (T_plain_fkhash _ _ | T_compact_fkhash _ _ _), Some c => cfn_ops (cs_val c) vs end) -> N -> list N -> outcome (nT (match x, y with
      | (T_plain_bonsai _ _ | T_compact_bonsai _ _ _), None => pbn_ops vs
      | (T_plain_bonsai _ _ | T_compact_bonsai _ _ _), Some c => cbn_ops (cs_val c) vs
      | (T_plain_fkhash _ _ | T_compact_fkhash _ _ _), None => pfn_ops vs
      | (T_plain_fkhash _ _ | T_compact_fkhash _ _ _), Some c => cfn_ops (cs_val c) vs end)) with
  | (T_plain_bonsai _ _ | T_compact_bonsai _ _ _), None => fun n _ _ => pbn_fail n
  | (T_plain_bonsai _ _ | T_compact_bonsai _ _ _), Some c => fun n pos key => cbn_fail (cs_val c) vs n pos key
  | (T_plain_fkhash _ _ | T_compact_fkhash _ _ _), None => fun n _ _ => Ret n
  | (T_plain_fkhash _ _ | T_compact_fkhash _ _ _), Some c => fun n _ _ => cfn_fail (cs_val c) n
  end.

Section oom.
  Context (dbg : bool) (TO : trie_ops) (NO : nlm_ops).
  Context (grow : tT TO -> outcome (tT TO)) (label_fail : nT NO -> N -> list N -> outcome (nT NO)).
  Notation map_st := (map_st TO NO).

  (** The map with another trie and label store. *)
  Definition left_with (m : map_st) (t : tT TO) (n : nT NO) : map_st :=
    mkMap TO NO (m_ready _ _ m) (m_lambda _ _ m) t n (m_codes _ _ m) (m_num_codes _ _ m) (m_size _ _ m).
  Definition grown_or (g : bool) (t : tT TO) : outcome (tT TO) := if g then grow t else Ret t.

  (** map.hpp:154-167: the first [j] iterations of the step loop; [None] if there are not more than [j]. *)
  Fixpoint steps_until (j : nat) (lambda : N) (t : tT TO) (n : nT NO) (node_id mtch : N) : outcome (option (N * tT TO * nT NO)) :=
    if lambda <=? mtch then
      match j with
      | O => Ret (Some (node_id, t, n))
      | S j =>
          let* r := add_step TO NO node_id t n in
          let '(node_id, t, n) := r in
          steps_until j lambda t n node_id (sub64 mtch lambda)
      end
    else Ret None.

  (** map.hpp:147-187: an iteration of the loop of update up to a failing allocation: the map it leaves, or [None] if
      the iteration ends before. *)
  Definition fail_in (s : site) (st : map_st * N * list N) : outcome (option map_st) :=
    let '(m, node_id, key) := st in
    match key with
    | [] => Ret None
    | _ =>
        let* r := n_compare NO (m_nlm _ _ m) node_id key in
        let '(vptr, mtch) := r in
        match vptr with
        | Some _ => Ret None
        | None =>
            let key := advance key mtch in
            match s with
            | InCtor => Ret None
            | InStep _ j g =>
                let* r := steps_until j (m_lambda _ _ m) (m_trie _ _ m) (m_nlm _ _ m) node_id mtch in
                match r with
                | None => Ret None
                | Some (_, t, n) => let* t := grown_or g t in Ret (Some (left_with m t n))
                end
            | InDummy _ j =>
                let* r := steps_until j (m_lambda _ _ m) (m_trie _ _ m) (m_nlm _ _ m) node_id mtch in
                match r with
                | None => Ret None
                | Some (node_id, t, n) =>
                    let* r := t_add_child TO t node_id step_symb in
                    let '(added, node_id, t) := r in
                    match t_kind TO, added with
                    | Fkhash, true => let* n := label_fail n node_id [] in Ret (Some (left_with m t n))
                    | _, _ => Ret None
                    end
                end
            | InBranch _ _ | InDouble _ | InLabel _ =>
                let* r := update_steps TO NO (m_lambda _ _ m) (m_trie _ _ m) (m_nlm _ _ m) node_id mtch in
                let '(node_id, mtch, t, n) := r in
                let* c := deref key in
                let* code := vget (m_codes _ _ m) c in
                let* cs :=
                  (if code =? 255 then
                     let* codes := vset (m_codes _ _ m) c (m_num_codes _ _ m mod 256) in
                     Ret (codes, m_num_codes _ _ m + 1, m_num_codes _ _ m + 1 =? 255)
                   else Ret (m_codes _ _ m, m_num_codes _ _ m, false)) in
                let '(codes, num_codes, throws) := cs in
                if throws then Ret None
                else
                  let m := mkMap TO NO (m_ready _ _ m) (m_lambda _ _ m) t n codes num_codes (m_size _ _ m) in
                  match s with
                  | InBranch _ g => let* t := grown_or g t in Ret (Some (left_with m t n))
                  | _ =>
                      let* symb := make_symb dbg codes c mtch in
                      let* r := t_add_child TO t node_id symb in
                      let '(added, node_id, t) := r in
                      if negb added then Ret None
                      else
                        match s with
                        | InDouble _ =>
                            match t_kind TO with
                            | Bonsai => Ret (if t_needs_to_expand TO t then Some (left_with m t n) else None)
                            | Fkhash => Ret None
                            end
                        | _ =>
                            let* r := expand_if_needed TO NO node_id t n in
                            let '(node_id, t, n) := r in
                            let* n := label_fail n node_id (advance key 1) in
                            Ret (Some (mkMap TO NO (m_ready _ _ m) (m_lambda _ _ m) t n codes num_codes (add64 (m_size _ _ m) 1)))
                        end
                  end
            end
        end
    end.
  Definition site_iter (s : site) : nat :=
    match s with InCtor => O | InStep i _ _ | InBranch i _ | InDummy i _ | InDouble i | InLabel i => i end.

  (** What update returns: a result, or std::bad_alloc. *)
  Inductive oom_result := Fine (r : update_result) | NoMem.
  (** An iteration of the loop of update; [f]: the failure still to come and the number of iterations before it. *)
  Definition oom_body (st : option (nat * site) * (map_st * N * list N))
    : outcome (option (nat * site) * (map_st * N * list N) + oom_result * map_st) :=
    let '(f, st) := st in
    let go f :=
      let* r := update_body dbg TO NO st in
      match r with
      | inl st => Ret (inl (f, st))
      | inr (r, m) => Ret (inr (Fine r, m))
      end in
    match f with
    | None => go None
    | Some (S i, s) => go (Some (i, s))
    | Some (O, s) =>
        let* r := fail_in s st in
        match r with
        | Some m => Ret (inr (NoMem, m))
        | None => go None
        end
    end.
  (** map.hpp:121-195 with the failure [f]; the first insertion (:125-143) may fail in the constructor (:127, before
      the assignment to [*this]) or for the label (after [++size_] and add_root). *)
  Definition update_oom (f : option site) (m : map_st) (key : list N) : outcome (oom_result * map_st) :=
    let* _ := check_key key in
    if t_size TO (m_trie _ _ m) =? 0 then
      match f with
      | Some InCtor =>
          if negb (m_ready _ _ m) then Ret (NoMem, m)
          else let* r := map_update dbg TO NO m key in let '(r, m) := r in Ret (Fine r, m)
      | Some (InLabel O) =>
          let* m := (if negb (m_ready _ _ m) then map_new TO NO 0 32 else Ret m) in
          let* t := t_add_root TO (m_trie _ _ m) in
          let* root := t_get_root TO t in
          let* n := label_fail (m_nlm _ _ m) root key in
          Ret (NoMem, mkMap TO NO (m_ready _ _ m) (m_lambda _ _ m) t n (m_codes _ _ m) (m_num_codes _ _ m) (add64 (m_size _ _ m) 1))
      | _ => let* r := map_update dbg TO NO m key in let '(r, m) := r in Ret (Fine r, m)
      end
    else
      let* root := t_get_root TO (m_trie _ _ m) in
      loop oom_body (match f with Some s => Some (site_iter s, s) | None => None end, (m, root, key)).

  (** As [api_step] and [api_run] (Api.v), with failing allocations; the exception is caught, and the map it leaves
      is used from then on. *)
  Definition oom_step (m : map_st) (o : oop) : outcome ((oobs * N) * map_st) :=
    match o with
    | (Update k w, f) =>
        let* r := update_oom f m k in
        match r with
        | (Fine (UPtr (Some p)), m) =>
            let* v := map_read TO NO m p in
            let* m := match w with None => Ret m | Some w => map_write TO NO m p w end in
            Ret ((Done (Saw v), m_size _ _ m), m)
        | (Fine (UPtr None), _) => UB
        | (Fine (UThrow x), _) => Throw x
        | (NoMem, m) => Ret ((NoMemory, m_size _ _ m), m)
        end
    | (Find k, _) =>
        let* r := map_find dbg TO NO m k in
        match r with
        | Some p => let* v := map_read TO NO m p in Ret ((Done (Found (Some v)), m_size _ _ m), m)
        | None => Ret ((Done (Found None), m_size _ _ m), m)
        end
    end.
  Fixpoint oom_run (m : map_st) (ops : list oop) : outcome (list (oobs * N) * map_st) :=
    match ops with
    | [] => Ret ([], m)
    | o :: ops =>
        let* r := oom_step m o in
        let '(x, m) := r in
        let* r := oom_run m ops in
        let '(xs, m) := r in Ret (x :: xs, m)
    end.
  (** The same for histories that keep the returned pointers (Api.v). *)
  Definition keep_step (m : map_st) (hs : list (option ptr)) (o : koop) : outcome (kobs * map_st * list (option ptr)) :=
    match o with
    | Keep o => let* r := hapi_step dbg TO NO m hs o in let '(x, m, hs) := r in Ret (Kept x, m, hs)
    | Try k s =>
        let* r := update_oom (Some s) m k in
        match r with
        | (Fine (UPtr (Some _)), m) => Ret (Tried true, m, hs)
        | (Fine (UPtr None), _) => UB
        | (Fine (UThrow x), _) => Throw x
        | (NoMem, m) => Ret (Tried false, m, hs)
        end
    end.
  Fixpoint keep_run (m : map_st) (hs : list (option ptr)) (ops : list koop) : outcome (list kobs * map_st) :=
    match ops with
    | [] => Ret ([], m)
    | o :: ops =>
        let* r := keep_step m hs o in
        let '(x, m, hs) := r in
        let* r := keep_run m hs ops in
        let '(xs, m) := r in Ret (x :: xs, m)
    end.
End oom.
Definition i_update_oom (dbg : bool) (vs : nat) (i : inst) (f : option site) (m : i_map dbg vs i) (key : list N)
  : outcome (oom_result * i_map dbg vs i) :=
  update_oom dbg _ _ (i_grow dbg i) (i_label_fail vs i) f m key.
Definition i_oom_run (dbg : bool) (vs : nat) (i : inst) (m : i_map dbg vs i) (ops : list oop)
  : outcome (list (oobs * N) * i_map dbg vs i) :=
  oom_run dbg _ _ (i_grow dbg i) (i_label_fail vs i) m ops.
Definition i_keep_run (dbg : bool) (vs : nat) (i : inst) (m : i_map dbg vs i) (ops : list koop)
  : outcome (list kobs * i_map dbg vs i) :=
  keep_run dbg _ _ (i_grow dbg i) (i_label_fail vs i) m [] ops.
