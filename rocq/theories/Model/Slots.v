(** find with a ghost counter: how many slots of the hash table it inspects.  The counter is not in the source; apart
    from it the definitions repeat those of the four tries and of Map.v line by line (C58_same: forgetting the counter
    gives map_find). *)
From Verif.Model Require Export Instances.
Local Open Scope N_scope.

(** A loop with its iterations counted: every iteration of the loops below inspects one slot, the one at i. *)
Definition counted {S R} (f : S -> outcome (S + R)) (st : S * N) : outcome (S * N + R * N) :=
  let* x := f (fst st) in
  Ret (match x with inl s => inl (s, snd st + 1) | inr r => inr (r, snd st + 1) end).
Definition counted_loop {S R} (f : S -> outcome (S + R)) (s : S) : outcome (R * N) := loop (counted f) (s, 0).

(** plain_bonsai_trie.hpp:67-94 *)
Definition pb_find_child_s {H : plain_hasher} (t : pb_trie) (node_id symb : N) : outcome (N * N) :=
  let* _ := assert_ (node_id <? p2_size (pb_capa t)) in
  let* _ := assert_ (symb <? p2_size (pb_symb t)) in
  if pb_size t =? 0 then Ret (nil_id, 0)
  else
    let key := make_key (pb_symb t) node_id symb in
    let* _ := assert_ (negb (key =? 0)) in
    counted_loop (fun i =>
      if i =? 0 then Ret (inl (right_of (pb_capa t) i))
      else
        let* root := pb_get_root t in
        if i =? root then Ret (inl (right_of (pb_capa t) i))
        else
          let* x := cv_get (pb_table t) i in
          if x =? 0 then Ret (inr nil_id)
          else if x =? key then Ret (inr i)
          else Ret (inl (right_of (pb_capa t) i)))
      (N.land (p_hash key) (p2_mask (pb_capa t))).

(** compact_bonsai_trie.hpp:82-107 *)
Definition cb_find_child_s {H : trie_hashers} (P : dsp_params) (t : cb_trie) (node_id symb : N) : outcome (N * N) :=
  let d := cb_dt t in
  let* _ := assert_ (node_id <? p2_size (dt_capa d)) in
  let* _ := assert_ (symb <? p2_size (dt_symb d)) in
  if cb_size t =? 0 then Ret (nil_id, 0)
  else
    let* x := hasher_hash (dt_hasher d) (make_key (dt_symb d) node_id symb) in
    let '(quo, mod_) := dt_decompose d x in
    counted_loop (fun st : N * N =>
      let '(i, cnt) := st in
      let next := (right_of (dt_capa d) i, add64 cnt 1) in
      let* root := cb_get_root t in
      if i =? root then Ret (inl next)
      else
        let* e := dt_compare_dsp P d i 0 in
        if e then Ret (inr nil_id)
        else
          let* c := dt_compare_dsp P d i cnt in
          if c then
            let* q := dt_get_quo P d i in
            if quo =? q then Ret (inr i) else Ret (inl next)
          else Ret (inl next)) (mod_, 1).

(** plain_fkhash_trie.hpp:73-93 *)
Definition pf_find_child_s {H : plain_hasher} (t : pf_trie) (node_id symb : N) : outcome (N * N) :=
  let* _ := assert_ (node_id <? p2_size (pf_capa t)) in
  let* _ := assert_ (symb <? p2_size (pf_symb t)) in
  if pf_size t =? 0 then Ret (nil_id, 0)
  else
    let key := make_key (pf_symb t) node_id symb in
    counted_loop (fun i =>
      let* child_id := cv_get (pf_ids t) i in
      if child_id =? 0 then Ret (inr nil_id)
      else
        let* x := cv_get (pf_table t) i in
        if x =? key then Ret (inr child_id)
        else Ret (inl (right_of (pf_capa t) i))) (pf_init_id t key).

(** compact_fkhash_trie.hpp:82-101 *)
Definition cf_find_child_s {H : trie_hashers} (P : dsp_params) (t : cf_trie) (node_id symb : N) : outcome (N * N) :=
  let d := cf_dt t in
  if cf_size t =? 0 then Ret (nil_id, 0)
  else
    let* x := hasher_hash (dt_hasher d) (make_key (dt_symb d) node_id symb) in
    let '(quo, mod_) := dt_decompose d x in
    counted_loop (fun st : N * N =>
      let '(i, cnt) := st in
      let next := (right_of (dt_capa d) i, add64 cnt 1) in
      let* child_id := cv_get (cf_ids t) i in
      if child_id =? p2_mask (dt_capa d) then Ret (inr nil_id)
      else
        let* c := dt_compare_dsp P d i cnt in
        if c then
          let* q := dt_get_quo P d i in
          if quo =? q then Ret (inr child_id) else Ret (inl next)
        else Ret (inl next)) (mod_, 0).

(** ** find of the map, over a trie whose find_child counts *)
Section slots.
  Context (dbg : bool) (TO : trie_ops) (NO : nlm_ops) (fc : tT TO -> N -> N -> outcome (N * N)).

  (** map.hpp:93-99 *)
  Definition find_steps_s (lambda : N) (t : tT TO) (node_id mtch s : N) : outcome (option (N * N) * N) :=
    loop (fun st : N * N * N =>
      let '(node_id, mtch, s) := st in
      if lambda <=? mtch then
        let* r := fc t node_id step_symb in
        let '(node_id, c) := r in
        if node_id =? nil_id then Ret (inr (None, s + c))
        else Ret (inl (node_id, sub64 mtch lambda, s + c))
      else Ret (inr (Some (node_id, mtch), s))) (node_id, mtch, s).

  (** map.hpp:84-113: the loop of find, one iteration *)
  Definition find_body_s (m : map_st TO NO) (st : N * list N * N) : outcome (N * list N * N + option ptr * N) :=
    let '(node_id, key, s) := st in
    match key with
    | [] => let* r := n_compare NO (m_nlm _ _ m) node_id key in Ret (inr (fst r, s))
    | _ =>
        let* r := n_compare NO (m_nlm _ _ m) node_id key in
        let '(vptr, mtch) := r in
        match vptr with
        | Some p => Ret (inr (Some p, s))
        | None =>
            let key := advance key mtch in
            let* r := find_steps_s (m_lambda _ _ m) (m_trie _ _ m) node_id mtch s in
            let '(o, s) := r in
            match o with
            | None => Ret (inr (None, s))
            | Some (node_id, mtch) =>
                let* c := deref key in
                let* code := vget (m_codes _ _ m) c in
                if code =? 255 then Ret (inr (None, s))
                else
                  let* symb := make_symb dbg (m_codes _ _ m) c mtch in
                  let* r := fc (m_trie _ _ m) node_id symb in
                  let '(node_id, c) := r in
                  if node_id =? nil_id then Ret (inr (None, s + c))
                  else Ret (inl (node_id, advance key 1, s + c))
            end
        end
    end.
  (** map.hpp:75-115 *)
  Definition map_find_s (m : map_st TO NO) (key : list N) : outcome (option ptr * N) :=
    let* _ := check_key key in
    if negb (m_ready _ _ m) || (t_size TO (m_trie _ _ m) =? 0) then Ret (None, 0)
    else
      let* root := t_get_root TO (m_trie _ _ m) in
      loop (find_body_s m) (root, key, 0).
End slots.

(** Any instantiation *)
Definition i_find_child_s (dbg : bool) (i : inst) : tT (i_trie dbg i) -> N -> N -> outcome (N * N) :=
  match i_t i as x return tT (match x with
      | T_plain_bonsai H mf => pb_ops mf | T_compact_bonsai H P mf => cb_ops P mf
      | T_plain_fkhash H mf => pf_ops dbg mf | T_compact_fkhash H P mf => cf_ops P mf end) -> N -> N -> outcome (N * N) with
  | T_plain_bonsai _ _ => pb_find_child_s
  | T_compact_bonsai _ P _ => cb_find_child_s P
  | T_plain_fkhash _ _ => pf_find_child_s
  | T_compact_fkhash _ P _ => cf_find_child_s P
  end.
Definition i_find_s (dbg : bool) (vs : nat) (i : inst) : i_map dbg vs i -> list N -> outcome (option ptr * N) :=
  map_find_s dbg (i_trie dbg i) (i_nlm vs i) (i_find_child_s dbg i).
