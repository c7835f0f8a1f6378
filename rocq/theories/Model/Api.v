(** Running a user's history on a map (the code a user of the library writes around it). *)
From Verif.Model Require Export Map.
From Verif.Props Require Export MapSpec.
Local Open Scope N_scope.

Section api.
  Context (dbg : bool) (TO : trie_ops) (NO : nlm_ops).
  Notation map_st := (map_st TO NO).

  Definition set_heap (m : map_st) (h : heap) : map_st :=
    mkMap TO NO (m_ready _ _ m) (m_lambda _ _ m) (m_trie _ _ m) (n_set_heap NO (m_nlm _ _ m) h)
      (m_codes _ _ m) (m_num_codes _ _ m) (m_size _ _ m).
  (** [*p] and [*p = w] for a value pointer into the map *)
  Definition map_read (m : map_st) (p : ptr) : outcome (list N) := hp_read (n_heap NO (m_nlm _ _ m)) p (n_vs NO).
  Definition map_write (m : map_st) (p : ptr) (w : list N) : outcome map_st :=
    let* h := hp_write (n_heap NO (m_nlm _ _ m)) p w in Ret (set_heap m h).

  (** [*map.update(k)] (then [= w]); a null pointer would be dereferenced. *)
  Definition api_step (m : map_st) (o : op) : outcome ((obs * N) * map_st) :=
    match o with
    | Update k w =>
        let* r := map_update dbg TO NO m k in
        match r with
        | (UPtr (Some p), m) =>
            let* v := map_read m p in
            let* m := match w with None => Ret m | Some w => map_write m p w end in
            Ret ((Saw v, m_size _ _ m), m)
        | (UPtr None, _) => UB
        | (UThrow x, _) => Throw x
        end
    | Find k =>
        let* r := map_find dbg TO NO m k in
        match r with
        | Some p => let* v := map_read m p in Ret ((Found (Some v), m_size _ _ m), m)
        | None => Ret ((Found None, m_size _ _ m), m)
        end
    end.
  Fixpoint api_run (m : map_st) (ops : list op) : outcome (list (obs * N) * map_st) :=
    match ops with
    | [] => Ret ([], m)
    | o :: ops =>
        let* r := api_step m o in
        let '(x, m) := r in
        let* r := api_run m ops in
        let '(xs, m) := r in Ret (x :: xs, m)
    end.

  (** Histories that keep the returned pointers. *)
  Definition hapi_step (m : map_st) (hs : list (option ptr)) (o : hop)
    : outcome (hobs * map_st * list (option ptr)) :=
    match o with
    | HUpdate k =>
        let* r := map_update dbg TO NO m k in
        match r with
        | (UPtr o, m) => Ret (Ptr (match o with Some _ => true | None => false end), m, hs ++ [o])
        | (UThrow x, _) => Throw x
        end
    | HFind k =>
        let* r := map_find dbg TO NO m k in
        Ret (Ptr (match r with Some _ => true | None => false end), m, hs ++ [r])
    | HRead i =>
        match hs !! i with
        | Some (Some p) => let* v := map_read m p in Ret (Read v, m, hs)
        | _ => UB
        end
    | HWrite i w =>
        match hs !! i with
        | Some (Some p) => let* m := map_write m p w in Ret (Written, m, hs)
        | _ => UB
        end
    end.
  Fixpoint hapi_run (m : map_st) (hs : list (option ptr)) (ops : list hop)
    : outcome (list hobs * map_st * list (option ptr)) :=
    match ops with
    | [] => Ret ([], m, hs)
    | o :: ops =>
        let* r := hapi_step m hs o in
        let '(x, m, hs) := r in
        let* r := hapi_run m hs ops in
        let '(xs, m, hs) := r in Ret (x :: xs, m, hs)
    end.
End api.
