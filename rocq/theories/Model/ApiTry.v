(** A user who catches the exception of update (map.hpp:171) and goes on with the map. *)
From Verif.Model Require Export Aliases.
From Verif.Props Require Export TrySpec.
Local Open Scope N_scope.

Section try.
  Context (dbg : bool) (TO : trie_ops) (NO : nlm_ops).
  Notation map_st := (map_st TO NO).

  (** As [api_step] (Api.v); the exception of update is caught, the map it leaves is used from then on. *)
  Definition try_step (m : map_st) (o : op) : outcome ((tobs * N) * map_st) :=
    match o with
    | Update k w =>
        let* r := map_update dbg TO NO m k in
        match r with
        | (UPtr (Some p), m) =>
            let* v := map_read TO NO m p in
            let* m := match w with None => Ret m | Some w => map_write TO NO m p w end in
            Ret ((Did (Saw v), m_size _ _ m), m)
        | (UPtr None, _) => UB
        | (UThrow _, m) => Ret ((Caught, m_size _ _ m), m)
        end
    | Find k =>
        let* r := map_find dbg TO NO m k in
        match r with
        | Some p => let* v := map_read TO NO m p in Ret ((Did (Found (Some v)), m_size _ _ m), m)
        | None => Ret ((Did (Found None), m_size _ _ m), m)
        end
    end.
  Fixpoint try_run (m : map_st) (ops : list op) : outcome (list (tobs * N) * map_st) :=
    match ops with
    | [] => Ret ([], m)
    | o :: ops =>
        let* r := try_step m o in
        let '(x, m) := r in
        let* r := try_run m ops in
        let '(xs, m) := r in Ret (x :: xs, m)
    end.
End try.

Definition a_try_run (dbg : bool) (vs : nat) (a : alias) (m : a_map dbg vs a) (ops : list op)
  : outcome (list (tobs * N) * a_map dbg vs a) := try_run dbg _ _ m ops.
(** A history with kept pointers (Api.v) on a map with the pointers [hs] kept so far. *)
Definition a_hcont (dbg : bool) (vs : nat) (a : alias) (m : a_map dbg vs a) (hs : list (option ptr)) (ops : list hop)
  : outcome (list hobs * a_map dbg vs a * list (option ptr)) := hapi_run dbg _ _ m hs ops.
