(** The lives of a map (DestroyProps.v). *)
From Verif.Model Require Export Destroy Oom.
Local Open Scope N_scope.

(** Everything that can happen to a map, with any arguments: construction, update with any range of bytes as the key
    - whether it returns a pointer, throws because of the key or the alphabet, or runs out of memory anywhere -, a
    write through any pointer, and being moved from.  (find changes nothing.)  No validity is required: only that
    each call returns or throws. *)
Inductive lives (dbg : bool) (vs : nat) (i : inst) : i_map dbg vs i -> Prop :=
  | lives_default : lives dbg vs i (map_default _ _)
  | lives_new cb lambda m : i_new dbg vs i cb lambda = Ret m -> lives dbg vs i m
  | lives_update m f k r m' : lives dbg vs i m -> i_update_oom dbg vs i f m k = Ret (r, m') -> lives dbg vs i m'
  | lives_write m p w m' : lives dbg vs i m -> map_write _ _ m p w = Ret m' -> lives dbg vs i m'
  | lives_moved m : lives dbg vs i m -> lives dbg vs i (i_moved_from dbg vs i m).

(** The map owns no block (so that dropping it without destruction loses nothing). *)
Definition owns_nothing (dbg : bool) (vs : nat) (i : inst) (m : i_map dbg vs i) : Prop :=
  forall id, hp_find (n_heap (i_nlm vs i) (m_nlm _ _ m)) id = None.
