(** What find returns, by value, for every instantiation (InstMore.v). *)
From Verif.Props Require Export InstSpec.
Local Open Scope N_scope.

(** [find(k)], and the value behind the pointer it returns. *)
Definition i_find_value (dbg : bool) (vs : nat) (i : inst) (m : i_map dbg vs i) (k : list N) : outcome (option (list N)) :=
  let* r := i_find dbg vs i m k in
  match r with Some p => let* v := map_read _ _ m p in Ret (Some v) | None => Ret None end.
(** [m] is the map after the history [ops] from map(cb, 2^e), the user catching the exception of update. *)
Definition i_try_reaches (dbg : bool) (vs : nat) (i : inst) (cb e : N) (ops : list op) (m : i_map dbg vs i) : Prop :=
  exists m0 xs, i_new dbg vs i cb (2 ^ e) = Ret m0 /\ i_try_run dbg vs i m0 ops = Ret (xs, m).
