(** Hypotheses and outcomes of the theorems about the ten aliases (MapProps.v, LimitProps.v, TryProps.v,
    OomProps.v). *)
From Verif.Model Require Export Aliases ApiTry.
From Verif.Props Require Export MapSpec.
Local Open Scope N_scope.

(** ** Kinds of aliases (poplar.hpp:41-57) *)
(** Aliases whose theorems need no reservation about the auxiliary displacement table: those without a compact
    trie. *)
Definition exact_alias (a : alias) : bool :=
  match a with compact_bonsai_map _ | compact_fkhash_map _ => false | _ => true end.
(** Aliases with the debug-build assertion [key != 0] (property C14). *)
Definition traps (dbg : bool) (a : alias) : bool :=
  match a with plain_fkhash_map | semi_compact_fkhash_map _ => dbg | _ => false end.
(** Aliases with stable value pointers. *)
Definition stable_alias (a : alias) : bool :=
  match a with plain_bonsai_map | plain_fkhash_map => true | _ => false end.
(** Aliases whose labels are stored in chunks. *)
Definition compact_store (a : alias) : bool :=
  match a with plain_bonsai_map | plain_fkhash_map => false | _ => true end.

(** ** Limits *)
(** The parameters and the keys stay within the representational limits: capacity bits plus
    symbol bits below 64 (and a value type has at least one byte), the keys need fewer than 2^(54-e) - 1 nodes, at
    most 254 distinct bytes. *)
Definition supported (vs : nat) (cb e : N) (ks : list (list N)) : Prop :=
  (1 <= vs)%nat /\ N.max 16 cb + e <= 55 /\ nodes_for e ks + 1 < 2 ^ (54 - e) /\ (size (alphabet ks) <= 254)%nat.
(** As [supported], with one more byte. *)
Definition supported_255 (vs : nat) (cb e : N) (ks : list (list N)) : Prop :=
  (1 <= vs)%nat /\ N.max 16 cb + e <= 55 /\ nodes_for e ks + 1 < 2 ^ (54 - e) /\ (size (alphabet ks) <= 255)%nat.
(** The debug-build assertion of C14 is not triggered. *)
Definition no_trap (dbg : bool) (a : alias) (ks : list (list N)) : Prop :=
  traps dbg a = true -> ~ In [0] ks.
(** An alias with a compact trie whose keys may need nodes for more than 3/4 of the initial capacity: its
    displacement table, limited to 80% of the slots, could fill up (see DESIGN.md). *)
Definition near_full (a : alias) (cb e : N) (ks : list (list N)) : Prop :=
  exact_alias a = false /\ 3 * 2 ^ N.max 16 cb < 4 * nodes_for e ks.

(** ** States and outcomes *)
(** [m] is the map after the history [ops] from map(cb, 2^e). *)
Definition reaches (dbg : bool) (vs : nat) (a : alias) (cb e : N) (ops : list op) (m : a_map dbg vs a) : Prop :=
  exists m0 xs, a_new dbg vs a cb (2 ^ e) = Ret m0 /\ a_run dbg vs a m0 ops = Ret (xs, m).
(** [m] is the map after the history [ops] from map(cb, 2^e), exceptions caught. *)
Definition try_reaches (dbg : bool) (vs : nat) (a : alias) (cb e : N) (ops : list op) (m : a_map dbg vs a) : Prop :=
  exists m0 xs, a_new dbg vs a cb (2 ^ e) = Ret m0 /\ a_try_run dbg vs a m0 ops = Ret (xs, m).
(** The computation ends with a result satisfying [Q]; in the case [near_full] it may also stop at an
    assertion. *)
Definition yields {A} (a : alias) (cb e : N) (ks : list (list N)) (r : outcome A) (Q : A -> Prop) : Prop :=
  (exists x, r = Ret x /\ Q x) \/ (near_full a cb e ks /\ r = AssertFail).
(** find(k) followed by reading the value. *)
Definition find_value (dbg : bool) (vs : nat) (a : alias) (m : a_map dbg vs a) (k : list N)
  : outcome (option (list N)) :=
  let* r := a_find dbg vs a m k in
  match r with Some p => let* v := a_read dbg vs a m p in Ret (Some v) | None => Ret None end.
