(** Hypotheses and outcomes of the theorems about every instantiation of the map template (InstProps.v). *)
From Verif.Model Require Export Instances.
From Verif.Props Require Export MapSpec HashSpec.
Local Open Scope N_scope.

Definition i_mf (i : inst) : N :=
  match i_t i with T_plain_bonsai _ mf | T_compact_bonsai _ _ mf | T_plain_fkhash _ mf | T_compact_fkhash _ _ mf => mf end.
Definition i_par (i : inst) : option dsp_params :=
  match i_t i with T_compact_bonsai _ P _ | T_compact_fkhash _ P _ => Some P | _ => None end.
(** The template arguments covered: MaxFactor between 1 and 99 (its static_assert); for the compact tries
    Dsp1Bits and the width of AuxCht between 1 and 16, the load factor of AuxCht between 1 and 99 and that of
    AuxMap between 51 and 99.  The Hasher of a plain trie or of an AuxMap is any function; that of a compact trie
    or of an AuxCht any pair of functions of which the second undoes the first, on every universe of 1 to 63 bits. *)
Definition valid_inst (i : inst) : Prop :=
  1 <= i_mf i <= 99 /\
  match i_par i with
  | Some P => 1 <= dp_d1 P <= 16 /\ 1 <= dp_vb P <= 16 /\ 1 <= dp_cmf P <= 99 /\ 51 <= dp_smf P <= 99
  | None => True
  end /\
  match i_t i with
  | T_compact_bonsai H _ _ | T_compact_fkhash H _ _ => bijective (@th_trie H) /\ bijective (@th_cht H)
  | _ => True
  end.
(** The debug-build assertion [key != 0] of the FK tries over plain hashing (C14). *)
Definition i_traps (dbg : bool) (i : inst) : bool := match i_t i with T_plain_fkhash _ _ => dbg | _ => false end.
(** As [supported], [no_trap] and [yields] for the aliases (ReachSpec.v), with the load limit of the instantiation. *)
Definition i_supported (vs : nat) (i : inst) (cb e : N) (ks : list (list N)) : Prop :=
  (1 <= vs)%nat /\ N.max 16 cb + e <= 55 /\ nodes_for e ks + 1 < 2 ^ (54 - e) * i_mf i / 100 /\
  (size (alphabet ks) <= 254)%nat.
(** The same with one more byte. *)
Definition i_supported_255 (vs : nat) (i : inst) (cb e : N) (ks : list (list N)) : Prop :=
  (1 <= vs)%nat /\ N.max 16 cb + e <= 55 /\ nodes_for e ks + 1 < 2 ^ (54 - e) * i_mf i / 100 /\
  (size (alphabet ks) <= 255)%nat.
(** The same with any bytes. *)
Definition i_supported_any (vs : nat) (i : inst) (cb e : N) (ks : list (list N)) : Prop :=
  (1 <= vs)%nat /\ N.max 16 cb + e <= 55 /\ nodes_for e ks + 1 < 2 ^ (54 - e) * i_mf i / 100.
Definition i_no_trap (dbg : bool) (i : inst) (ks : list (list N)) : Prop := i_traps dbg i = true -> ~ In [0] ks.
(** A compact trie whose AuxCht has a lower load limit than the trie, with keys that may need about as many nodes
    as that limit allows in the initial capacity. *)
Definition i_near_full (i : inst) (cb e : N) (ks : list (list N)) : Prop :=
  match i_par i with
  | Some P => dp_cmf P < i_mf i /\ 2 ^ N.max 16 cb * dp_cmf P < 100 * (nodes_for e ks + 10)
  | None => False
  end.
Definition i_yields {A} (i : inst) (cb e : N) (ks : list (list N)) (r : outcome A) (Q : A -> Prop) : Prop :=
  (exists x, r = Ret x /\ Q x) \/ (i_near_full i cb e ks /\ r = AssertFail).

(** [m] is the map after the history [ops] from map(cb, 2^e). *)
Definition i_reaches (dbg : bool) (vs : nat) (i : inst) (cb e : N) (ops : list op) (m : i_map dbg vs i) : Prop :=
  exists m0 xs, i_new dbg vs i cb (2 ^ e) = Ret m0 /\ i_run dbg vs i m0 ops = Ret (xs, m).
(** The parts of a map: the nodes of its trie, and its labels with the values behind all pointers. *)
Definition i_nodes (dbg : bool) (vs : nat) (i : inst) (m : i_map dbg vs i) : N := t_size _ (m_trie _ _ m).
Definition i_labels (dbg : bool) (vs : nat) (i : inst) (m : i_map dbg vs i) : nT (i_nlm vs i) := m_nlm _ _ m.
Definition is_fkhash (i : inst) : bool :=
  match i_t i with T_plain_fkhash _ _ | T_compact_fkhash _ _ _ => true | _ => false end.
