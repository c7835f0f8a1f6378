(** The memory a map may report (AllocProps.v). *)
From Verif.Model Require Export AllocBytes.
From Verif.Props Require Export InstSpec.
Local Open Scope N_scope.

(** Bits of the hash table(s) for each of the 2^b slots of a trie with (8+e)-bit symbols: quotients (compact
    tries) or edges, displacements, and identifiers (FK-hash tries). *)
Definition slot_bits (i : inst) (e b : N) : N :=
  match i_t i with
  | T_plain_bonsai _ _ => b + 8 + e
  | T_compact_bonsai _ P _ => 8 + e + dp_d1 P
  | T_plain_fkhash _ _ => b + 8 + e + b
  | T_compact_fkhash _ P _ => 8 + e + dp_d1 P + b
  end.
(** The secondary displacement table of the compact tries: at most its value width and two flags for each slot. *)
Definition aux_bits (i : inst) : N := match i_par i with Some P => dp_vb P + 2 | None => 0 end.
(** It has at least 2^12 slots, with the rest of the index as quotient. *)
Definition aux_least (i : inst) (b : N) : N := match i_par i with Some P => 2 ^ 12 * (b - 12 + dp_vb P + 2) | None => 0 end.
(** The table of large displacements: 16 bytes a slot, 64 slots or at most twice as many as its load factor
    requires for one entry a node. *)
Definition aux_map_bytes (i : inst) (nodes : N) : N :=
  match i_par i with Some P => 16 * N.max 64 (200 * (nodes + 8) / dp_smf P) | None => 0 end.
(** Label pointers of a Bonsai store: one for each slot, or one and a bit map for each chunk of slots. *)
Definition ptr_bits (i : inst) : N :=
  match i_t i, i_l i with
  | (T_plain_bonsai _ _ | T_compact_bonsai _ _ _), None => 64
  | (T_plain_bonsai _ _ | T_compact_bonsai _ _ _), Some c => 64 / cs_val c + 1
  | _, _ => 0
  end.
(** The growing vectors of an FK-hash store, with the capacities the standard library chose for them, and a byte
    for each node without a label in a compact one. *)
Definition grown_bytes (i : inst) (cap bcap nodes : N) : N :=
  match i_t i, i_l i with
  | (T_plain_fkhash _ _ | T_compact_fkhash _ _ _), None => 8 * cap
  | (T_plain_fkhash _ _ | T_compact_fkhash _ _ _), Some _ => 8 * cap + bcap + nodes
  | _, _ => 0
  end.
(** The stores that count every label; the compact FK-hash store does not count those still in its buffer. *)
Definition counted (i : inst) : bool :=
  match i_t i, i_l i with (T_plain_fkhash _ _ | T_compact_fkhash _ _ _), Some _ => false | _, _ => true end.
(** A key with its value of [vs] bytes: itself in a plain store; in a compact store without the terminator, but
    with a header of one byte for every 7 bits of the length. *)
Definition header (n : N) : N := N.log2 n / 7 + 1.
Definition key_bytes (vs : nat) (i : inst) (k : list N) : N :=
  match i_l i with
  | None => N.of_nat (length k) + N.of_nat vs
  | Some _ => let n := N.of_nat (length k) - 1 + N.of_nat vs in n + header n
  end.
Definition dict_bytes (vs : nat) (i : inst) (d : dict) : N := map_fold (fun k _ n => key_bytes vs i k + n) 0 d.
(** The nodes of a trie for the keys of [d]. *)
Definition dict_nodes (e : N) (d : dict) : N := node_bound e (dom d).
