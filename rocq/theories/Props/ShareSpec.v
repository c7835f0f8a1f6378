(** The bytes that the labels of a dictionary take (ShareProps.v). *)
From Verif.Props Require Export AllocSpec.
Local Open Scope N_scope.

(** The distinct non-empty prefixes of a set of keys: the edges of their trie. *)
Definition prefixes_of (k : list N) : list (list N) := map (fun n => firstn n k) (seq 1 (length k)).
Definition prefixes (ks : gset (list N)) : gset (list N) := list_to_set (concat (map prefixes_of (elements ks))).
(** All labels together: every edge of the trie once, except that the byte on which a key branches off is kept in
    the hash table. *)
Definition label_total (d : dict) : N := N.of_nat (size (prefixes (dom d))) - (N.of_nat (size d) - 1).
(** The length of the longest key. *)
Definition longest (d : dict) : N := foldr (fun k n => N.max (N.of_nat (length k)) n) 0 (elements (dom d)).
(** Labels and values of [vs] bytes: nothing else in a plain store; in a compact store a header for every key. *)
Definition shared_bytes (vs : nat) (i : inst) (d : dict) : N :=
  match i_l i with
  | None => label_total d + N.of_nat vs * N.of_nat (size d)
  | Some _ => label_total d + N.of_nat (size d) * (N.of_nat vs + header (longest d + N.of_nat vs))
  end.
