(** What a user of a label store (node_label map) relies on: a store maps positions to labels and values.
    The histories below use only the public operations of a store. *)
From stdpp Require Import gmap.
From Verif.Model Require Export Heap VByte CompactNlm Aliases.
Local Open Scope N_scope.

(** Position -> (label, value). *)
Notation labels := (gmap N (list N * list N)).
(** A label is empty or a string of non-NUL bytes with its terminator; together with a value of [vs]
    bytes it is smaller than the address space. *)
Definition valid_label (vs : nat) (k : list N) : Prop :=
  (k = [] \/ exists s, k = s ++ [0] /\ Forall (fun c => c <> 0) s) /\
  N.of_nat (length k) + N.of_nat vs < 2 ^ 64.
(** [k] and [l] may be compared: both empty or both non-empty. *)
Definition comparable (k l : list N) : Prop := k = [] <-> l = [].
(** [i] is the length of the longest common prefix of [k] and [l]. *)
Definition common_prefix (k l : list N) (i : nat) : Prop :=
  firstn i k = firstn i l /\ (i <= length k)%nat /\ (i <= length l)%nat /\ nth_error k i <> nth_error l i.
(** [m'] is [m] with the positions renamed by [f]. *)
Definition renamed (f : N -> option N) (m m' : labels) : Prop :=
  forall y e, m' !! y = Some e <-> exists x, f x = Some y /\ m !! x = Some e.

(** The four stores. *)
Inductive bonsai_store := plain_bonsai_labels | compact_bonsai_labels (c : chunk_size).
Inductive fkhash_store := plain_fkhash_labels | compact_fkhash_labels (c : chunk_size).
Definition bonsai_nlm (vs : nat) (s : bonsai_store) : nlm_ops :=
  match s with plain_bonsai_labels => pbn_ops vs | compact_bonsai_labels c => cbn_ops (cs_val c) vs end.
Definition fkhash_nlm (vs : nat) (s : fkhash_store) : nlm_ops :=
  match s with plain_fkhash_labels => pfn_ops vs | compact_fkhash_labels c => cfn_ops (cs_val c) vs end.

(** A position map given to expand: [f] sends the positions below [P] to distinct positions below [2*P],
    [UINT64_MAX] marks the others. *)
Definition position_map (P : N) (f : N -> option N) (nm : node_map) : Prop :=
  nm_size nm = P /\
  (forall i, i < P -> nm_get nm i = Ret (default UINT64_MAX (f i))) /\
  (forall i j y, i < P -> j < P -> f i = Some y -> f j = Some y -> i = j) /\
  (forall i y, i < P -> f i = Some y -> y < 2 * P).

(** Histories of a Bonsai label store with [P] positions, and the labels it should hold. *)
Inductive bonsai_labels (NO : nlm_ops) : N -> nT NO -> labels -> Prop :=
  | bl_new b n : 16 <= b <= 56 -> n_new NO b = Ret n -> bonsai_labels NO (2 ^ b) n ∅
  | bl_insert P n m x k p n' : bonsai_labels NO P n m -> x < P -> m !! x = None -> valid_label (n_vs NO) k ->
      n_insert NO n x k = Ret (p, n') ->
      bonsai_labels NO P n' (<[x := (k, replicate (n_vs NO) 0)]> m)
  | bl_write P n m x k v p i w h : bonsai_labels NO P n m -> m !! x = Some (k, v) ->
      n_compare NO n x k = Ret (Some p, i) -> length w = n_vs NO -> hp_write (n_heap NO n) p w = Ret h ->
      bonsai_labels NO P (n_set_heap NO n h) (<[x := (k, w)]> m)
  | bl_expand b n m f nm n' m' : bonsai_labels NO (2 ^ b) n m -> b <= 55 -> position_map (2 ^ b) f nm ->
      (forall x e, m !! x = Some e -> is_Some (f x)) -> n_expand NO n nm = Ret n' -> renamed f m m' ->
      bonsai_labels NO (2 * 2 ^ b) n' m'.
(** Histories of an FK-hash label store: [c] positions appended so far. *)
Inductive fkhash_labels (NO : nlm_ops) : N -> nT NO -> labels -> Prop :=
  | fl_new b n : 16 <= b <= 56 -> n_new NO b = Ret n -> fkhash_labels NO 0 n ∅
  | fl_append c n m k p n' : fkhash_labels NO c n m -> c + 1 < 2 ^ 57 -> valid_label (n_vs NO) k ->
      n_append NO n k = Ret (p, n') ->
      fkhash_labels NO (c + 1) n' (<[c := (k, replicate (n_vs NO) 0)]> m)
  | fl_dummy c n m n' : fkhash_labels NO c n m -> c + 1 < 2 ^ 57 -> n_append_dummy NO n = Ret n' ->
      fkhash_labels NO (c + 1) n' m
  | fl_write c n m x k v p i w h : fkhash_labels NO c n m -> m !! x = Some (k, v) ->
      n_compare NO n x k = Ret (Some p, i) -> length w = n_vs NO -> hp_write (n_heap NO n) p w = Ret h ->
      fkhash_labels NO c (n_set_heap NO n h) (<[x := (k, w)]> m).

(** The bytes a compact store keeps for a label and its value: their length (vbyte), the label without its
    terminator, the value. *)
Definition vbyte (n : N) : list N := match vbyte_encode n with Ret c => c | _ => [] end.
Definition stored (e : list N * list N) : list N :=
  let b := removelast (fst e) ++ snd e in vbyte (N.of_nat (length b)) ++ b.
(** The positions [base .. base+n-1] in order. *)
Definition positions (base : N) (n : nat) : list N := map (fun j => base + N.of_nat j) (seq 0 n).
(** The buffer of the positions [ps]: Bonsai stores leave out the unused positions, FK-hash stores keep a
    zero byte for them. *)
Definition bonsai_bytes (m : labels) (ps : list N) : list N :=
  concat (map (fun x => match m !! x with Some e => stored e | None => [] end) ps).
Definition fkhash_bytes (m : labels) (ps : list N) : list N :=
  concat (map (fun x => match m !! x with Some e => stored e | None => [0] end) ps).
