(** The re-insertion loop shared (textually) by plain_bonsai_trie::expand and
    compact_bonsai_trie::expand, with the class-specific operations as parameters. *)
From Verif.Model Require Export BitVector.
Local Open Scope N_scope.

(** plain_bonsai_trie.hpp:40, compact_bonsai_trie.hpp:46, plain_fkhash_trie.hpp:44,
    compact_fkhash_trie.hpp:46 *)
Definition nil_id : N := UINT64_MAX.

(** plain_bonsai_trie.hpp:201-209, compact_bonsai_trie.hpp:247-252: the climb to the first
    processed ancestor; the vector [path] is a list with the last pushed element first. *)
Definition bonsai_climb (get_parent_and_symb : N -> outcome (N * N)) (done : bit_vector) (i : N)
  : outcome (list (N * N) * N) :=
  loop (fun st : list (N * N) * N =>
    let '(path, node_id) := st in
    let* ps := get_parent_and_symb node_id in
    let '(parent, label) := ps in
    let* _ := assert_ (negb (parent =? nil_id)) in
    let* d := bv_get done parent in
    if d then Ret (inr ((node_id, label) :: path, parent))
    else Ret (inl ((node_id, label) :: path, parent))) ([], i).

(** plain_bonsai_trie.hpp:213-217, compact_bonsai_trie.hpp:256-260: re-insertion along the path
    (reverse iteration). *)
Fixpoint bonsai_replay {T MS} (add_child : T -> N -> N -> outcome (bool * N * T))
    (set_mapping : MS -> N -> N -> outcome MS)
    (path : list (N * N)) (new_node_id : N) (ms : MS) (done : bit_vector) (new_ht : T)
    : outcome (MS * bit_vector * T) :=
  match path with
  | [] => Ret (ms, done, new_ht)
  | (old_id, label) :: path =>
      let* r := add_child new_ht new_node_id label in
      let '(_, new_node_id, new_ht) := r in
      let* ms := set_mapping ms old_id new_node_id in
      let* done := bv_set done old_id true in
      bonsai_replay add_child set_mapping path new_node_id ms done new_ht
  end.

(** plain_bonsai_trie.hpp:195-218 (start 2), compact_bonsai_trie.hpp:238-261 (start 1). *)
Definition bonsai_remap {T MS} (start size : N) (is_empty : MS -> N -> outcome bool)
    (get_parent_and_symb : MS -> N -> outcome (N * N))
    (get_mapping : MS -> N -> outcome N) (set_mapping : MS -> N -> N -> outcome MS)
    (add_child : T -> N -> N -> outcome (bool * N * T))
    (st : MS * bit_vector * T) : outcome (MS * bit_vector * T) :=
  for_range start size (fun i st =>
    let '(ms, done, new_ht) := st in
    let* d := bv_get done i in
    if d then Ret st
    else
      let* e := is_empty ms i in
      if e then Ret st
      else
        let* pn := bonsai_climb (get_parent_and_symb ms) done i in
        let '(path, node_id) := pn in
        let* new_node_id := get_mapping ms node_id in
        bonsai_replay add_child set_mapping path new_node_id ms done new_ht) st.
