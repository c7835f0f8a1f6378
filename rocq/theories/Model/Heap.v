(** Memory blocks owned by a label store (std::unique_ptr<uint8_t[]>, std::vector<uint8_t>) and the
    interface between the map template and its two template parameters. *)
From Verif.Model Require Export Base.
Local Open Scope N_scope.

(** A heap of byte blocks.  Identifiers are never reused, so an access through a pointer into a
    released block is visible as [UB].  Not part of /repo: it models operator new/delete. *)
Record heap := mkHeap { h_next : N; h_mem : PositiveMap.t (list N) }.
Definition hp_empty : heap := mkHeap 0 (PositiveMap.empty _).
Definition hp_find (h : heap) (id : N) : option (list N) := PositiveMap.find (N.succ_pos id) (h_mem h).
Definition hp_alloc (h : heap) (bytes : list N) : N * heap :=
  (h_next h, mkHeap (h_next h + 1) (PositiveMap.add (N.succ_pos (h_next h)) bytes (h_mem h))).
Definition hp_free (h : heap) (id : N) : heap :=
  mkHeap (h_next h) (PositiveMap.remove (N.succ_pos id) (h_mem h)).
Definition hp_block (h : heap) (id : N) : outcome (list N) :=
  match hp_find h id with Some blk => Ret blk | None => UB end.
(** delete[] of what a possibly empty owner holds; releasing a block twice is undefined. *)
Definition hp_delete (h : heap) (o : option N) : outcome heap :=
  match o with
  | Some id => let* _ := hp_block h id in Ret (hp_free h id)
  | None => Ret h
  end.
(** [n] bytes of a block from offset [off] on. *)
Definition slice (blk : list N) (off n : N) : outcome (list N) :=
  if off + n <=? N.of_nat (length blk)
  then Ret (firstn (N.to_nat n) (skipn (N.to_nat off) blk)) else UB.
(** Writing [bytes] into a zero-initialised block of [size] bytes
    (std::make_unique<uint8_t[]>(size) followed by stores); overflowing it is undefined. *)
Definition fill (size : N) (bytes : list N) : outcome (list N) :=
  if N.of_nat (length bytes) <=? size
  then Ret (bytes ++ repeat 0 (N.to_nat size - length bytes)) else UB.

(** The bytes of all blocks that are allocated (a ghost quantity: no code of /repo computes it). *)
Fixpoint tr_total (t : PositiveMap.t (list N)) : N :=
  match t with
  | PositiveMap.Leaf _ => 0
  | PositiveMap.Node l o r =>
      tr_total l + match o with Some blk => N.of_nat (length blk) | None => 0 end + tr_total r
  end.
Definition hp_total (h : heap) : N := tr_total (h_mem h).

(** A value pointer: block and offset. *)
Definition ptr : Type := N * N.
(** [*p] and [*p = v] by the user of the library, for a value type of [length v] bytes. *)
Definition hp_read (h : heap) (p : ptr) (vs : nat) : outcome (list N) :=
  let* blk := hp_block h (fst p) in slice blk (snd p) (N.of_nat vs).
Definition hp_write (h : heap) (p : ptr) (v : list N) : outcome heap :=
  let* blk := hp_block h (fst p) in
  if snd p + N.of_nat (length v) <=? N.of_nat (length blk) then
    Ret (mkHeap (h_next h) (PositiveMap.add (N.succ_pos (fst p))
           (firstn (N.to_nat (snd p)) blk ++ v ++ skipn (N.to_nat (snd p) + length v) blk) (h_mem h)))
  else UB.
Definition zeros (vs : nat) : list N := repeat 0 vs.

(** What map.hpp uses of the node_map returned by expand(): size() and operator[]. *)
Record node_map := mkNM { nm_size : N; nm_get : N -> outcome N }.

(** basics.hpp:40 *)
Inductive trie_kind := Bonsai | Fkhash.

(** The operations of the template parameter [Trie] of map.hpp:38. *)
Record trie_ops := {
  tT : Type;
  t_kind : trie_kind;
  t_default : tT;
  t_new : N -> N -> outcome tT;              (* capa_bits, symb_bits *)
  t_size : tT -> N;
  t_capa : tT -> size_p2;
  t_get_root : tT -> outcome N;
  t_add_root : tT -> outcome tT;
  t_find_child : tT -> N -> N -> outcome N;
  t_add_child : tT -> N -> N -> outcome (bool * N * tT);
  t_needs_to_expand : tT -> bool;            (* Bonsai only *)
  t_expand : tT -> outcome (node_map * tT) }. (* Bonsai only *)

(** The operations of the template parameter [NLM] of map.hpp:38; the heap holds its buffers. *)
Record nlm_ops := {
  nT : Type;
  n_vs : nat;                                (* sizeof(value_type) *)
  n_default : nT;
  n_new : N -> outcome nT;                   (* capa_bits *)
  n_heap : nT -> heap;
  n_set_heap : nT -> heap -> nT;
  n_compare : nT -> N -> list N -> outcome (option ptr * N);
  n_insert : nT -> N -> list N -> outcome (ptr * nT);   (* Bonsai only *)
  n_expand : nT -> node_map -> outcome nT;              (* Bonsai only *)
  n_append : nT -> list N -> outcome (ptr * nT);        (* FK-hash only *)
  n_append_dummy : nT -> outcome nT;                    (* FK-hash only *)
  n_size : nT -> N }.
