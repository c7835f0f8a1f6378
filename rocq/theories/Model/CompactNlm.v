(** Model of include/poplar/compact_bonsai_nlm.hpp and compact_fkhash_nlm.hpp.
    [cs] is the template parameter ChunkSize (8, 16, 32 or 64, basics.hpp:126-144), [vs] is
    sizeof(value_type).  Positions inside a buffer are plain numbers: pointer arithmetic inside an
    existing buffer does not wrap around. *)
From Verif.Model Require Export Heap VByte BitTools PlainNlm.
Local Open Scope N_scope.

(** compact_bonsai_nlm.hpp:61-65 and :257-262, compact_fkhash_nlm.hpp:67-71: the offset reached after
    skipping [n] entries. *)
Definition skip_entries (blk : list N) (n : N) : outcome N :=
  for_range 0 n (fun _ off =>
    let* d := vbyte_decode (skipn (N.to_nat off) blk) in
    Ret (off + snd d + fst d)) 0.

(** compact_bonsai_nlm.hpp:73-83, compact_fkhash_nlm.hpp:81-91: [length] remaining bytes of the label,
    [i] the index; (equal, index).  Reading [key] or the buffer past its end is undefined. *)
Fixpoint label_cmp (key blk : list N) (length i : N) : outcome (bool * N) :=
  match key with
  | [] => UB
  | k :: key =>
      if length =? 0 then Ret (k =? 0, i)
      else match blk with
           | [] => UB
           | x :: blk => if k =? x then label_cmp key blk (length - 1) (i + 1) else Ret (false, i)
           end
  end.
(** compact_bonsai_nlm.hpp:61-84, compact_fkhash_nlm.hpp:67-93: comparing [key] with entry number [skip] of a
    buffer; [chk] says whether the assertion of compact_fkhash_nlm.hpp:78 is present. *)
Definition entry_compare (chk : bool) (vs : nat) (id : N) (blk : list N) (skip : N) (key : list N)
  : outcome (option ptr * N) :=
  let* off := skip_entries blk skip in
  let* d := vbyte_decode (skipn (N.to_nat off) blk) in
  let off := off + snd d in
  let alloc := fst d in
  match key with
  | [] => Ret (Some (id, off), 0)
  | _ =>
      let* _ := assert_ (negb chk || (N.of_nat vs <=? alloc)) in
      let length := sub64 alloc (N.of_nat vs) in
      let* r := label_cmp key (skipn (N.to_nat off) blk) length 0 in
      if fst r then Ret (Some (id, off + length), length + 1) else Ret (None, snd r)
  end.
(** compact_bonsai_nlm.hpp:101 and :123, compact_fkhash_nlm.hpp:106: the bytes of a key that are stored *)
Definition stored_label (key : list N) : list N := firstn (length key - 1) key.

(** ** compact_bonsai_nlm.hpp *)
(** compact_bonsai_nlm.hpp:213-216 *)
Record cbn := mkCBN { cbn_ptrs : vec (option N); cbn_chunks : vec N; cbn_size : N; cbn_bytes : N; cbn_heap : heap }.
(** compact_bonsai_nlm.hpp:45 *)
Definition cbn_default : cbn := mkCBN (vnew 0 None) (vnew 0 0) 0 0 hp_empty.
(** compact_bonsai_nlm.hpp:47 *)
Definition cbn_new (cs capa_bits : N) : outcome cbn :=
  if capa_bits <? 64 then
    let len := shl 1 capa_bits / cs in
    Ret (mkCBN (vnew len None) (vnew len 0) 0 0 hp_empty)
  else UB.
(** compact_bonsai_nlm.hpp:51-84 *)
Definition cbn_compare (cs : N) (vs : nat) (n : cbn) (pos : N) (key : list N) : outcome (option ptr * N) :=
  let '(chunk_id, pos_in_chunk) := decompose_value cs pos in
  let* p := vget (cbn_ptrs n) chunk_id in
  match p with
  | None => AssertFail
  | Some id =>
      let* c := vget (cbn_chunks n) chunk_id in
      let* bit := get_bit cs c pos_in_chunk in
      let* _ := assert_ bit in
      let* offset := popcnt_masked cs c pos_in_chunk in
      let* blk := hp_block (cbn_heap n) id in
      entry_compare false vs id blk offset key
  end.
(** compact_bonsai_nlm.hpp:222-246; [c] is the chunk word after the bit was set.  [len += vbyte::decode(ptr, len)] adds
    the bytes read to the value decoded: C++17 evaluates the right operand of a compound assignment first. *)
Definition get_allocs (cs c : N) (blk : list N) (pos_in_chunk : N) : outcome (N * N) :=
  let* bit := get_bit cs c pos_in_chunk in
  let* _ := assert_ bit in
  let* num := popcnt cs c in
  let* offset := popcnt_masked cs c pos_in_chunk in
  let* st := for_range 0 (sub64 num 1) (fun i st =>
    let '(off, front, back) := st in
    let* d := vbyte_decode (skipn (N.to_nat off) blk) in
    let len := fst d + snd d in
    if i <? offset then Ret (off + len, front + len, back) else Ret (off + len, front, back + len)) (0, 0, 0) in
  let '(_, front, back) := st in Ret (front, back).
(** compact_bonsai_nlm.hpp:119-146 and :283-300: a new buffer with [bytes] (of announced size [alloc])
    between the front and the back part of the old one, which is released. *)
Definition splice (cs c : N) (ptrs : vec (option N)) (h : heap) (chunk_id pos_in_chunk : N) (id alloc : N)
    (bytes : list N) : outcome (N * N * vec (option N) * heap) :=
  let* blk := hp_block h id in
  let* fr := get_allocs cs c blk pos_in_chunk in
  let '(front, back) := fr in
  let* a := slice blk 0 front in
  let* b := slice blk front back in
  let* new := fill (front + alloc + back) (a ++ bytes ++ b) in
  let '(nid, h) := hp_alloc h new in
  let* ptrs := vset ptrs chunk_id (Some nid) in
  let* h := hp_delete h (Some id) in
  Ret (nid, front, ptrs, h).
(** compact_bonsai_nlm.hpp:86-148 *)
Definition cbn_insert (cs : N) (vs : nat) (n : cbn) (pos : N) (key : list N) : outcome (ptr * cbn) :=
  let '(chunk_id, pos_in_chunk) := decompose_value cs pos in
  let* c := vget (cbn_chunks n) chunk_id in
  let* bit := get_bit cs c pos_in_chunk in
  let* _ := assert_ (negb bit) in
  let* c := set_bit cs c pos_in_chunk true in
  let* chunks := vset (cbn_chunks n) chunk_id c in
  let size := add64 (cbn_size n) 1 in
  let label := stored_label key in
  let length := N.of_nat (length label) in
  let* vsz := vbyte_size (add64 length (N.of_nat vs)) in
  let* code := vbyte_encode (add64 length (N.of_nat vs)) in
  let new_alloc := vsz + length + N.of_nat vs in
  let label_bytes := add64 (cbn_bytes n) new_alloc in
  let bytes := code ++ label ++ zeros vs in
  let voff := N.of_nat (List.length code) + length in
  let* p := vget (cbn_ptrs n) chunk_id in
  match p with
  | None =>
      let* blk := fill new_alloc bytes in
      let '(id, h) := hp_alloc (cbn_heap n) blk in
      let* ptrs := vset (cbn_ptrs n) chunk_id (Some id) in
      Ret ((id, voff), mkCBN ptrs chunks size label_bytes h)
  | Some id =>
      let* r := splice cs c (cbn_ptrs n) (cbn_heap n) chunk_id pos_in_chunk id new_alloc bytes in
      let '(nid, front, ptrs, h) := r in
      Ret ((nid, front + voff), mkCBN ptrs chunks size label_bytes h)
  end.
(** compact_bonsai_nlm.hpp:248-268; the bytes of the range, empty for the null range *)
Definition get_slice (cs c : N) (p : option N) (h : heap) (pos_in_chunk : N) : outcome (list N) :=
  let* bit := get_bit cs c pos_in_chunk in
  if negb bit then Ret []
  else
    match p with
    | None => AssertFail
    | Some id =>
        let* offset := popcnt_masked cs c pos_in_chunk in
        let* blk := hp_block h id in
        let* off := skip_entries blk offset in
        let* d := vbyte_decode (skipn (N.to_nat off) blk) in
        slice blk off (snd d + fst d)
    end.
(** compact_bonsai_nlm.hpp:270-301 *)
Definition set_slice (cs : N) (ptrs : vec (option N)) (chunks : vec N) (h : heap) (chunk_id pos_in_chunk : N)
    (new_slice : list N) : outcome (vec (option N) * vec N * heap) :=
  let* c := vget chunks chunk_id in
  let* bit := get_bit cs c pos_in_chunk in
  let* _ := assert_ (negb bit) in
  let* c := set_bit cs c pos_in_chunk true in
  let* chunks := vset chunks chunk_id c in
  let* p := vget ptrs chunk_id in
  match p with
  | None =>
      let* blk := fill (N.of_nat (length new_slice)) new_slice in
      let '(id, h) := hp_alloc h blk in
      let* ptrs := vset ptrs chunk_id (Some id) in
      Ret (ptrs, chunks, h)
  | Some id =>
      let* r := splice cs c ptrs h chunk_id pos_in_chunk id (N.of_nat (length new_slice)) new_slice in
      let '(_, _, ptrs, h) := r in Ret (ptrs, chunks, h)
  end.
(** compact_bonsai_nlm.hpp:151-176; the move assignment of line 175 releases the old buffers *)
Definition cbn_expand (cs : N) (n : cbn) (pos_map : node_map) : outcome cbn :=
  let* bits := ceil_log2 (mul64 (mul64 (vlen (cbn_ptrs n)) cs) 2) in
  let* new_ls := cbn_new cs bits in
  let* st :=
    for_range 0 (nm_size pos_map) (fun pos st =>
      let '(ptrs, nptrs, nchunks, h) := st in
      let '(chunk_id, pos_in_chunk) := decompose_value cs pos in
      let* new_pos := nm_get pos_map pos in
      let* st :=
        (if negb (new_pos =? UINT64_MAX) then
           let* c := vget (cbn_chunks n) chunk_id in
           let* p := vget ptrs chunk_id in
           let* sl := get_slice cs c p h pos_in_chunk in
           match sl with
           | [] => Ret (nptrs, nchunks, h)
           | _ => let '(new_chunk_id, new_pos_in_chunk) := decompose_value cs new_pos in
                  set_slice cs nptrs nchunks h new_chunk_id new_pos_in_chunk sl
           end
         else Ret (nptrs, nchunks, h)) in
      let '(nptrs, nchunks, h) := st in
      if pos_in_chunk =? cs - 1 then
        let* p := vget ptrs chunk_id in
        let* ptrs := vset ptrs chunk_id None in
        let* h := hp_delete h p in
        Ret (ptrs, nptrs, nchunks, h)
      else Ret (ptrs, nptrs, nchunks, h))
      (cbn_ptrs n, cbn_ptrs new_ls, cbn_chunks new_ls, cbn_heap n) in
  let '(ptrs, nptrs, nchunks, h) := st in
  let* h := free_all ptrs h in
  Ret (mkCBN nptrs nchunks (cbn_size n) (cbn_bytes n) h).

Definition cbn_ops (cs : N) (vs : nat) : nlm_ops := {|
  nT := cbn; n_vs := vs; n_default := cbn_default; n_new := cbn_new cs; n_heap := cbn_heap;
  n_set_heap := fun n h => mkCBN (cbn_ptrs n) (cbn_chunks n) (cbn_size n) (cbn_bytes n) h;
  n_compare := cbn_compare cs vs; n_insert := cbn_insert cs vs; n_expand := cbn_expand cs;
  n_append := fun _ _ => UB; n_append_dummy := fun _ => UB; n_size := cbn_size |}.

(** ** compact_fkhash_nlm.hpp *)
(** compact_fkhash_nlm.hpp:160-163.  [chunk_buf_] is a std::vector: its storage is a heap block that is
    replaced by every append (whether an append reallocates depends on the capacity, which is not
    modelled: no pointer into it is relied upon after an append); [None]: nothing stored yet. *)
Record cfn := mkCFN { cfn_ptrs : vec (option N); cfn_buf : option N; cfn_size : N; cfn_bytes : N; cfn_heap : heap }.
(** compact_fkhash_nlm.hpp:45 *)
Definition cfn_default : cfn := mkCFN (vnew 0 None) None 0 0 hp_empty.
(** compact_fkhash_nlm.hpp:47-50; reserve has no visible effect *)
Definition cfn_new (capa_bits : N) : outcome cfn :=
  if capa_bits <? 64 then Ret cfn_default else UB.
(** The contents of [chunk_buf_]. *)
Definition buf_bytes (n : cfn) : outcome (list N) :=
  match cfn_buf n with Some id => hp_block (cfn_heap n) id | None => Ret [] end.
(** compact_fkhash_nlm.hpp:54-93 *)
Definition cfn_compare (cs : N) (vs : nat) (n : cfn) (pos : N) (key : list N) : outcome (option ptr * N) :=
  let* _ := assert_ (pos <? cfn_size n) in
  let '(chunk_id, pos_in_chunk) := decompose_value cs pos in
  let* p := (if chunk_id <? vlen (cfn_ptrs n) then vget (cfn_ptrs n) chunk_id
             else let* _ := assert_ (chunk_id =? vlen (cfn_ptrs n)) in Ret (cfn_buf n)) in
  match p with
  | None => UB
  | Some id => let* blk := hp_block (cfn_heap n) id in entry_compare true vs id blk pos_in_chunk key
  end.
(** compact_fkhash_nlm.hpp:170-176 *)
Definition release_buf (n : cfn) : outcome cfn :=
  let* buf := buf_bytes n in
  let bytes := add64 (cfn_bytes n) (N.of_nat (length buf)) in
  let* blk := fill (N.of_nat (length buf)) buf in
  let '(id, h) := hp_alloc (cfn_heap n) blk in
  let* h := hp_delete h (cfn_buf n) in
  Ret (mkCFN (vpush (cfn_ptrs n) (Some id)) None (cfn_size n) bytes h).
(** compact_fkhash_nlm.hpp:96-99, :118-121 *)
Definition next_slot (cs : N) (n : cfn) : outcome cfn :=
  let '(chunk_id, pos_in_chunk) := decompose_value cs (cfn_size n) in
  let n := mkCFN (cfn_ptrs n) (cfn_buf n) (add64 (cfn_size n) 1) (cfn_bytes n) (cfn_heap n) in
  if negb (chunk_id =? 0) && (pos_in_chunk =? 0) then release_buf n else Ret n.
(** Replacing the contents of [chunk_buf_] *)
Definition set_buf (n : cfn) (bytes : list N) : outcome (N * cfn) :=
  let '(id, h) := hp_alloc (cfn_heap n) bytes in
  let* h := hp_delete h (cfn_buf n) in
  Ret (id, mkCFN (cfn_ptrs n) (Some id) (cfn_size n) (cfn_bytes n) h).
(** compact_fkhash_nlm.hpp:95-114 *)
Definition cfn_append (cs : N) (vs : nat) (n : cfn) (key : list N) : outcome (ptr * cfn) :=
  let* n := next_slot cs n in
  let label := stored_label key in
  let* buf := buf_bytes n in
  let* r := vbyte_append buf (add64 (N.of_nat (length label)) (N.of_nat vs)) in
  let bytes := fst r ++ label ++ zeros vs in
  let* w := set_buf n bytes in
  let '(id, n) := w in
  Ret ((id, N.of_nat (length bytes) - N.of_nat vs), n).
(** compact_fkhash_nlm.hpp:117-124 *)
Definition cfn_append_dummy (cs : N) (n : cfn) : outcome cfn :=
  let* n := next_slot cs n in
  let* buf := buf_bytes n in
  let* r := vbyte_append buf 0 in
  let* w := set_buf n (fst r) in
  Ret (snd w).

Definition cfn_ops (cs : N) (vs : nat) : nlm_ops := {|
  nT := cfn; n_vs := vs; n_default := cfn_default; n_new := cfn_new; n_heap := cfn_heap;
  n_set_heap := fun n h => mkCFN (cfn_ptrs n) (cfn_buf n) (cfn_size n) (cfn_bytes n) h;
  n_compare := cfn_compare cs vs; n_insert := fun _ _ _ => UB; n_expand := fun _ _ => UB;
  n_append := cfn_append cs vs; n_append_dummy := cfn_append_dummy cs; n_size := cfn_size |}.
