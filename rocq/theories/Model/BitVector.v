(** Model of include/poplar/bit_vector.hpp. *)
From Verif.Model Require Export BitTools.
Local Open Scope N_scope.

(** bit_vector.hpp:113-115 (fields) *)
Record bit_vector := mkBV { bv_chunks : vec N; bv_size : N }.

(** bit_vector.hpp:35 *)
Definition bv_default : bit_vector := mkBV (vnew 0 0) 0.

(** bit_vector.hpp:37-40 *)
Definition bv_new (size : N) : bit_vector := mkBV (vnew (words_for size) 0) size.

(** bit_vector.hpp:51-54 *)
Definition bv_get (bv : bit_vector) (i : N) : outcome bool :=
  let* _ := assert_ (i <? bv_size bv) in
  let* c := vget (bv_chunks bv) (i / 64) in
  get_bit 64 c (i mod 64).

(** bit_vector.hpp:55-58 *)
Definition bv_set (bv : bit_vector) (i : N) (bit : bool) : outcome bit_vector :=
  let* _ := assert_ (i <? bv_size bv) in
  let* c := vget (bv_chunks bv) (i / 64) in
  let* c' := set_bit 64 c (i mod 64) bit in
  let* ch := vset (bv_chunks bv) (i / 64) c' in
  Ret (mkBV ch (bv_size bv)).

(** bit_vector.hpp:60-73; [1ULL << len] is undefined for [len >= 64], also for len = 64 where
    the code meant to special-case it ([-(len == 64)] is all ones then). *)
Definition bv_get_bits (bv : bit_vector) (pos len : N) : outcome N :=
  let* _ := assert_ (pos + len <=? bv_size bv) in
  if len =? 0 then Ret 0 else
  let chunk_id := pos / 64 in
  let pos_in_chunk := pos mod 64 in
  if 64 <=? len then UB else
  let mask := sub64 (shl 1 len) 1 in
  if pos_in_chunk + len <=? 64 then
    let* c := vget (bv_chunks bv) chunk_id in
    Ret (N.land (shr c pos_in_chunk) mask)
  else
    let* c := vget (bv_chunks bv) chunk_id in
    let* c' := vget (bv_chunks bv) (chunk_id + 1) in
    Ret (N.lor (shr c pos_in_chunk) (N.land (shl c' (64 - pos_in_chunk)) mask)).

(** [chunks_.back() |= x]; undefined on an empty vector. *)
Definition vback_or (v : vec N) (x : N) : outcome (vec N) :=
  if vlen v =? 0 then UB
  else let* c := vget v (vlen v - 1) in vset v (vlen v - 1) (N.lor c x).

(** bit_vector.hpp:75-82 *)
Definition bv_append_bit (bv : bit_vector) (bit : bool) : outcome bit_vector :=
  let pos_in_chunk := bv_size bv mod 64 in
  let ch := if pos_in_chunk =? 0 then vpush (bv_chunks bv) 0 else bv_chunks bv in
  let* ch := vback_or ch (shl (b2n bit) pos_in_chunk) in
  Ret (mkBV ch (bv_size bv + 1)).

(** bit_vector.hpp:83-100; shifting by more than 64 in the assertion is undefined. *)
Definition bv_append_bits (bv : bit_vector) (bits len : N) : outcome bit_vector :=
  let* _ := (if len =? 64 then Ret tt
             else if 64 <? len then UB else assert_ (shr bits len =? 0)) in
  if len =? 0 then Ret bv else
  let pos_in_chunk := bv_size bv mod 64 in
  if pos_in_chunk =? 0 then
    Ret (mkBV (vpush (bv_chunks bv) bits) (bv_size bv + len))
  else
    let* ch := vback_or (bv_chunks bv) (shl bits pos_in_chunk) in
    let ch := if 64 - pos_in_chunk <? len
              then vpush ch (shr bits (64 - pos_in_chunk)) else ch in
    Ret (mkBV ch (bv_size bv + len)).
