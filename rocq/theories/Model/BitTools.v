(** Model of include/poplar/bit_tools.hpp (the portable code, i.e. without __SSE4_2__). *)
From Verif.Model Require Export Base Tables.
Local Open Scope N_scope.

(** Indexing a constant array; out of range is undefined. *)
Definition tget (l : list N) (i : N) : outcome N :=
  match nth_error l (N.to_nat i) with Some x => Ret x | None => UB end.

(** bit_tools.hpp:36-51 [get_bit] for the four widths [w] in 8, 16, 32, 64
    (the first three shift [1U], the last [1ULL]; [i < w] keeps both in range). *)
Definition get_bit (w x i : N) : outcome bool :=
  let* _ := assert_ (i <? w) in
  Ret (negb (N.land x (shl 1 i) =? 0)).

(** bit_tools.hpp:54-85 [set_bit] for the four widths. *)
Definition set_bit (w x i : N) (bit : bool) : outcome N :=
  let* _ := assert_ (i <? w) in
  Ret (if bit then N.lor x (shl 1 i) else N.land x (not64 (shl 1 i))).

(** bit_tools.hpp:97-99 *)
Definition popcnt8 (x : N) : outcome N := tget POPCNT_TABLE x.
(** bit_tools.hpp:100-102 *)
Definition popcnt16 (x : N) : outcome N :=
  let* a := tget POPCNT_TABLE (N.land x 0xFF) in
  let* b := tget POPCNT_TABLE (shr x 8) in
  Ret (a + b).
(** bit_tools.hpp:103-113; uint32_t arithmetic wraps at 2^32. *)
Definition w32 (x : N) : N := N.land x 0xFFFFFFFF.
Definition popcnt32 (x : N) : N :=
  let x := w32 (N.land x 0x55555555 + shr (N.land x 0xAAAAAAAA) 1) in
  let x := w32 (N.land x 0x33333333 + shr (N.land x 0xCCCCCCCC) 2) in
  let x := w32 (N.land x 0x0F0F0F0F + shr (N.land x 0xF0F0F0F0) 4) in
  let x := w32 (x * 0x01010101) in
  shr x 24.
(** bit_tools.hpp:114-124 *)
Definition popcnt64 (x : N) : N :=
  let x := add64 (N.land x 0x5555555555555555) (shr (N.land x 0xAAAAAAAAAAAAAAAA) 1) in
  let x := add64 (N.land x 0x3333333333333333) (shr (N.land x 0xCCCCCCCCCCCCCCCC) 2) in
  let x := add64 (N.land x 0x0F0F0F0F0F0F0F0F) (shr (N.land x 0xF0F0F0F0F0F0F0F0) 4) in
  let x := mul64 x 0x0101010101010101 in
  shr x 56.

(** The unmasked popcount chosen by overload resolution for an integer of [w] bits. *)
Definition popcnt (w x : N) : outcome N :=
  if w =? 8 then popcnt8 x
  else if w =? 16 then popcnt16 x
  else if w =? 32 then Ret (popcnt32 x)
  else Ret (popcnt64 x).

(** bit_tools.hpp:127-142 masked popcount for the four widths. *)
Definition popcnt_masked (w x i : N) : outcome N :=
  let* _ := assert_ (i <? w) in
  popcnt w (N.land x (sub64 (shl 1 i) 1)).

(** bit_tools.hpp:227-273 [select], portable branch. *)
Definition bit_on (b m : N) : bool := negb (N.land b m =? 0).
Definition select (x i : N) : outcome N :=
  let* _ := assert_ (negb (i =? 0)) in
  let s := x in
  let s := sub64 s (N.land (shr s 1) 0x5555555555555555) in
  let s := add64 (N.land s 0x3333333333333333) (N.land (shr s 2) 0x3333333333333333) in
  let s := N.land (add64 s (shr s 4)) 0x0F0F0F0F0F0F0F0F in
  let s := mul64 0x0101010101010101 s in
  let* o := tget PS_OVERFLOW i in
  let b := add64 s o in
  let i := shl (sub64 i 1) 8 in
  let idx (sh m : N) :=
    N.land (sub64 (add64 (N.land (shr x sh) 0xFF) i) m) 0x7FF in
  if bit_on b 0x0000000080000000 then
    if bit_on b 0x0000000000008000 then
      if bit_on b 0x0000000000000080 then
        tget LT_SEL (add64 (N.land x 0xFF) i)
      else
        let* r := tget LT_SEL (idx 8 (shl (N.land s 0xFF) 8)) in Ret (8 + r)
    else
      if bit_on b 0x0000000000800000 then
        let* r := tget LT_SEL (idx 16 (N.land s 0xFF00)) in Ret (16 + r)
      else
        let* r := tget LT_SEL (idx 24 (N.land (shr s 8) 0xFF00)) in Ret (24 + r)
  else
    if bit_on b 0x0000800000000000 then
      if bit_on b 0x0000008000000000 then
        let* r := tget LT_SEL (idx 32 (N.land (shr s 16) 0xFF00)) in Ret (32 + r)
      else
        let* r := tget LT_SEL (idx 40 (N.land (shr s 24) 0xFF00)) in Ret (40 + r)
    else
      if bit_on b 0x0080000000000000 then
        let* r := tget LT_SEL (idx 48 (N.land (shr s 32) 0xFF00)) in Ret (48 + r)
      else
        let* r := tget LT_SEL (idx 56 (N.land (shr s 40) 0xFF00)) in Ret (56 + r).

(** bit_tools.hpp:285-326 [msb], portable branch. *)
Definition msb (x : N) : outcome N :=
  let x1 := shr x 32 in
  if 0 <? x1 then
    let x2 := shr x1 16 in
    if 0 <? x2 then
      let x1 := shr x2 8 in
      if 0 <? x1 then let* r := tget MSB_TABLE x1 in Ret (r + 56)
      else let* r := tget MSB_TABLE x2 in Ret (r + 48)
    else
      let x2 := shr x1 8 in
      if 0 <? x2 then let* r := tget MSB_TABLE x2 in Ret (r + 40)
      else let* r := tget MSB_TABLE x1 in Ret (r + 32)
  else
    let x2 := shr x 16 in
    if 0 <? x2 then
      let x1 := shr x2 8 in
      if 0 <? x1 then let* r := tget MSB_TABLE x1 in Ret (r + 24)
      else let* r := tget MSB_TABLE x2 in Ret (r + 16)
    else
      let x1 := shr x 8 in
      if 0 <? x1 then let* r := tget MSB_TABLE x1 in Ret (r + 8)
      else tget MSB_TABLE x.

(** bit_tools.hpp:328-330 [ceil_log2] *)
Definition ceil_log2 (x : N) : outcome N :=
  if 1 <? x then let* r := msb (x - 1) in Ret (r + 1) else Ret 0.

(** bit_tools.hpp:332-336 [words_for<uint64_t>]; the addition wraps. *)
Definition words_for (bits : N) : N := sub64 (add64 bits 64) 1 / 64.
