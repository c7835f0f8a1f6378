(** Model of the __SSE4_2__ branches of include/poplar/bit_tools.hpp. *)
From Verif.Model Require Export BitTools.
Local Open Scope N_scope.

(** The compiler's builtins, after their documentation (GCC manual, "Other Builtins"): the number of 1-bits;
    the number of trailing 0-bits and of leading 0-bits of an unsigned long long, both undefined for 0. *)
Fixpoint pos_popcount (p : positive) : N :=
  match p with xH => 1 | xO p => pos_popcount p | xI p => 1 + pos_popcount p end.
Definition builtin_popcount (x : N) : N := match x with N0 => 0 | Npos p => pos_popcount p end.
Fixpoint pos_ctz (p : positive) : N :=
  match p with xO p => 1 + pos_ctz p | _ => 0 end.
Definition builtin_ctzll (x : N) : outcome N := match x with N0 => UB | Npos p => Ret (pos_ctz p) end.
Definition builtin_clzll (x : N) : outcome N := match x with N0 => UB | Npos p => Ret (64 - N.pos (Pos.size p)) end.

(** bit_tools.hpp:97-124: the overloads for 8 and 16 bits have no SSE4.2 branch; :104-105 and :115-116 *)
Definition popcnt_sse (w x : N) : outcome N :=
  if w =? 8 then popcnt8 x
  else if w =? 16 then popcnt16 x
  else Ret (builtin_popcount x).
(** bit_tools.hpp:127-142: masked popcount *)
Definition popcnt_masked_sse (w x i : N) : outcome N :=
  let* _ := assert_ (i <? w) in
  popcnt_sse w (N.land x (sub64 (shl 1 i) 1)).
(** bit_tools.hpp:227-239 [select] *)
Definition select_sse (x i : N) : outcome N :=
  let* _ := assert_ (negb (i =? 0)) in
  let s := x in
  let s := sub64 s (N.land (shr s 1) 0x5555555555555555) in
  let s := add64 (N.land s 0x3333333333333333) (N.land (shr s 2) 0x3333333333333333) in
  let s := N.land (add64 s (shr s 4)) 0x0F0F0F0F0F0F0F0F in
  let s := mul64 0x0101010101010101 s in
  let* o := tget PS_OVERFLOW i in
  let b := N.land (add64 s o) 0x8080808080808080 in
  let* z := builtin_ctzll b in
  let byte_nr := shr z 3 in
  let s := shl s 8 in
  let i := sub64 i (N.land (shr s (shl byte_nr 3)) 0xFF) in
  let* r := tget LT_SEL (add64 (shl (sub64 i 1) 8) (N.land (shr x (shl byte_nr 3)) 0xFF)) in
  Ret (shl byte_nr 3 + r).
(** bit_tools.hpp:285-287 [msb] *)
Definition msb_sse (x : N) : outcome N :=
  if x =? 0 then Ret 0 else let* z := builtin_clzll x in Ret (63 - z).
(** bit_tools.hpp:328-330 *)
Definition ceil_log2_sse (x : N) : outcome N :=
  if 1 <? x then let* r := msb_sse (x - 1) in Ret (r + 1) else Ret 0.
