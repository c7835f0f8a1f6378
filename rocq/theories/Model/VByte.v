(** Model of include/poplar/vbyte.hpp.  Byte buffers are lists of bytes. *)
From Verif.Model Require Export Base.
Local Open Scope N_scope.

(** vbyte.hpp:33-40 [size] *)
Definition vbyte_size (val : N) : outcome N :=
  loop (fun st : N * N =>
          let '(n, val) := st in
          if 127 <? val then Ret (inl (n + 1, shr val 7)) else Ret (inr n)) (1, val).

(** vbyte.hpp:52-60 [encode]: the bytes written from [codes] on, in order; their number is the
    result of the C++ function. *)
Definition vbyte_encode (val : N) : outcome (list N) :=
  loop (fun st : list N * N =>
          let '(out, val) := st in
          if 127 <? val then
            Ret (inl (out ++ [N.lor (N.land val 127) 0x80], shr val 7))
          else Ret (inr (out ++ [N.land val 127]))) ([], val).

(** vbyte.hpp:42-50 [append]: the extended vector and the number of bytes appended. *)
Definition vbyte_append (buf : list N) (val : N) : outcome (list N * N) :=
  let* out := loop (fun st : list N * N =>
          let '(out, val) := st in
          if 127 <? val then
            Ret (inl (out ++ [N.lor (N.land val 127) 0x80], shr val 7))
          else Ret (inr (out ++ [N.land val 127]))) (buf, val) in
  Ret (out, N.of_nat (length out) - N.of_nat (length buf)).

(** vbyte.hpp:62-71 [decode]: (value, bytes read).  Reading past the buffer and shifting by 64
    or more are undefined. *)
Fixpoint vbyte_decode_ (codes : list N) (val i shift : N) : outcome (N * N) :=
  match codes with
  | [] => UB
  | c :: codes' =>
      if 64 <=? shift then UB
      else
        let val' := N.lor val (shl (N.land c 127) shift) in
        if N.land c 0x80 =? 0 then Ret (val', i + 1)
        else vbyte_decode_ codes' val' (i + 1) (shift + 7)
  end.
Definition vbyte_decode (codes : list N) : outcome (N * N) := vbyte_decode_ codes 0 0 0.
