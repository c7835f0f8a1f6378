(** Where the value of a key lies in its memory block (AlignProps.v). *)
From Verif.Model Require Export Aliases.
Local Open Scope N_scope.

(** Bytes of the variable-byte code of [n] (7 bits per byte). *)
Definition vbytes (n : N) : N := 1 + N.log2 n / 7.
(** Offset of the value behind a key in its block: a plain store keeps the key with its NUL, a compact store the
    size of the entry and the key without it. *)
Definition value_offset (a : alias) (vs : nat) (k : list N) : N :=
  match a with
  | plain_bonsai_map | plain_fkhash_map => N.of_nat (length k)
  | _ => let n := N.of_nat (length k) - 1 in vbytes (n + N.of_nat vs) + n
  end.

