(** Keys given as C++ strings (C51). *)
From Verif.Props Require Export InstSpec.
Local Open Scope N_scope.

(** A key as the caller has it: a std::string with the bytes [s], or a [const char*] to the memory [buf] (of which the
    string is the part before the first NUL). *)
Inductive text := Str (s : list N) | CStr (buf : list N).
Fixpoint before_nul (buf : list N) : list N :=
  match buf with [] => [] | 0 :: _ => [] | c :: buf => c :: before_nul buf end.
Definition string_of (t : text) : list N := match t with Str s => s | CStr buf => before_nul buf end.
(** A std::string without NULs; a terminated C string. *)
Definition valid_text (t : text) : Prop :=
  match t with Str s => Forall (fun c => 0 < c < 256) s | CStr buf => Forall (fun c => c < 256) buf /\ In 0 buf end.

(** Histories of find and update with such keys, and the same history over their strings: the dictionary of
    MapSpec.v does not look into its keys. *)
Inductive sop := SUpdate (t : text) (w : option (list N)) | SFind (t : text).
Definition plain_op (o : sop) : op :=
  match o with SUpdate t w => Update (string_of t) w | SFind t => Find (string_of t) end.
Definition valid_sop (vs : nat) (o : sop) : Prop :=
  match o with
  | SUpdate t w => valid_text t /\ N.of_nat (length (string_of t)) + 1 + N.of_nat vs < 2 ^ 64 /\
      match w with Some w => length w = vs | None => True end
  | SFind t => valid_text t /\ N.of_nat (length (string_of t)) + 1 < 2 ^ 64
  end.
(** The strings passed to update, as keys with their terminator (which counts for nodes_for and alphabet). *)
Definition supdated (ops : list sop) : list (list N) :=
  map (fun s => s ++ [0]) (updated (map plain_op ops)).
