(** Calling a map with std::string and const char* keys. *)
From Verif.Model Require Export Instances.
From Verif.Props Require Export StringSpec.
Local Open Scope N_scope.

(** The argument of the char_range overloads: [m.find(s)]/[m.update(s)] with a std::string (map.hpp:72-74, :118-120)
    pass [make_char_range(s)], a caller with a C string passes [make_char_range(p)]. *)
Definition range_of (t : text) : outcome (list N) :=
  match t with Str s => Ret (range_of_string s) | CStr buf => range_of_cstring buf end.
(** One call and its effects, as [api_step]. *)
Definition i_text_step (dbg : bool) (vs : nat) (i : inst) (m : i_map dbg vs i) (o : sop)
  : outcome ((obs * N) * i_map dbg vs i) :=
  match o with
  | SUpdate t w => let* k := range_of t in api_step dbg _ _ m (Update k w)
  | SFind t => let* k := range_of t in api_step dbg _ _ m (Find k)
  end.
Fixpoint i_text_run (dbg : bool) (vs : nat) (i : inst) (m : i_map dbg vs i) (ops : list sop)
  : outcome (list (obs * N) * i_map dbg vs i) :=
  match ops with
  | [] => Ret ([], m)
  | o :: ops =>
      let* r := i_text_step dbg vs i m o in
      let '(x, m) := r in
      let* r := i_text_run dbg vs i m ops in
      let '(xs, m) := r in Ret (x :: xs, m)
  end.
