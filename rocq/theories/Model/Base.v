(** Base of the model: outcomes of C++ code, 64-bit words, loops, std::vector. *)
From Coq Require Export NArith ZArith Lia List Bool.
From Coq Require Export FMapPositive.
From stdpp Require Export base list numbers option gmap.
Export ListNotations.
Local Open Scope N_scope.

(** The exceptions thrown by the library.  Each models one [POPLAR_THROW_IF]
    (include/poplar/exception.hpp:46-47); the constructor stands for its message. *)
Inductive exn :=
  | ExLambda          (* map.hpp:57   "lambda must be a power of 2." *)
  | ExEmptyKey        (* map.hpp:76,122  "key must be a non-empty string." *)
  | ExNotTerminated   (* map.hpp:77,123  "The last character of key must be the null terminator." *)
  | ExCodes           (* map.hpp:171  UINT8_MAX == num_codes_ *)
  | ExWidth           (* compact_vector.hpp:39 "width overflow." *)
  | ExCloneNotEmpty   (* compact_hash_table.hpp:160 *)
  | ExCloneSmall.     (* compact_hash_table.hpp:161 *)

(** Outcome of running a piece of C++ code.
    [UB]: out-of-bounds access, null dereference, shift by >= 64.
    [AssertFail]: an [assert] fails (debug builds abort; NDEBUG builds continue in an
    unintended state, so theorems must exclude it).
    [Diverge]: a loop made 2^64 iterations without leaving. *)
Inductive outcome (A : Type) :=
  | Ret (a : A) | Throw (e : exn) | UB | AssertFail | Diverge.
Arguments Ret {A} a.
Arguments Throw {A} e.
Arguments UB {A}.
Arguments AssertFail {A}.
Arguments Diverge {A}.

Definition bind {A B} (m : outcome A) (f : A -> outcome B) : outcome B :=
  match m with
  | Ret a => f a
  | Throw e => Throw e
  | UB => UB
  | AssertFail => AssertFail
  | Diverge => Diverge
  end.

Notation "'let*' p := m 'in' k" := (bind m (fun p => k))
  (at level 200, p name, m at level 100, k at level 200, only parsing).
Notation "'let*' ' p := m 'in' k" := (bind m (fun p => k))
  (at level 200, p pattern, m at level 100, k at level 200, only parsing).

(** [assert(c)] *)
Definition assert_ (c : bool) : outcome unit := if c then Ret tt else AssertFail.
(** [assert(c)] in a build where assertions are active only if [dbg]. *)
Definition assert_dbg (dbg c : bool) : outcome unit :=
  if dbg then assert_ c else Ret tt.
Definition throw_if (c : bool) (e : exn) : outcome unit := if c then Throw e else Ret tt.

(** ** Loops.  [loop step s] iterates [step] until it returns [inr]; the fuel is 2^64
    iterations, consumed in binary so that the model can be executed. *)
Fixpoint ploop {S R} (p : positive) (f : S -> outcome (S + R)) (s : S) : outcome (S + R) :=
  match p with
  | xH => f s
  | xO q => match ploop q f s with
            | Ret (inl s') => ploop q f s'
            | r => r
            end
  | xI q => match f s with
            | Ret (inl s1) =>
                match ploop q f s1 with
                | Ret (inl s2) => ploop q f s2
                | r => r
                end
            | r => r
            end
  end.

Definition fuel64 : positive := 18446744073709551616%positive.

Definition loop {S R} (f : S -> outcome (S + R)) (s : S) : outcome R :=
  match ploop fuel64 f s with
  | Ret (inr r) => Ret r
  | Ret (inl _) => Diverge
  | Throw e => Throw e
  | UB => UB
  | AssertFail => AssertFail
  | Diverge => Diverge
  end.

(** [for (uint64_t i = a; i < b; ++i) body] threading a state. *)
Definition for_range {S} (a b : N) (body : N -> S -> outcome S) (s : S) : outcome S :=
  loop (fun st : N * S =>
          let '(i, s) := st in
          if i <? b then let* s' := body i s in Ret (inl (i + 1, s'))
          else Ret (inr s)) (a, s).

(** ** 64-bit words as [N] with explicit wrap-around. *)
Definition UINT64_MAX : N := 18446744073709551615.
Definition w64 (x : N) : N := N.land x UINT64_MAX.
Definition shl (a n : N) : N := w64 (N.shiftl a n).
Definition shr (a n : N) : N := N.shiftr a n.
Definition add64 (a b : N) : N := w64 (a + b).
Definition sub64 (a b : N) : N := w64 (a + (UINT64_MAX + 1 - b)).
Definition mul64 (a b : N) : N := w64 (a * b).
Definition not64 (a : N) : N := N.lxor (w64 a) UINT64_MAX.
Definition b2n (b : bool) : N := if b then 1 else 0.

(** ** [std::vector<A>]: length plus contents; [operator[]] out of range is undefined. *)
Record vec (A : Type) := mkVec { vlen : N; vdef : A; vmap : PositiveMap.t A }.
Arguments mkVec {A} vlen vdef vmap.
Arguments vlen {A} v.
Arguments vdef {A} v.
Arguments vmap {A} v.

Definition vnew {A} (n : N) (d : A) : vec A := mkVec n d (PositiveMap.empty A).
Definition vnth {A} (v : vec A) (i : N) : A :=
  match PositiveMap.find (N.succ_pos i) (vmap v) with Some x => x | None => vdef v end.
Definition vupd {A} (v : vec A) (i : N) (x : A) : vec A :=
  mkVec (vlen v) (vdef v) (PositiveMap.add (N.succ_pos i) x (vmap v)).
Definition vget {A} (v : vec A) (i : N) : outcome A :=
  if i <? vlen v then Ret (vnth v i) else UB.
Definition vset {A} (v : vec A) (i : N) (x : A) : outcome (vec A) :=
  if i <? vlen v then Ret (vupd v i x) else UB.
(** [push_back] *)
Definition vpush {A} (v : vec A) (x : A) : vec A :=
  mkVec (vlen v + 1) (vdef v) (PositiveMap.add (N.succ_pos (vlen v)) x (vmap v)).
(** [resize(n)] with value-initialised new elements ([vdef]). *)
Definition vresize {A} (v : vec A) (n : N) : vec A :=
  mkVec n (vdef v)
    (snd (N.iter (N.min n (vlen v))
            (fun '(i, m) => (i + 1, PositiveMap.add (N.succ_pos i) (vnth v i) m))
            (0, PositiveMap.empty A))).

(** ** basics.hpp *)

(** basics.hpp:71-73 [is_power2]. [n - 1] wraps for 0 but is guarded by [n != 0]. *)
Definition is_power2 (n : N) : bool :=
  negb (n =? 0) && (N.land n (sub64 n 1) =? 0).

(** basics.hpp:75-80 [bits_to_bytes]. *)
Definition bits_to_bytes (bits : N) : N :=
  if bits =? 0 then 0
  else bits / 8 + (if bits mod 8 =? 0 then 0 else 1).

(** basics.hpp:88-92 [decompose_value<N>]. *)
Definition decompose_value (n x : N) : N * N := (x / n, x mod n).

(** basics.hpp:94-113 [size_p2]; [1ULL << bits] is undefined for bits >= 64. *)
Record size_p2 := mkP2 { p2_bits : N; p2_mask : N }.
Definition p2_default : size_p2 := mkP2 0 0.
Definition p2_new (bits : N) : outcome size_p2 :=
  if bits <? 64 then Ret (mkP2 bits (sub64 (shl 1 bits) 1)) else UB.
Definition p2_size (p : size_p2) : N := add64 (p2_mask p) 1.

(** basics.hpp:66-69 [make_char_range(const std::string&)]: the bytes of the string
    (which may contain NULs) followed by the terminator of [c_str()]. *)
Definition range_of_string (s : list N) : list N := s ++ [0].
(** basics.hpp:62-65 [make_char_range(const char* )] on the memory [buf] from the pointer on: [strlen] looks for the
    first NUL; without one it reads out of bounds. *)
Fixpoint range_of_cstring (buf : list N) : outcome (list N) :=
  match buf with
  | [] => UB
  | c :: buf => if c =? 0 then Ret [c] else let* r := range_of_cstring buf in Ret (c :: r)
  end.
