(** What a user of a poplar map observes, and the dictionary it should look like.
    Nothing here depends on how the map is implemented. *)
From Coq Require Import NArith List.
From stdpp Require Import base list numbers option gmap.
Import ListNotations.
Local Open Scope N_scope.

(** A key is a byte string ([list N]); it is valid if its only NUL is its last byte. *)
Definition valid_key (k : list N) : Prop :=
  exists s, k = s ++ [0] /\ Forall (fun c => 0 < c < 256) s.

(** ** Histories with immediate accesses *)
(** One step of a user: [Update k None] calls update(k) and reads the value through the returned
    pointer; [Update k (Some w)] then also overwrites it with [w]; [Find k] calls find(k) and reads
    the value if the result is not nullptr. *)
Inductive op := Update (k : list N) (w : option (list N)) | Find (k : list N).
(** What the user sees: the value found behind the pointer returned by update, or the result of
    find; after every step also size(). *)
Inductive obs := Saw (v : list N) | Found (o : option (list N)).

(** The dictionary: values are byte strings of the value size [vs]; new keys start at zero. *)
Notation dict := (gmap (list N) (list N)).
Definition spec_step (vs : nat) (d : dict) (o : op) : (obs * N) * dict :=
  match o with
  | Update k w =>
      let old := default (replicate vs 0) (d !! k) in
      let d' := <[k := default old w]> d in
      ((Saw old, N.of_nat (size d')), d')
  | Find k => ((Found (d !! k), N.of_nat (size d)), d)
  end.
Fixpoint spec_run (vs : nat) (d : dict) (ops : list op) : list (obs * N) * dict :=
  match ops with
  | [] => ([], d)
  | o :: ops =>
      let '(x, d) := spec_step vs d o in
      let '(xs, d) := spec_run vs d ops in (x :: xs, d)
  end.

(** Well-formed steps: valid keys shorter than the address space, values of the right size. *)
Definition valid_op (vs : nat) (o : op) : Prop :=
  match o with
  | Update k w => valid_key k /\ N.of_nat (length k) + N.of_nat vs < 2 ^ 64 /\
      match w with Some w => length w = vs | None => True end
  | Find k => valid_key k /\ N.of_nat (length k) < 2 ^ 64
  end.
(** The keys passed to update, their total length and the bytes occurring in them. *)
Definition updated (ops : list op) : list (list N) :=
  flat_map (fun o => match o with Update k _ => [k] | Find _ => [] end) ops.
Definition total_length (ks : list (list N)) : N := N.of_nat (length (concat ks)).
Definition alphabet (ks : list (list N)) : gset N := {[ 0 ]} ∪ list_to_set (concat ks).
(** The trie nodes that a set of keys can need with lambda = 2^e: one for each key, and one for every
    2^e bytes before its last byte. *)
Definition node_bound (e : N) (ks : gset (list N)) : N :=
  foldr (fun k n => 1 + (N.of_nat (length k) - 1) / 2 ^ e + n) 0 (elements ks).
(** Repeated updates of a key count once. *)
Definition nodes_for (e : N) (ks : list (list N)) : N := node_bound e (list_to_set ks).

(** ** Histories with kept pointers *)
(** [HUpdate]/[HFind] keep the returned pointer as the next handle (0, 1, 2, ...);
    [HRead i]/[HWrite i w] read and write through handle [i] at any later time. *)
Inductive hop := HUpdate (k : list N) | HFind (k : list N) | HRead (i : nat) | HWrite (i : nat) (w : list N).
(** What the user sees: whether the pointer is null, or the value read. *)
Inductive hobs := Ptr (nonnull : bool) | Read (v : list N) | Written.

(** A handle designates the key it was returned for.  [None]: the history uses a handle that does
    not exist or is null, or writes a value of a wrong size. *)
Definition hspec_step (vs : nat) (s : dict * list (option (list N))) (o : hop)
  : option (hobs * (dict * list (option (list N)))) :=
  let '(d, hs) := s in
  match o with
  | HUpdate k => Some (Ptr true, (<[k := default (replicate vs 0) (d !! k)]> d, hs ++ [Some k]))
  | HFind k => Some (match d !! k with
                     | Some _ => (Ptr true, (d, hs ++ [Some k]))
                     | None => (Ptr false, (d, hs ++ [None])) end)
  | HRead i => match hs !! i with
               | Some (Some k) => match d !! k with Some v => Some (Read v, s) | None => None end
               | _ => None end
  | HWrite i w => match hs !! i with
                  | Some (Some k) => if decide (length w = vs) then Some (Written, (<[k := w]> d, hs)) else None
                  | _ => None end
  end.
Fixpoint hspec_run (vs : nat) (s : dict * list (option (list N))) (ops : list hop)
  : option (list hobs * (dict * list (option (list N)))) :=
  match ops with
  | [] => Some ([], s)
  | o :: ops =>
      match hspec_step vs s o with
      | None => None
      | Some (x, s) => match hspec_run vs s ops with
                       | None => None
                       | Some (xs, s) => Some (x :: xs, s) end
      end
  end.
Definition hvalid_op (vs : nat) (o : hop) : Prop :=
  match o with
  | HUpdate k => valid_key k /\ N.of_nat (length k) + N.of_nat vs < 2 ^ 64
  | HFind k => valid_key k /\ N.of_nat (length k) < 2 ^ 64
  | _ => True
  end.
Definition hupdated (ops : list hop) : list (list N) :=
  flat_map (fun o => match o with HUpdate k => [k] | _ => [] end) ops.

(** ** Reading the specification *)
(** The contents after a history that starts with an empty map. *)
Definition final (vs : nat) (ops : list op) : dict := snd (spec_run vs ∅ ops).
(** The value a key has after a history, given its value before: what was last written to it,
    zeroes if it was only registered, nothing if it was never passed to update. *)
Fixpoint value_after (vs : nat) (k : list N) (before : option (list N)) (ops : list op) : option (list N) :=
  match ops with
  | [] => before
  | Update k' w :: ops =>
      value_after vs k (if decide (k = k') then Some (default (default (replicate vs 0) before) w) else before) ops
  | Find _ :: ops => value_after vs k before ops
  end.
