(** What a user sees whose update calls may run out of memory (std::bad_alloc) and who goes on with the map. *)
From Verif.Props Require Export MapSpec.
From Coq Require Import NArith List.
From stdpp Require Import base list numbers option gmap.
Import ListNotations.
Local Open Scope N_scope.

(** Where an allocation of an update call fails, counted in the order of the calls update makes:
    - [InCtor]: in the constructor a default-constructed map calls first;
    - [InStep i j grown]: in the hash table of the trie, when the [j]-th step node of the [i]-th node visited is
      added;  [InBranch i grown]: there, when the branching edge below the [i]-th node visited is added.
      [grown]: the table had to be doubled, and the doubling succeeded before the allocation that failed;
    - [InDummy i j]: in the label store, for the [j]-th step node of the [i]-th node visited (FK tries);
    - [InDouble i]: in the doubling of the trie after the branching edge was added (Bonsai tries);
    - [InLabel i]: for the label of the new node. *)
Inductive site :=
  | InCtor | InStep (i j : nat) (grown : bool) | InBranch (i : nat) (grown : bool)
  | InDummy (i j : nat) | InDouble (i : nat) | InLabel (i : nat).
(** The failures that happen before anything reachable from the map is changed for good. *)
Definition in_table (s : site) : Prop :=
  match s with InCtor | InStep _ _ _ | InBranch _ _ => True | _ => False end.

(** A history in which some update calls meet a failing allocation ([Some s]; if the call ends before it
    gets to that place, nothing fails). *)
Definition oop : Type := op * option site.
(** What the user sees of a call: what is shown without failure, or the exception; and size() after it. *)
Inductive oobs := Done (x : obs) | NoMemory.
(** What a dictionary shows in which a failed update has no effect. *)
Inductive oom_shows (vs : nat) : dict -> list oop -> list (oobs * N) -> dict -> Prop :=
  | oom_nil d : oom_shows vs d [] [] d
  | oom_done d o f ops x n d1 seen d' : spec_step vs d o = ((x, n), d1) -> oom_shows vs d1 ops seen d' ->
      oom_shows vs d ((o, f) :: ops) ((Done x, n) :: seen) d'
  | oom_failed d k w s ops seen d' : oom_shows vs d ops seen d' ->
      oom_shows vs d ((Update k w, Some s) :: ops) ((NoMemory, N.of_nat (size d)) :: seen) d'.

(** ** Kept pointers
    A user who keeps the pointers returned by update and find ([Keep]; handles as in MapSpec.v) and also calls
    update inside try/catch without keeping its pointer ([Try]). *)
Inductive koop := Keep (o : hop) | Try (k : list N) (s : site).
Inductive kobs := Kept (x : hobs) | Tried (ok : bool).
Definition khandles : Type := dict * list (option (list N)).
(** [fails]: which of the tried calls fail; those do nothing. *)
Fixpoint kspec_run (vs : nat) (fails : list bool) (s : khandles) (ops : list koop) : option (list kobs * khandles) :=
  match ops with
  | [] => Some ([], s)
  | Keep o :: ops =>
      match hspec_step vs s o with
      | None => None
      | Some (x, s) => option_map (fun '(xs, s) => (Kept x :: xs, s)) (kspec_run vs fails s ops)
      end
  | Try k _ :: ops =>
      let '(failed, fails) := match fails with [] => (false, []) | f :: fs => (f, fs) end in
      let '(d, hs) := s in
      let d := if failed then d else <[k := default (replicate vs 0) (d !! k)]> d in
      option_map (fun '(xs, s) => (Tried (negb failed) :: xs, s)) (kspec_run vs fails (d, hs) ops)
  end.
Definition kvalid (vs : nat) (o : koop) : Prop :=
  match o with Keep o => hvalid_op vs o | Try k s => hvalid_op vs (HUpdate k) /\ in_table s end.
Definition kupdated (ops : list koop) : list (list N) :=
  flat_map (fun o => match o with Keep (HUpdate k) => [k] | Try k _ => [k] | _ => [] end) ops.
