(** What a user sees who catches the exception of update and goes on. *)
From Verif.Props Require Export MapSpec.
From Coq Require Import NArith List.
From stdpp Require Import base list numbers option gmap.
Import ListNotations.
Local Open Scope N_scope.

(** What a history without exceptions shows, or the exception. *)
Inductive tobs := Did (x : obs) | Caught.
Definition dids (xs : list (obs * N)) : list (tobs * N) := map (fun '(x, n) => (Did x, n)) xs.
(** The history shows [seen] from the contents [d] and leads to [d']: without exception ([throws = false]) what
    the dictionary shows; with one, an update of a key that is not there has no effect, and before and
    after it the history shows what the dictionary shows. *)
Definition shows (vs : nat) (throws : bool) (d : dict) (ops : list op) (seen : list (tobs * N)) (d' : dict) : Prop :=
  (throws = false /\ seen = dids (fst (spec_run vs d ops)) /\ d' = snd (spec_run vs d ops)) \/
  (throws = true /\ exists ops1 k w ops2 d1, ops = ops1 ++ Update k w :: ops2 /\
     d1 = snd (spec_run vs d ops1) /\ d1 !! k = None /\
     seen = dids (fst (spec_run vs d ops1)) ++ (Caught, N.of_nat (size d1)) :: dids (fst (spec_run vs d1 ops2)) /\
     d' = snd (spec_run vs d1 ops2)).
