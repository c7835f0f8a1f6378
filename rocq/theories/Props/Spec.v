(** Small specifications, independent of the model. *)
From Coq Require Import NArith List Bool.
Import ListNotations.
Local Open Scope N_scope.

(** Number of one bits of [x] at positions below [n]. *)
Definition ones_below (x n : N) : N :=
  N.of_nat (length (filter (fun i => N.testbit x (N.of_nat i)) (seq 0 (N.to_nat n)))).
