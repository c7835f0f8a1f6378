(** Programs with several map objects: what their user may rely on (ProgProps.v). *)
From Verif.Props Require Export LifeSpec.
Local Open Scope N_scope.

(** The variables of a program are numbered.  [Construct x cb e]: [map x(cb, 2^e)], or [x = map(cb, 2^e)] if x exists;
    [ConstructDefault x]: the same with [map()]; [MoveTo y x]: [map y(std::move(x))], or [y = std::move(x)] if y exists;
    [Swap x y]: [std::swap(x, y)]; [Drop x]: the end of the life of x; [AskSize x]: [x.size()];
    [Call x o]: the call o on x (MapSpec.v; the handles are the pointers obtained from the contents of x). *)
Inductive stmt := Construct (x : nat) (cb e : N) | ConstructDefault (x : nat) | MoveTo (y x : nat) | Swap (x y : nat)
  | Drop (x : nat) | AskSize (x : nat) | Call (x : nat) (o : hop).
Inductive pobs := Answer (h : hobs) | SizeIs (n : N).

(** The contents of a map: the parameters it was made with, the keys passed to update so far, and the dictionary with
    the handles into it. *)
Record contents := mkContents { c_cb : N; c_e : N; c_keys : list (list N); c_life : life }.
Definition empty_map (cb e : N) : contents := mkContents cb e [] (mkLife ∅ [] []).
(** Variables that exist; [None]: moved from. *)
Notation vars := (gmap nat (option contents)).

(** The conditions of C46 on what is passed to one map, with the reservation excluded. *)
Definition room (dbg : bool) (vs : nat) (i : inst) (cb e : N) (ks : list (list N)) : Prop :=
  i_supported vs i cb e ks /\ i_no_trap dbg i ks /\ ~ i_near_full i cb e ks.

(** What a statement shows and does.  A map moved from may be moved, swapped, assigned to and destroyed, not used
    otherwise; contents and the pointers into them go where they are moved.  [x = std::move(x)] leaves x moved from,
    [std::swap(x, x)] changes nothing. *)
Inductive does (dbg : bool) (vs : nat) (i : inst) (P : vars) : stmt -> list pobs -> vars -> Prop :=
  | does_construct x cb e : room dbg vs i cb e [] ->
      does dbg vs i P (Construct x cb e) [] (<[x := Some (empty_map cb e)]> P)
  | does_default x : (1 <= vs)%nat -> room dbg vs i 0 5 [] ->
      does dbg vs i P (ConstructDefault x) [] (<[x := Some (empty_map 0 5)]> P)
  | does_move y x c : P !! x = Some c ->
      does dbg vs i P (MoveTo y x) [] (<[x := None]> (<[y := c]> P))
  | does_swap x y c c' : P !! x = Some c -> P !! y = Some c' ->
      does dbg vs i P (Swap x y) [] (<[y := c]> (<[x := c']> P))
  | does_drop x c : P !! x = Some c -> does dbg vs i P (Drop x) [] (delete x P)
  | does_size x c : P !! x = Some (Some c) ->
      does dbg vs i P (AskSize x) [SizeIs (N.of_nat (size (lf_dict (c_life c))))] P
  | does_call x o cb e ks l z l' : P !! x = Some (Some (mkContents cb e ks l)) -> hvalid_op vs o ->
      room dbg vs i cb e (ks ++ hupdated [o]) -> life_step vs (settles_after i) l o = Some (z, l') ->
      does dbg vs i P (Call x o) [Answer z] (<[x := Some (mkContents cb e (ks ++ hupdated [o]) l')]> P).
Inductive does_all (dbg : bool) (vs : nat) (i : inst) : vars -> list stmt -> list pobs -> vars -> Prop :=
  | does_nil P : does_all dbg vs i P [] [] P
  | does_cons P s zs P1 prog zs' P2 : does dbg vs i P s zs P1 -> does_all dbg vs i P1 prog zs' P2 ->
      does_all dbg vs i P (s :: prog) (zs ++ zs') P2.
