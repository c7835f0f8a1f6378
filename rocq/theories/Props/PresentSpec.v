(** Pointers of any map (C50): the dictionary of MapSpec.v, in which registering a new key forgets the pointers
    handed out before. *)
From Verif.Props Require Export InstSpec.
Local Open Scope N_scope.

(** As [hspec_step], but after update of a key that was not present all earlier handles are unusable ([None]). *)
Definition pspec_step (vs : nat) (s : dict * list (option (list N))) (o : hop)
  : option (hobs * (dict * list (option (list N)))) :=
  let '(d, hs) := s in
  match o with
  | HUpdate k => Some (Ptr true, match d !! k with
                                 | Some _ => (d, hs ++ [Some k])
                                 | None => (<[k := replicate vs 0]> d, map (fun _ => None) hs ++ [Some k]) end)
  | _ => hspec_step vs s o
  end.
Fixpoint pspec_run (vs : nat) (s : dict * list (option (list N))) (ops : list hop)
  : option (list hobs * (dict * list (option (list N)))) :=
  match ops with
  | [] => Some ([], s)
  | o :: ops =>
      match pspec_step vs s o with
      | None => None
      | Some (x, s) => match pspec_run vs s ops with
                       | None => None
                       | Some (xs, s) => Some (x :: xs, s) end
      end
  end.
