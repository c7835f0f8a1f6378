(** How long a pointer into a map may be kept (C11): the dictionary of MapSpec.v, together with the order in which the
    keys were registered, and handles that are either permanent or die with the next new key. *)
From Verif.Props Require Export InstSpec.
Local Open Scope N_scope.

(** After how many newer keys a key is settled: at once with plain label stores; after ChunkSize further keys with
    the compact store of the FK tries, which never moves the labels of a completed chunk; never with the compact
    store of the Bonsai tries, which rebuilds a chunk whenever a label is added to it. *)
Definition settles_after (i : inst) : option nat :=
  match i_l i with
  | None => Some 0%nat
  | Some c => if is_fkhash i then Some (N.to_nat (cs_val c)) else None
  end.
(** The number of keys registered after [k]; [order] has the newest key first. *)
Fixpoint newer (k : list N) (order : list (list N)) : nat :=
  match order with
  | [] => 0
  | k' :: order => if decide (k = k') then 0 else S (newer k order)
  end.
Definition settled (lim : option nat) (order : list (list N)) (k : list N) : bool :=
  match lim with None => false | Some n => (n <=? newer k order)%nat end.

(** [None]: unusable.  [Some (k, true)]: points to the value of k for ever.  [Some (k, false)]: until the next new key. *)
Definition handle : Type := option (list N * bool).
Record life := mkLife { lf_dict : dict; lf_order : list (list N); lf_handles : list handle }.
Definition drop_temporary (h : handle) : handle := match h with Some (k, true) => Some (k, true) | _ => None end.
Definition life_step (vs : nat) (lim : option nat) (s : life) (o : hop) : option (hobs * life) :=
  let '(mkLife d order hs) := s in
  match o with
  | HUpdate k =>
      Some (Ptr true, match d !! k with
        | Some _ => mkLife d order (hs ++ [Some (k, settled lim order k)])
        | None => mkLife (<[k := replicate vs 0]> d) (k :: order)
                    (map drop_temporary hs ++ [Some (k, settled lim (k :: order) k)]) end)
  | HFind k =>
      Some (match d !! k with
            | Some _ => (Ptr true, mkLife d order (hs ++ [Some (k, settled lim order k)]))
            | None => (Ptr false, mkLife d order (hs ++ [None])) end)
  | HRead i =>
      match hs !! i with
      | Some (Some (k, _)) => match d !! k with Some v => Some (Read v, s) | None => None end
      | _ => None
      end
  | HWrite i w =>
      match hs !! i with
      | Some (Some (k, _)) => if decide (length w = vs) then Some (Written, mkLife (<[k := w]> d) order hs) else None
      | _ => None
      end
  end.
Fixpoint life_run (vs : nat) (lim : option nat) (s : life) (ops : list hop) : option (list hobs * life) :=
  match ops with
  | [] => Some ([], s)
  | o :: ops =>
      match life_step vs lim s o with
      | None => None
      | Some (x, s) => match life_run vs lim s ops with
                       | None => None
                       | Some (xs, s) => Some (x :: xs, s) end
      end
  end.
