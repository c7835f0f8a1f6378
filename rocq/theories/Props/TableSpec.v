(** Specification of the auxiliary hash tables (properties C26-C29), independent of the model: a table is a
    finite map from numbers to numbers, and a client sees the answers of [set], [get] and [size]. *)
From stdpp Require Import gmap.
From Verif.Model Require Export Base.
Local Open Scope N_scope.

Inductive top := TSet (k v : N) | TGet (k : N) | TSize.
(** What the call returns: was the key new; the value; the number of keys. *)
Inductive tobs := OSet (new : bool) | OGet (v : N) | OSize (n : N).
(** The answer of [get] for a missing key (UINT64_MAX). *)
Definition no_value : N := 2 ^ 64 - 1.

(** The contents after a history, and the answers along it. *)
Definition tstep (m : gmap N N) (o : top) : gmap N N :=
  match o with TSet k v => <[k := v]> m | _ => m end.
Definition tanswer (m : gmap N N) (o : top) : tobs :=
  match o with
  | TSet k _ => OSet (bool_decide (m !! k = None))
  | TGet k => OGet (match m !! k with Some v => v | None => no_value end)
  | TSize => OSize (N.of_nat (size m))
  end.
Fixpoint tspec (m : gmap N N) (ops : list top) : list tobs :=
  match ops with [] => [] | o :: ops => tanswer m o :: tspec (tstep m o) ops end.
Definition contents (m : gmap N N) (ops : list top) : gmap N N := foldl tstep m ops.

(** Histories whose keys and values are admissible and in which every [set] happens while fewer than
    [limit] keys are stored. *)
Definition tallowed (key val : N -> Prop) (limit : N) (m : gmap N N) (o : top) : Prop :=
  match o with
  | TSet k v => key k /\ val v /\ N.of_nat (size m) < limit
  | TGet k => key k
  | TSize => True
  end.
Fixpoint thistory (key val : N -> Prop) (limit : N) (m : gmap N N) (ops : list top) : Prop :=
  match ops with
  | [] => True
  | o :: ops => tallowed key val limit m o /\ thistory key val limit (tstep m o) ops
  end.

(** Running a history on an implementation given by its three methods. *)
Section run.
  Context {T : Type} (set : T -> N -> N -> outcome (bool * T)) (get : T -> N -> outcome N) (sz : T -> N).
  Definition tcall (t : T) (o : top) : outcome (tobs * T) :=
    match o with
    | TSet k v => let* r := set t k v in Ret (OSet (fst r), snd r)
    | TGet k => let* v := get t k in Ret (OGet v, t)
    | TSize => Ret (OSize (sz t), t)
    end.
  Fixpoint trun (t : T) (ops : list top) : outcome (list tobs * T) :=
    match ops with
    | [] => Ret ([], t)
    | o :: ops =>
        let* r := tcall t o in
        let* rs := trun (snd r) ops in
        Ret (fst r :: fst rs, snd rs)
    end.
End run.
