(** Running a program that uses several maps (the code a user of the library writes around it). *)
From Verif.Model Require Export Destroy.
From Verif.Props Require Export ProgSpec.
Local Open Scope N_scope.

Section program.
  Context (dbg : bool) (vs : nat) (i : inst).

  (** A map object together with the pointers obtained from what it holds. *)
  Definition obj : Type := (i_map dbg vs i * list (option ptr))%type.
  (** The objects, and the bytes that are allocated in the whole process (a ghost quantity). *)
  Record pmem := mkMem { pm_objs : gmap nat obj; pm_alloc : N }.
  Definition bytes_of (m : i_map dbg vs i) : N := hp_total (n_heap (i_nlm vs i) (m_nlm _ _ m)).

  (** ~map() (map.hpp:68), and what an assigned-to map does with its old members; [a]: the bytes allocated before.  What
      the destructor leaves allocated stays allocated, without an owner. *)
  Definition release (a : N) (m : i_map dbg vs i) : outcome N :=
    let* h := i_destroy dbg vs i m in Ret (a - (bytes_of m - hp_total h)).
  (** Construction of x, or assignment to it: the old object, if any, is released. *)
  Definition put (M : pmem) (x : nat) (o : obj) : outcome pmem :=
    let* a := match pm_objs M !! x with Some (m, _) => release (pm_alloc M) m | None => Ret (pm_alloc M) end in
    Ret (mkMem (<[x := o]> (pm_objs M)) a).
  Definition create (M : pmem) (x : nat) (m : i_map dbg vs i) : outcome pmem :=
    put (mkMem (pm_objs M) (pm_alloc M + bytes_of m)) x (m, []).
  Definition get (M : pmem) (x : nat) : outcome obj := match pm_objs M !! x with Some o => Ret o | None => UB end.

  (** map.hpp:239-240: y takes the members of x.  For y = x ([x = std::move(x)]): all that owns memory in a map is a
      std::vector (Move.v), and a vector assigned to itself by move is taken to release its elements and to be empty
      afterwards, as with libstdc++ (the C++ standard leaves its contents unspecified); the other members keep their values. *)
  Definition move_to (M : pmem) (y x : nat) : outcome pmem :=
    let* o := get M x in
    if decide (y = x) then put M x (i_moved_from dbg vs i (fst o), [])
    else
      let* M := put M y o in
      Ret (mkMem (<[x := (i_moved_from dbg vs i (fst o), [])]> (pm_objs M)) (pm_alloc M)).
  (** std::swap: [T tmp(std::move(x)); x = std::move(y); y = std::move(tmp);] *)
  Definition swap (M : pmem) (x y : nat) : outcome pmem :=
    let* tmp := get M x in
    let M := mkMem (<[x := (i_moved_from dbg vs i (fst tmp), [])]> (pm_objs M)) (pm_alloc M) in
    let* M := move_to M x y in
    let* M := put M y tmp in
    let* a := release (pm_alloc M) (i_moved_from dbg vs i (fst tmp)) in
    Ret (mkMem (pm_objs M) a).

  (** map.hpp:56-65 (constructor), :52 (default), :198 (size) *)
  Definition p_step (M : pmem) (s : stmt) : outcome (list pobs * pmem) :=
    match s with
    | Construct x cb e => let* m := i_new dbg vs i cb (2 ^ e) in let* M := create M x m in Ret ([], M)
    | ConstructDefault x => let* M := create M x (map_default _ _) in Ret ([], M)
    | MoveTo y x => let* M := move_to M y x in Ret ([], M)
    | Swap x y => let* M := swap M x y in Ret ([], M)
    | Drop x => let* o := get M x in let* a := release (pm_alloc M) (fst o) in
        Ret ([], mkMem (delete x (pm_objs M)) a)
    | AskSize x => let* o := get M x in Ret ([SizeIs (i_size dbg vs i (fst o))], M)
    | Call x c => let* o := get M x in
        let* r := hapi_step dbg (i_trie dbg i) (i_nlm vs i) (fst o) (snd o) c in
        let '(z, m, ps) := r in
        Ret ([Answer z], mkMem (<[x := (m, ps)]> (pm_objs M)) (pm_alloc M + bytes_of m - bytes_of (fst o)))
    end.
  Fixpoint p_run (M : pmem) (prog : list stmt) : outcome (list pobs * pmem) :=
    match prog with
    | [] => Ret ([], M)
    | s :: prog =>
        let* r := p_step M s in
        let '(zs, M) := r in
        let* r := p_run M prog in
        let '(zs', M) := r in Ret (zs ++ zs', M)
    end.
End program.
