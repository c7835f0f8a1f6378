(** What a user of a dynamic trie relies on.  A trie is a tree with labelled edges; its nodes are numbered
    in the order in which they were added (0 is the root).  A trie object names node [h] by an identifier. *)
From stdpp Require Import gmap.
From Verif.Model Require Export Heap PlainAliases CompactAliases MaxSize.
Local Open Scope N_scope.

Record tree := mkTree { nodes : nat; kids : gmap (nat * N) nat }.
Definition root_only : tree := mkTree 1 ∅.
(** [T] with a new child of [h] under symbol [s]. *)
Definition with_child (T : tree) (h : nat) (s : N) : tree :=
  mkTree (S (nodes T)) (<[(h, s) := nodes T]> (kids T)).

(** capa_bits() *)
Definition trie_bits (TO : trie_ops) (t : tT TO) : N := p2_bits (t_capa TO t).
(** The table can be doubled within the representation: at most 2^56 slots, slot and symbol in a word. *)
Definition can_grow (TO : trie_ops) (sb : N) (t : tT TO) : Prop :=
  trie_bits TO t + 1 <= 56 /\ trie_bits TO t + 1 + sb < 64.
(** When add_child(h, s) may be called: an FK-hash trie that is at its load limit grows by itself, so there
    must be room for that; [forbid] excludes the edge (root, 0) (assertion of C14). *)
Definition may_add (TO : trie_ops) (mf sb : N) (forbid : bool) (t : tT TO) (h : nat) (s : N) : Prop :=
  s < 2 ^ sb /\ (forbid = true -> (h, s) <> (0%nat, 0)) /\
  (t_kind TO = Fkhash -> t_size TO t < max_size_of (2 ^ trie_bits TO t) mf \/ can_grow TO sb t).

(** [built t ids T]: some sequence of public operations on a constructed trie led to the object [t]; [ids]
    are the identifiers handed out so far, in order, and [T] is the tree that the answers of add_child
    describe. *)
Inductive built (TO : trie_ops) (mf sb : N) (forbid : bool) (start : outcome (tT TO))
  : tT TO -> list N -> tree -> Prop :=
  | built_root t0 t r : start = Ret t0 -> t_add_root TO t0 = Ret t -> t_get_root TO t = Ret r ->
      built TO mf sb forbid start t [r] root_only
  | built_child t ids T h v s x t' : built TO mf sb forbid start t ids T ->
      ids !! h = Some v -> may_add TO mf sb forbid t h s -> t_add_child TO t v s = Ret (true, x, t') ->
      built TO mf sb forbid start t' (ids ++ [x]) (with_child T h s)
  | built_same t ids T h v s x t' : built TO mf sb forbid start t ids T ->
      ids !! h = Some v -> may_add TO mf sb forbid t h s -> t_add_child TO t v s = Ret (false, x, t') ->
      built TO mf sb forbid start t' ids T
  | built_expand t ids T nm t' ids' : built TO mf sb forbid start t ids T ->
      t_kind TO = Bonsai -> 1 <= sb -> can_grow TO sb t -> t_expand TO t = Ret (nm, t') ->
      Forall2 (fun v v' => nm_get nm v = Ret v') ids ids' ->
      built TO mf sb forbid start t' ids' T.

(** The result is an [x] with [Q x], or the computation stops at an assertion and [L] holds. *)
Definition returns {A} (L : Prop) (r : outcome A) (Q : A -> Prop) : Prop :=
  (exists x, r = Ret x /\ Q x) \/ (r = AssertFail /\ L).
(** The identifier the trie shows for an optional node. *)
Definition shown (ids : list N) (c : option nat) : N := default nil_id (c ≫= fun c => ids !! c).

(** ** What it means to be a dynamic trie (C18-C21) *)
(** [sat b n]: the reservation of the compact tries, for 2^b slots and [n] nodes. *)
Record dynamic_trie (TO : trie_ops) (mf sb : N) (forbid : bool) (sat : N -> N -> Prop)
    (t : tT TO) (ids : list N) (T : tree) : Prop := {
  (** one identifier per node, all distinct, none is nil; size() counts the nodes, the root included *)
  dy_ids : NoDup ids /\ length ids = nodes T /\ ~ In nil_id ids;
  dy_size : t_size TO t = N.of_nat (nodes T);
  dy_load : t_size TO t <= max_size_of (2 ^ trie_bits TO t) mf;
  dy_root : exists r, t_get_root TO t = Ret r /\ ids !! 0%nat = Some r;
  (** find_child *)
  dy_find : forall h v s, ids !! h = Some v -> s < 2 ^ sb ->
    t_find_child TO t v s = Ret (shown ids (kids T !! (h, s)));
  dy_kid : forall h s c, kids T !! (h, s) = Some c -> (h < nodes T)%nat /\ (c < nodes T)%nat;
  (** add_child of an existing child *)
  dy_again : forall h v s c, ids !! h = Some v -> may_add TO mf sb forbid t h s -> kids T !! (h, s) = Some c ->
    returns (t_kind TO = Fkhash /\ sat (trie_bits TO t) (t_size TO t)) (t_add_child TO t v s)
      (fun '(added, x, t') => added = false /\ ids !! c = Some x /\ (t_kind TO = Bonsai -> t' = t));
  (** add_child of a new child: a fresh identifier, one node more, all other edges as before *)
  dy_new : forall h v s, ids !! h = Some v -> may_add TO mf sb forbid t h s -> kids T !! (h, s) = None ->
    (t_kind TO = Bonsai -> t_size TO t < max_size_of (2 ^ trie_bits TO t) mf) ->
    returns (sat (trie_bits TO t) (t_size TO t)) (t_add_child TO t v s)
      (fun '(added, x, t') => added = true /\ ~ In x ids /\ x <> nil_id /\ t_size TO t' = t_size TO t + 1 /\
        t_find_child TO t' v s = Ret x /\
        (forall h' v' s', ids !! h' = Some v' -> s' < 2 ^ sb -> (h', s') <> (h, s) ->
           t_find_child TO t' v' s' = t_find_child TO t v' s') /\
        (forall s', s' < 2 ^ sb -> t_find_child TO t' x s' = Ret nil_id)) }.
