(** Contracts of tries and label stores, and their combination as used by the map. *)
From Verif.Proofs Require Export ProbeP MaxSizeP.
From Verif.Model Require Export Map.
Local Open Scope N_scope.

(** ** Keys and labels *)
(** A valid key: a string without NUL followed by the terminator. *)
Definition okey (k : list N) : Prop := exists s, k = s ++ [0] /\ ~ In 0 s.
(** A label: the rest of a valid key, possibly empty. *)
Definition olab (k : list N) : Prop := k = [] \/ okey k.
Fixpoint lcp (a b : list N) : nat :=
  match a, b with
  | x :: a, y :: b => if x =? y then S (lcp a b) else O
  | _, _ => O
  end.
Definition small (vs : nat) (k : list N) : Prop := N.of_nat (length k) + N.of_nat vs < 2 ^ 64.

(** ** Limits *)
(** The largest supported capacity (bits) of a table of edges with [sb]-bit symbols and the number
    of nodes it can hold. *)
Definition bits_limit (sb : N) : N := N.min 56 (63 - sb).
Definition node_limit (mf sb : N) : N := max_size_of (2 ^ bits_limit sb) mf.

(** Reservations of a contract: [l_fail]: an assertion may fail; [l_max]: bound on the number of nodes;
    [l_b0]: the initial capacity (bits). *)
Record lims := mkLim { l_fail : Prop; l_max : N; l_b0 : N }.
Coercion l_fail : lims >-> Sortclass.

Notation locmap := (gmap (list N) N).
Notation labmap := (gmap (list N) (list N * list N)).

(** The capacity is the initial one or the previous doubling was needed. *)
Definition tight (L : lims) (mf b : N) (loc : locmap) : Prop :=
  b <= l_b0 L \/ max_size_of (2 ^ (b - 1)) mf <= N.of_nat (size loc).

Section contracts.
  Context (TO : trie_ops) (NO : nlm_ops) (L : lims) (mf sb : N).

  (** ** Bonsai tries *)
  Record bonsai_ok (rep : N -> tT TO -> locmap -> Prop) (fresh : N -> tT TO -> Prop) : Prop := {
    bo_kind : t_kind TO = Bonsai;
    bo_lim : l_max L <= node_limit mf sb;
    bo_default : t_size TO (t_default TO) = 0;
    bo_new : forall cb, N.max 16 cb <= bits_limit sb -> l_b0 L = N.max 16 cb ->
      exists t, t_new TO cb sb = Ret t /\ fresh (N.max 16 cb) t;
    bo_fresh : forall b t, fresh b t -> t_size TO t = 0 /\ t_capa TO t = mkP2 b (N.ones b);
    bo_add_root : forall b t, fresh b t ->
      exists t' r, t_add_root TO t = Ret t' /\ rep b t' {[ [] := r ]} /\ t_size TO t' < max_size_of (2 ^ b) mf;
    bo_b : forall b t loc, rep b t loc -> 16 <= b <= bits_limit sb;
    bo_capa : forall b t loc, rep b t loc -> t_capa TO t = mkP2 b (N.ones b);
    bo_size : forall b t loc, rep b t loc -> t_size TO t = N.of_nat (size loc);
    bo_root : forall b t loc, rep b t loc -> exists r, t_get_root TO t = Ret r /\ loc !! [] = Some r;
    bo_inj : forall b t loc p q x, rep b t loc -> loc !! p = Some x -> loc !! q = Some x -> p = q;
    bo_pref : forall b t loc s p, rep b t loc -> is_Some (loc !! (s :: p)) -> is_Some (loc !! p);
    bo_bound : forall b t loc p x, rep b t loc -> loc !! p = Some x -> x < 2 ^ b;
    bo_find : forall b t loc p v s, rep b t loc -> loc !! p = Some v -> s < 2 ^ sb ->
      t_find_child TO t v s = Ret (default nil_id (loc !! (s :: p)));
    bo_add : forall b t loc p v s, rep b t loc -> loc !! p = Some v -> s < 2 ^ sb ->
      t_size TO t < max_size_of (2 ^ b) mf -> N.of_nat (size loc) + 1 < l_max L ->
      wpx L (t_add_child TO t v s) (fun '(r, x, t') =>
        match loc !! (s :: p) with
        | Some y => r = false /\ x = y /\ rep b t' loc
        | None => r = true /\ (forall q, loc !! q <> Some x) /\ rep b t' (<[s :: p := x]> loc)
        end);
    bo_add_old : forall b t loc p v s y, rep b t loc -> loc !! p = Some v -> s < 2 ^ sb ->
      loc !! (s :: p) = Some y -> t_add_child TO t v s = Ret (false, y, t);
    bo_needs : forall b t loc, rep b t loc ->
      t_needs_to_expand TO t = (max_size_of (2 ^ b) mf <=? t_size TO t);
    bo_expand : forall b t loc, rep b t loc -> b < bits_limit sb -> N.of_nat (size loc) < l_max L ->
      wpx L (t_expand TO t) (fun '(nm, t') => exists loc' (mp : gmap N N),
        rep (b + 1) t' loc' /\ dom loc' = dom loc /\
        t_size TO t' < max_size_of (2 ^ (b + 1)) mf /\ nm_size nm = 2 ^ b /\
        (forall i, i < 2 ^ b -> nm_get nm i = Ret (default UINT64_MAX (mp !! i))) /\
        (forall p v, loc !! p = Some v -> mp !! v = loc' !! p) /\
        (forall i y, mp !! i = Some y -> exists p, loc !! p = Some i)) }.

  (** ** FK-hash tries; [B]: the edge (root, symbol 0) is forbidden *)
  Record fkhash_ok (B : bool) (rep : N -> tT TO -> locmap -> Prop) (fresh : N -> tT TO -> Prop) : Prop := {
    fo_kind : t_kind TO = Fkhash;
    fo_lim : l_max L <= node_limit mf sb;
    fo_default : t_size TO (t_default TO) = 0;
    fo_new : forall cb, N.max 16 cb <= bits_limit sb -> l_b0 L = N.max 16 cb ->
      exists t, t_new TO cb sb = Ret t /\ fresh (N.max 16 cb) t;
    fo_fresh : forall b t, fresh b t -> t_size TO t = 0 /\ t_capa TO t = mkP2 b (N.ones b);
    fo_add_root : forall b t, fresh b t ->
      exists t', t_add_root TO t = Ret t' /\ rep b t' {[ [] := 0 ]};
    fo_b : forall b t loc, rep b t loc -> 16 <= b <= bits_limit sb;
    fo_capa : forall b t loc, rep b t loc -> t_capa TO t = mkP2 b (N.ones b);
    fo_size : forall b t loc, rep b t loc -> t_size TO t = N.of_nat (size loc);
    fo_load : forall b t loc, rep b t loc -> t_size TO t <= max_size_of (2 ^ b) mf;
    fo_root : forall b t loc, rep b t loc -> exists r, t_get_root TO t = Ret r /\ loc !! [] = Some r;
    fo_inj : forall b t loc p q x, rep b t loc -> loc !! p = Some x -> loc !! q = Some x -> p = q;
    fo_pref : forall b t loc s p, rep b t loc -> is_Some (loc !! (s :: p)) -> is_Some (loc !! p);
    fo_bound : forall b t loc p x, rep b t loc -> loc !! p = Some x -> x < N.of_nat (size loc);
    fo_find : forall b t loc p v s, rep b t loc -> loc !! p = Some v -> s < 2 ^ sb ->
      t_find_child TO t v s = Ret (default nil_id (loc !! (s :: p)));
    fo_add : forall b t loc p v s, rep b t loc -> loc !! p = Some v -> s < 2 ^ sb ->
      (B = true -> s :: p <> [0]) -> N.of_nat (size loc) + 1 < l_max L ->
      wpx L (t_add_child TO t v s) (fun '(r, x, t') => exists b',
        (b' = b \/ b' = b + 1 /\ max_size_of (2 ^ b) mf <= N.of_nat (size loc)) /\
        match loc !! (s :: p) with
        | Some y => r = false /\ x = y /\ rep b' t' loc
        | None => r = true /\ x = N.of_nat (size loc) /\ rep b' t' (<[s :: p := x]> loc)
        end);
    fo_add_old : forall b t loc p v s y, rep b t loc -> loc !! p = Some v -> s < 2 ^ sb ->
      (B = true -> s :: p <> [0]) -> N.of_nat (size loc) + 1 < l_max L -> loc !! (s :: p) = Some y ->
      wpx L (t_add_child TO t v s) (fun '(r, x, t') => r = false /\ x = y /\
        (t' = t \/ rep (b + 1) t' loc /\ max_size_of (2 ^ b) mf <= N.of_nat (size loc))) }.

  (** ** Label stores.  [npt n x p]: [p] points to the value stored at position [x].  [stable n x q]: what is known
      of the label of position [x] and stays true of it whatever is done later (a pointer that does not move, a
      position that does not change). *)
  Definition cmp_spec (npt : nT NO -> N -> ptr -> Prop) (n : nT NO) (x : N) (k l : list N) : Prop :=
    (k = l -> exists p i, n_compare NO n x k = Ret (Some p, i) /\ npt n x p) /\
    (k <> l -> n_compare NO n x k = Ret (None, N.of_nat (lcp k l))).

  Record blnm_ok {Q : Type} (stable : nT NO -> N -> Q -> Prop) (rep : N -> nT NO -> gmap N (list N * list N) -> Prop)
      (npt : nT NO -> N -> ptr -> Prop) : Prop := {
    bn_new : forall b, 16 <= b <= 56 -> exists n, n_new NO b = Ret n /\ rep (2 ^ b) n ∅;
    bn_compare : forall P n m x k l v, rep P n m -> m !! x = Some (l, v) ->
      (k = [] /\ l = []) \/ (okey k /\ okey l) -> cmp_spec npt n x k l;
    bn_insert : forall P n m x k, rep P n m -> x < P -> m !! x = None -> small (n_vs NO) k ->
      exists p n', n_insert NO n x k = Ret (p, n') /\ rep P n' (<[x := (k, zeros (n_vs NO))]> m) /\
        npt n' x p /\ (forall y q, stable n y q -> stable n' y q);
    bn_read : forall P n m x p, rep P n m -> npt n x p ->
      exists l v, m !! x = Some (l, v) /\ hp_read (n_heap NO n) p (n_vs NO) = Ret v;
    bn_write : forall P n m x p l v w, rep P n m -> npt n x p -> m !! x = Some (l, v) ->
      length w = n_vs NO ->
      exists h, hp_write (n_heap NO n) p w = Ret h /\ rep P (n_set_heap NO n h) (<[x := (l, w)]> m) /\
        (forall y q, npt n y q -> npt (n_set_heap NO n h) y q) /\
        (forall y q, stable n y q -> stable (n_set_heap NO n h) y q);
    bn_expand : forall P n m nm (f : N -> option N) m', rep P n m -> nm_size nm = P ->
      (exists b, 16 <= b <= 55 /\ P = 2 ^ b) ->
      (forall i, i < P -> nm_get nm i = Ret (default UINT64_MAX (f i))) ->
      (forall i j y, i < P -> j < P -> f i = Some y -> f j = Some y -> i = j) ->
      (forall i y, i < P -> f i = Some y -> y < 2 * P) ->
      (forall x e, m !! x = Some e -> x < P /\ is_Some (f x)) ->
      (forall y e, m' !! y = Some e <-> exists x, f x = Some y /\ m !! x = Some e) ->
      exists n', n_expand NO n nm = Ret n' /\ rep (2 * P) n' m' /\
        (forall x y q, stable n x q -> f x = Some y -> stable n' y q) }.

  Record flnm_ok {Q : Type} (stable : nT NO -> N -> Q -> Prop) (rep : N -> nT NO -> gmap N (list N * list N) -> Prop)
      (npt : nT NO -> N -> ptr -> Prop) : Prop := {
    fn_new : forall b, 16 <= b <= 56 -> exists n, n_new NO b = Ret n /\ rep 0 n ∅;
    fn_size : forall c n m, rep c n m -> n_size NO n = c;
    fn_compare : forall c n m x k l v, rep c n m -> m !! x = Some (l, v) ->
      (k = [] /\ l = []) \/ (okey k /\ okey l) -> cmp_spec npt n x k l;
    fn_append : forall c n m k, rep c n m -> c + 1 < 2 ^ 57 -> small (n_vs NO) k ->
      exists p n', n_append NO n k = Ret (p, n') /\ rep (c + 1) n' (<[c := (k, zeros (n_vs NO))]> m) /\
        npt n' c p /\ (forall y q, stable n y q -> stable n' y q);
    fn_dummy : forall c n m, rep c n m -> c + 1 < 2 ^ 57 ->
      exists n', n_append_dummy NO n = Ret n' /\ rep (c + 1) n' m /\
        (forall y q, stable n y q -> stable n' y q);
    fn_dom : forall c n m x e, rep c n m -> m !! x = Some e -> x < c;
    fn_read : forall c n m x p, rep c n m -> npt n x p ->
      exists l v, m !! x = Some (l, v) /\ hp_read (n_heap NO n) p (n_vs NO) = Ret v;
    fn_write : forall c n m x p l v w, rep c n m -> npt n x p -> m !! x = Some (l, v) ->
      length w = n_vs NO ->
      exists h, hp_write (n_heap NO n) p w = Ret h /\ rep c (n_set_heap NO n h) (<[x := (l, w)]> m) /\
        (forall y q, npt n y q -> npt (n_set_heap NO n h) y q) /\
        (forall y q, stable n y q -> stable (n_set_heap NO n h) y q) }.

  (** ** Trie and label store together: nodes by path, labels and values by path. *)
  Definition keeps {Q : Type} (stable : nT NO -> N -> Q -> Prop) (n n' : nT NO) (loc loc' : locmap) : Prop :=
    forall q x p, loc !! q = Some x -> stable n x p -> exists x', loc' !! q = Some x' /\ stable n' x' p.

  (** What a search through existing nodes may do to the trie: nothing, or enlarge the table of an FK-hash trie
      that is at its load limit. *)
  Definition quiet (loc : locmap) (b : N) (t : tT TO) (b' : N) (t' : tT TO) : Prop :=
    (t' = t /\ b' = b) \/ (t_kind TO = Fkhash /\ b < b' /\ max_size_of (2 ^ b) mf <= N.of_nat (size loc)).

  Record store_ok (B : bool) {Q : Type} (stable : nT NO -> N -> Q -> Prop) (srep : N -> tT TO -> nT NO -> locmap -> labmap -> Prop)
      (sfresh : N -> tT TO -> nT NO -> Prop) (npt : nT NO -> N -> ptr -> Prop) : Prop := {
    so_lim : l_max L <= node_limit mf sb;
    so_default : t_size TO (t_default TO) = 0;
    so_new : forall cb, N.max 16 cb <= bits_limit sb -> l_b0 L = N.max 16 cb ->
      exists t n, t_new TO cb sb = Ret t /\ n_new NO (p2_bits (t_capa TO t)) = Ret n /\
        sfresh (N.max 16 cb) t n;
    so_fresh : forall b t n, sfresh b t n -> t_size TO t = 0 /\ t_capa TO t = mkP2 b (N.ones b);
    so_fresh_b : forall b t n, sfresh b t n -> b = l_b0 L;
    so_first : forall b t n k, sfresh b t n -> small (n_vs NO) k ->
      exists p t' n' r, add_first TO NO k t n = Ret (p, t', n') /\
        srep b t' n' {[ [] := r ]} {[ [] := (k, zeros (n_vs NO)) ]} /\ npt n' r p;
    so_b : forall b t n loc lab, srep b t n loc lab -> 16 <= b <= bits_limit sb;
    so_capa : forall b t n loc lab, srep b t n loc lab -> t_capa TO t = mkP2 b (N.ones b);
    so_size : forall b t n loc lab, srep b t n loc lab -> t_size TO t = N.of_nat (size loc);
    so_load : forall b t n loc lab, srep b t n loc lab ->
      match t_kind TO with Bonsai => t_size TO t < max_size_of (2 ^ b) mf
                         | Fkhash => t_size TO t <= max_size_of (2 ^ b) mf end;
    so_tight : forall b t n loc lab, srep b t n loc lab -> tight L mf b loc;
    so_root : forall b t n loc lab, srep b t n loc lab ->
      exists r, t_get_root TO t = Ret r /\ loc !! [] = Some r;
    so_inj : forall b t n loc lab p q x, srep b t n loc lab -> loc !! p = Some x -> loc !! q = Some x -> p = q;
    so_pref : forall b t n loc lab s p, srep b t n loc lab -> is_Some (loc !! (s :: p)) -> is_Some (loc !! p);
    so_id : forall b t n loc lab p x, srep b t n loc lab -> loc !! p = Some x -> x < 2 ^ 57;
    so_fk : t_kind TO = Fkhash -> forall b t n loc lab, srep b t n loc lab ->
      n_size NO n = N.of_nat (size loc) /\ (forall p x, loc !! p = Some x -> x < N.of_nat (size loc));
    so_lab : forall b t n loc lab p e, srep b t n loc lab -> lab !! p = Some e -> is_Some (loc !! p);
    so_find : forall b t n loc lab p v s, srep b t n loc lab -> loc !! p = Some v -> s < 2 ^ sb ->
      t_find_child TO t v s = Ret (default nil_id (loc !! (s :: p)));
    so_compare : forall b t n loc lab q x k l v, srep b t n loc lab -> loc !! q = Some x ->
      lab !! q = Some (l, v) -> (k = [] /\ l = []) \/ (okey k /\ okey l) -> cmp_spec npt n x k l;
    so_step : forall b t n loc lab p x, srep b t n loc lab -> loc !! p = Some x -> step_symb < 2 ^ sb ->
      N.of_nat (size loc) + 1 < l_max L ->
      wpx L (add_step TO NO x t n) (fun '(x', t', n') => exists b' loc', b <= b' /\
        srep b' t' n' loc' lab /\ loc' !! (step_symb :: p) = Some x' /\
        dom loc' = {[ step_symb :: p ]} ∪ dom loc /\ keeps stable n n' loc loc');
    so_leaf : forall b t n loc lab p x s k, srep b t n loc lab -> loc !! p = Some x -> s < 2 ^ sb ->
      (B = true -> s :: p <> [0]) -> olab k -> small (n_vs NO) k ->
      N.of_nat (size loc) + 1 < l_max L ->
      wpx L (add_leaf TO NO x s k t n) (fun '(o, x', t', n') => exists b' loc', b <= b' /\
        loc' !! (s :: p) = Some x' /\ keeps stable n n' loc loc' /\
        match loc !! (s :: p) with
        | Some _ => o = None /\ srep b' t' n' loc' lab /\ dom loc' = dom loc
        | None => exists pt, o = Some pt /\ npt n' x' pt /\ dom loc' = {[ s :: p ]} ∪ dom loc /\
            srep b' t' n' loc' (<[s :: p := (k, zeros (n_vs NO))]> lab)
        end);
    so_step_old : forall b t n loc lab p x y, srep b t n loc lab -> loc !! p = Some x -> step_symb < 2 ^ sb ->
      N.of_nat (size loc) + 1 < l_max L -> loc !! (step_symb :: p) = Some y ->
      wpx L (add_step TO NO x t n) (fun '(x', t', n') => x' = y /\ n' = n /\
        exists b', srep b' t' n loc lab /\ quiet loc b t b' t');
    so_leaf_old : forall b t n loc lab p x s k y, srep b t n loc lab -> loc !! p = Some x -> s < 2 ^ sb ->
      (B = true -> s :: p <> [0]) -> N.of_nat (size loc) + 1 < l_max L -> loc !! (s :: p) = Some y ->
      wpx L (add_leaf TO NO x s k t n) (fun '(o, x', t', n') => o = None /\ x' = y /\ n' = n /\
        exists b', srep b' t' n loc lab /\ quiet loc b t b' t');
    so_read : forall b t n loc lab q x p, srep b t n loc lab -> loc !! q = Some x -> npt n x p ->
      exists l v, lab !! q = Some (l, v) /\ hp_read (n_heap NO n) p (n_vs NO) = Ret v;
    so_write : forall b t n loc lab q x p l v w, srep b t n loc lab -> loc !! q = Some x -> npt n x p ->
      lab !! q = Some (l, v) -> length w = n_vs NO ->
      exists h, hp_write (n_heap NO n) p w = Ret h /\
        srep b t (n_set_heap NO n h) loc (<[q := (l, w)]> lab) /\
        (forall y r, npt n y r -> npt (n_set_heap NO n h) y r) /\
        (forall y r, stable n y r -> stable (n_set_heap NO n h) y r) }.
End contracts.

Lemma wpx_weak {A} (L L' : Prop) (r : outcome A) Q : (L -> L') -> wpx L r Q -> wpx L' r Q.
Proof. destruct r; simpl; auto. Qed.
(** A contract that tolerates more failed assertions. *)
Lemma store_ok_weak TO NO (L L' : lims) mf sb B {Q : Type} (stable : nT NO -> N -> Q -> Prop) srep sfresh npt :
  (l_fail L -> l_fail L') -> l_max L' = l_max L -> l_b0 L' = l_b0 L ->
  store_ok TO NO L mf sb B stable srep sfresh npt -> store_ok TO NO L' mf sb B stable srep sfresh npt.
Proof.
  intros HF HM HB0 H. destruct H. constructor; try assumption; unfold tight; rewrite ?HM, ?HB0; try assumption;
    intros; eapply wpx_weak; eauto.
Qed.

(** What stays true of a label: its position (FK-hash stores), and the place of its value once the position is
    [frz]en for a store with that many labels. *)
Definition tok {NO : nlm_ops} (fk : bool) (frz : N -> N -> Prop) (npt : nT NO -> N -> ptr -> Prop)
    (n : nT NO) (x : N) (q : N + ptr) : Prop :=
  match q with inl y => fk = true /\ y = x | inr p => frz (n_size NO n) x /\ npt n x p end.
