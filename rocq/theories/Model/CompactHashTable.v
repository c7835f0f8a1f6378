(** Model of include/poplar/compact_hash_table.hpp. *)
From Verif.Model Require Export Hash MaxSize CompactVector.
Local Open Scope N_scope.

Section hash.
(** the template parameter Hasher *)
Context {H : bij_hasher}.
(** compact_hash_table.hpp:255-263 (fields; statistics are left out) *)
Record cht := mkCht {
  ch_hasher : hasher; ch_table : compact_vector; ch_size : N; ch_max : N;
  ch_univ : size_p2; ch_capa : size_p2; ch_quo : size_p2; ch_quo_shift : N; ch_quo_invmask : N }.

(** compact_hash_table.hpp:41 *)
Definition ch_min_capa_bits : N := 12.
(** compact_hash_table.hpp:44 *)
Definition ch_nil : N := UINT64_MAX.
(** compact_hash_table.hpp:47 default constructor *)
Definition ch_default : cht :=
  mkCht hasher_default cv_default 0 0 p2_default p2_default p2_default 0 0.

Section cht.
  (** Template parameters ValBits and MaxFactor (compact_hash_table.hpp:35). *)
  Context (vb mf : N).

  (** compact_hash_table.hpp:43 *)
  Definition ch_val_mask : N := sub64 (shl 1 vb) 1.

  (** compact_hash_table.hpp:49-63 *)
  Definition ch_new (univ_bits capa_bits : N) : outcome cht :=
    let* u := p2_new univ_bits in
    let* c := p2_new (N.max ch_min_capa_bits capa_bits) in
    let* _ := assert_ (p2_bits c <=? p2_bits u) in
    let* q := p2_new (p2_bits u - p2_bits c) in
    let quo_shift := 2 + vb in
    let quo_invmask := not64 (shl (p2_mask q) quo_shift) in
    let* h := hasher_new (p2_bits u) in
    let* table := cv_new_init (p2_size c) (p2_bits q + vb + 2) (N.lor (shl ch_val_mask 2) 1) in
    Ret (mkCht h table 0 (max_size_of (p2_size c) mf) u c q quo_shift quo_invmask).

  (** compact_hash_table.hpp:315-317 [decompose_] *)
  Definition ch_decompose (t : cht) (x : N) : N * N :=
    (shr x (p2_bits (ch_capa t)), N.land x (p2_mask (ch_capa t))).
  (** compact_hash_table.hpp:319-321 [left_] *)
  Definition ch_left (t : cht) (i : N) : N := N.land (sub64 i 1) (p2_mask (ch_capa t)).
  (** compact_hash_table.hpp:322-324 [right_] *)
  Definition ch_right (t : cht) (i : N) : N := N.land (add64 i 1) (p2_mask (ch_capa t)).
  (** compact_hash_table.hpp:329-331 [get_quo_] *)
  Definition ch_get_quo (t : cht) (i : N) : outcome N :=
    let* x := cv_get (ch_table t) i in Ret (shr x (ch_quo_shift t)).
  (** compact_hash_table.hpp:332-334 [get_val_] *)
  Definition ch_get_val (t : cht) (i : N) : outcome N :=
    let* x := cv_get (ch_table t) i in Ret (N.land (shr x 2) ch_val_mask).
  (** compact_hash_table.hpp:335-337 [get_vbit_] *)
  Definition ch_get_vbit (t : cht) (i : N) : outcome bool :=
    let* x := cv_get (ch_table t) i in Ret (N.land x 2 =? 2).
  (** compact_hash_table.hpp:338-340 [get_cbit_] *)
  Definition ch_get_cbit (t : cht) (i : N) : outcome bool :=
    let* x := cv_get (ch_table t) i in Ret (N.land x 1 =? 1).
  (** compact_hash_table.hpp:325-327 [is_vacant_] *)
  Definition ch_is_vacant (t : cht) (i : N) : outcome bool :=
    let* v := ch_get_val t i in Ret (v =? ch_val_mask).

  (** [table_ = ...], [++size_] *)
  Definition ch_with_table (t : cht) (tab : compact_vector) : cht :=
    mkCht (ch_hasher t) tab (ch_size t) (ch_max t) (ch_univ t) (ch_capa t) (ch_quo t) (ch_quo_shift t) (ch_quo_invmask t).
  Definition ch_with_size (t : cht) (n : N) : cht :=
    mkCht (ch_hasher t) (ch_table t) n (ch_max t) (ch_univ t) (ch_capa t) (ch_quo t) (ch_quo_shift t) (ch_quo_invmask t).
  (** [table_.set(i, x)] *)
  Definition ch_put (t : cht) (i x : N) : outcome cht :=
    let* tab := cv_set (ch_table t) i x in Ret (ch_with_table t tab).

  (** compact_hash_table.hpp:342-345 [set_quo_] *)
  Definition ch_set_quo (t : cht) (i quo : N) : outcome cht :=
    let* _ := assert_ (quo <? p2_size (ch_quo t)) in
    let* x := cv_get (ch_table t) i in
    ch_put t i (N.lor (N.land x (ch_quo_invmask t)) (shl quo (ch_quo_shift t))).
  (** compact_hash_table.hpp:346-349 [set_val_] *)
  Definition ch_set_val (t : cht) (i val : N) : outcome cht :=
    let* _ := assert_ (val <=? ch_val_mask) in
    let* x := cv_get (ch_table t) i in
    ch_put t i (N.lor (N.land x (not64 (shl ch_val_mask 2))) (shl val 2)).
  (** compact_hash_table.hpp:350-352 [set_vbit_] *)
  Definition ch_set_vbit (t : cht) (i : N) (bit : bool) : outcome cht :=
    let* x := cv_get (ch_table t) i in
    ch_put t i (N.lor (N.land x (not64 2)) (shl (b2n bit) 1)).
  (** compact_hash_table.hpp:353-355 [set_cbit_] *)
  Definition ch_set_cbit (t : cht) (i : N) (bit : bool) : outcome cht :=
    let* x := cv_get (ch_table t) i in
    ch_put t i (N.lor (N.land x (not64 1)) (b2n bit)).
  (** compact_hash_table.hpp:358-362 [copy_from_right_] *)
  Definition ch_copy_from_right (t : cht) (i : N) : outcome (N * cht) :=
    let r := ch_right t i in
    let* x := cv_get (ch_table t) r in
    let* v := ch_get_vbit t i in
    let* t := ch_put t i (N.lor (N.land x (not64 2)) (shl (b2n v) 1)) in
    Ret (r, t).
  (** compact_hash_table.hpp:364-368 [update_slot_] *)
  Definition ch_update_slot (t : cht) (i quo val : N) (vbit cbit : bool) : outcome cht :=
    let* _ := assert_ (quo <? p2_size (ch_quo t)) in
    let* _ := assert_ (val <=? ch_val_mask) in
    ch_put t i (N.lor (N.lor (N.lor (shl quo (ch_quo_shift t)) (shl val 2)) (shl (b2n vbit) 1)) (b2n cbit)).

  (** compact_hash_table.hpp:279-303 [find_ass_cbit_]; returns (slot_id, empty_id) *)
  Definition ch_find_ass_cbit (t : cht) (slot_id : N) : outcome (N * N) :=
    let* r := loop (fun st : N * N =>
      let '(slot_id, num_vbits) := st in
      let* v := ch_get_vbit t slot_id in
      let num_vbits := if v then add64 num_vbits 1 else num_vbits in
      let slot_id := ch_left t slot_id in
      let* e := ch_is_vacant t slot_id in
      if e then Ret (inr (slot_id, num_vbits)) else Ret (inl (slot_id, num_vbits))) (slot_id, 0) in
    let '(empty_id, num_vbits) := r in
    if num_vbits =? 0 then Ret (UINT64_MAX, empty_id)
    else
      let* slot_id := loop (fun st : N * N =>
        let '(slot_id, num_cbits) := st in
        if num_cbits <? num_vbits then
          let slot_id := ch_right t slot_id in
          let* c := ch_get_cbit t slot_id in
          Ret (inl (slot_id, if c then add64 num_cbits 1 else num_cbits))
        else Ret (inr slot_id)) (empty_id, 0) in
      Ret (slot_id, empty_id).
  (** compact_hash_table.hpp:305-313 [find_item_]; returns (result, slot_id) *)
  Definition ch_find_item (t : cht) (slot_id quo : N) : outcome (bool * N) :=
    loop (fun slot_id =>
      let* q := ch_get_quo t slot_id in
      if q =? quo then Ret (inr (true, slot_id))
      else
        let slot_id := ch_right t slot_id in
        let* c := ch_get_cbit t slot_id in
        if c then Ret (inr (false, slot_id)) else Ret (inl slot_id)) slot_id.

  (** compact_hash_table.hpp:67-85 *)
  Definition ch_get (t : cht) (key : N) : outcome N :=
    let* _ := assert_ (key <? p2_size (ch_univ t)) in
    let* x := hasher_hash (ch_hasher t) key in
    let '(quo, mod_) := ch_decompose t x in
    let* v := ch_get_vbit t mod_ in
    if negb v then Ret ch_nil
    else
      let* r := ch_find_ass_cbit t mod_ in
      let slot_id := fst r in
      if slot_id =? UINT64_MAX then Ret ch_nil
      else
        let* f := ch_find_item t slot_id quo in
        let '(found, slot_id) := f in
        if negb found then Ret ch_nil else ch_get_val t slot_id.

  (** compact_hash_table.hpp:116-118: do slot_id = right_(slot_id) while (!get_cbit_(slot_id)) *)
  Definition ch_next_cbit (t : cht) (slot_id : N) : outcome N :=
    loop (fun slot_id =>
      let slot_id := ch_right t slot_id in
      let* c := ch_get_cbit t slot_id in
      if c then Ret (inr slot_id) else Ret (inl slot_id)) slot_id.
  (** compact_hash_table.hpp:122-124, :140-142: while (empty_id != slot_id) empty_id = copy_from_right_(empty_id) *)
  Definition ch_shift (t : cht) (empty_id slot_id : N) : outcome (N * cht) :=
    loop (fun st : N * cht =>
      let '(empty_id, t) := st in
      if negb (empty_id =? slot_id) then
        let* r := ch_copy_from_right t empty_id in Ret (inl r)
      else Ret (inr (empty_id, t))) (empty_id, t).

  (** compact_hash_table.hpp:101-151: [set] after the expansion check *)
  Definition ch_insert (t : cht) (key val : N) : outcome (bool * cht) :=
    let* x := hasher_hash (ch_hasher t) key in
    let '(quo, mod_) := ch_decompose t x in
    let* e := ch_is_vacant t mod_ in
    if e then
      let* t := ch_update_slot t mod_ quo val true true in
      Ret (true, ch_with_size t (add64 (ch_size t) 1))
    else
      let* r := ch_find_ass_cbit t mod_ in
      let '(slot_id, empty_id) := r in
      let finish (empty_id : N) (t : cht) :=
        let* t := ch_set_quo t empty_id quo in
        let* t := ch_set_val t empty_id val in
        Ret (true, ch_with_size t (add64 (ch_size t) 1)) in
      let* v := ch_get_vbit t mod_ in
      if negb v then
        let* r :=
          (if negb (slot_id =? UINT64_MAX) then
             let* slot_id := ch_next_cbit t slot_id in
             ch_shift t empty_id (ch_left t slot_id)
           else Ret (empty_id, t)) in
        let '(empty_id, t) := r in
        let* t := ch_set_vbit t mod_ true in
        let* t := ch_set_cbit t empty_id true in
        finish empty_id t
      else
        let* f := ch_find_item t slot_id quo in
        let '(found, slot_id) := f in
        if found then
          let* t := ch_set_val t slot_id val in Ret (false, t)
        else
          let* r := ch_shift t empty_id (ch_left t slot_id) in
          let '(empty_id, t) := r in
          let* t := ch_set_cbit t empty_id false in
          finish empty_id t.

  (** compact_hash_table.hpp:154-209 [clone], with the mapper as a parameter.  The state of the loops is
      (i, completed, new_cht). *)
  Definition ch_clone_with {A} (mapper : A -> N -> N -> outcome A) (t : cht) (new_cht : A) : outcome A :=
    let* beg := loop (fun i =>
      let* e := ch_is_vacant t i in
      if negb e then Ret (inl (ch_right t i)) else Ret (inr i)) 0 in
    let* r := loop (fun st : N * bool * A =>
      let '(i, completed, new_cht) := st in
      if completed then Ret (inr new_cht)
      else
        let* r := loop (fun st : N * bool =>
          let '(i, completed) := st in
          let* e := ch_is_vacant t i in
          if e then
            let i := ch_right t i in
            Ret (inl (i, if i =? beg then true else completed))
          else Ret (inr (i, completed))) (i, completed) in
        let '(i, completed) := r in
        let* c := ch_get_cbit t i in
        let* _ := assert_ c in
        let* r := loop (fun st : N * N * bool * A =>
          let '(i, init_id, completed, new_cht) := st in
          let* init_id := loop (fun init_id =>
            let* v := ch_get_vbit t init_id in
            if negb v then Ret (inl (ch_right t init_id)) else Ret (inr init_id)) init_id in
          let* r := loop (fun st : N * bool * A =>
            let '(i, completed, new_cht) := st in
            let* e := ch_is_vacant t i in
            let* _ := assert_ (negb e) in
            let* quo := ch_get_quo t i in
            let* key := hasher_hash_inv (ch_hasher t) (N.lor (shl quo (p2_bits (ch_capa t))) init_id) in
            let* val := ch_get_val t i in
            let* new_cht := mapper new_cht key val in
            let i := ch_right t i in
            let completed := if i =? beg then true else completed in
            let* c := ch_get_cbit t i in
            if c then Ret (inr (i, completed, new_cht)) else Ret (inl (i, completed, new_cht)))
            (i, completed, new_cht) in
          let '(i, completed, new_cht) := r in
          let init_id := ch_right t init_id in
          if negb (i =? init_id) then Ret (inl (i, init_id, completed, new_cht))
          else Ret (inr (i, completed, new_cht))) (i, i, completed, new_cht) in
        Ret (inl r)) (ch_right t beg, false, new_cht) in
    Ret r.
  Definition ch_clone (set : cht -> N -> N -> outcome (bool * cht)) (t new_cht : cht) : outcome cht :=
    let* _ := throw_if (negb (ch_size new_cht =? 0)) ExCloneNotEmpty in
    let* _ := throw_if (ch_max new_cht <? ch_size t) ExCloneSmall in
    let* r := ch_clone_with (fun n k v => let* r := set n k v in Ret (snd r)) t new_cht in
    let* _ := assert_ (ch_size t =? ch_size r) in
    Ret r.

  (** compact_hash_table.hpp:87-152 [set]; [set] and [clone] are mutually recursive, [fuel] bounds the
      depth (the real depth is at most 2). *)
  Fixpoint ch_set_aux (fuel : nat) (t : cht) (key val : N) : outcome (bool * cht) :=
    match fuel with
    | O => Diverge
    | S fuel =>
        let* _ := assert_ (key <? p2_size (ch_univ t)) in
        let* _ := assert_ (val <? ch_val_mask) in
        let* t :=
          (if ch_max t <=? ch_size t then
             let* new_cht := ch_new (p2_bits (ch_univ t)) (p2_bits (ch_capa t) + 1) in
             ch_clone (ch_set_aux fuel) t new_cht
           else Ret t) in
        ch_insert t key val
    end.
  Definition ch_set (t : cht) (key val : N) : outcome (bool * cht) := ch_set_aux 64 t key val.
End cht.
End hash.
