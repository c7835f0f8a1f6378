(** Model of include/poplar/plain_bonsai_nlm.hpp and plain_fkhash_nlm.hpp. *)
From Verif.Model Require Export Heap.
Local Open Scope N_scope.

(** The loop of plain_bonsai_nlm.hpp:59-63 and plain_fkhash_nlm.hpp:60-64:
    (all [key] matched, index reached). *)
Fixpoint plain_cmp (key blk : list N) (i : N) : outcome (bool * N) :=
  match key with
  | [] => Ret (true, i)
  | k :: key =>
      match blk with
      | [] => UB
      | x :: blk => if k =? x then plain_cmp key blk (i + 1) else Ret (false, i)
      end
  end.
(** plain_bonsai_nlm.hpp:49-66, plain_fkhash_nlm.hpp:50-67 [compare] (identical code) *)
Definition plain_compare (ptrs : vec (option N)) (h : heap) (pos : N) (key : list N)
  : outcome (option ptr * N) :=
  let* _ := assert_ (pos <? vlen ptrs) in
  let* p := vget ptrs pos in
  match p with
  | None => AssertFail
  | Some id =>
      let* blk := hp_block h id in
      match key with
      | [] => Ret (Some (id, 0), 0)
      | _ =>
          let* r := plain_cmp key blk 0 in
          if fst r then Ret (Some (id, snd r), snd r) else Ret (None, snd r)
      end
  end.

(** plain_bonsai_nlm.hpp:134-136 *)
Record pbn := mkPBN { pbn_ptrs : vec (option N); pbn_size : N; pbn_bytes : N; pbn_heap : heap }.
(** plain_bonsai_nlm.hpp:43 *)
Definition pbn_default : pbn := mkPBN (vnew 0 None) 0 0 hp_empty.
(** plain_bonsai_nlm.hpp:45 *)
Definition pbn_new (capa_bits : N) : outcome pbn :=
  if capa_bits <? 64 then Ret (mkPBN (vnew (shl 1 capa_bits) None) 0 0 hp_empty) else UB.
Definition pbn_compare (n : pbn) := plain_compare (pbn_ptrs n) (pbn_heap n).
(** plain_bonsai_nlm.hpp:68-89; [vs] is sizeof(value_type) *)
Definition pbn_insert (vs : nat) (n : pbn) (pos : N) (key : list N) : outcome (ptr * pbn) :=
  let* p := vget (pbn_ptrs n) pos in
  let* _ := assert_ (match p with None => true | Some _ => false end) in
  let length := N.of_nat (length key) in
  let* blk := fill (length + N.of_nat vs) (key ++ zeros vs) in
  let '(id, h) := hp_alloc (pbn_heap n) blk in
  let* ptrs := vset (pbn_ptrs n) pos (Some id) in
  Ret ((id, length),
       mkPBN ptrs (add64 (pbn_size n) 1) (add64 (pbn_bytes n) (length + N.of_nat vs)) h).

(** Releasing every block a vector of unique_ptr still owns (its destructor). *)
Definition free_all (v : vec (option N)) (h : heap) : outcome heap :=
  let* r := N.iter (vlen v) (fun o =>
    let* st := o in
    let '(i, h) := st in
    let* p := vget v i in
    let* h := hp_delete h p in
    Ret (i + 1, h)) (Ret (0, h)) in
  Ret (snd r).

(** plain_bonsai_nlm.hpp:91-100; move assignment of a unique_ptr releases the target's block and
    empties the source; line 99 releases what the old vector still owns. *)
Definition pbn_expand (n : pbn) (pos_map : node_map) : outcome pbn :=
  let new_ptrs := vnew (mul64 (vlen (pbn_ptrs n)) 2) None in
  let* st :=
    for_range 0 (nm_size pos_map) (fun i st =>
      let '(ptrs, new_ptrs, h) := st in
      let* y := nm_get pos_map i in
      if negb (y =? UINT64_MAX) then
        let* p := vget ptrs i in
        let* old := vget new_ptrs y in
        let* new_ptrs := vset new_ptrs y p in
        let* ptrs := vset ptrs i None in
        let* h := hp_delete h old in
        Ret (ptrs, new_ptrs, h)
      else Ret st) (pbn_ptrs n, new_ptrs, pbn_heap n) in
  let '(ptrs, new_ptrs, h) := st in
  let* h := free_all ptrs h in
  Ret (mkPBN new_ptrs (pbn_size n) (pbn_bytes n) h).

Definition pbn_ops (vs : nat) : nlm_ops := {|
  nT := pbn; n_vs := vs; n_default := pbn_default; n_new := pbn_new; n_heap := pbn_heap;
  n_set_heap := fun n h => mkPBN (pbn_ptrs n) (pbn_size n) (pbn_bytes n) h;
  n_compare := pbn_compare; n_insert := pbn_insert vs; n_expand := pbn_expand;
  n_append := fun _ _ => UB; n_append_dummy := fun _ => UB; n_size := pbn_size |}.

(** plain_fkhash_nlm.hpp:120-121 *)
Record pfn := mkPFN { pfn_ptrs : vec (option N); pfn_bytes : N; pfn_heap : heap }.
(** plain_fkhash_nlm.hpp:42 *)
Definition pfn_default : pfn := mkPFN (vnew 0 None) 0 hp_empty.
(** plain_fkhash_nlm.hpp:44-46; reserve has no visible effect *)
Definition pfn_new (capa_bits : N) : outcome pfn :=
  if capa_bits <? 64 then Ret pfn_default else UB.
Definition pfn_compare (n : pfn) := plain_compare (pfn_ptrs n) (pfn_heap n).
(** plain_fkhash_nlm.hpp:69-86 *)
Definition pfn_append (vs : nat) (n : pfn) (key : list N) : outcome (ptr * pfn) :=
  let length := N.of_nat (length key) in
  let* blk := fill (length + N.of_nat vs) (key ++ zeros vs) in
  let '(id, h) := hp_alloc (pfn_heap n) blk in
  Ret ((id, length),
       mkPFN (vpush (pfn_ptrs n) (Some id)) (add64 (pfn_bytes n) (length + N.of_nat vs)) h).
(** plain_fkhash_nlm.hpp:88-90 *)
Definition pfn_append_dummy (n : pfn) : outcome pfn :=
  Ret (mkPFN (vpush (pfn_ptrs n) None) (pfn_bytes n) (pfn_heap n)).
(** plain_fkhash_nlm.hpp:92-94 *)
Definition pfn_size (n : pfn) : N := vlen (pfn_ptrs n).

Definition pfn_ops (vs : nat) : nlm_ops := {|
  nT := pfn; n_vs := vs; n_default := pfn_default; n_new := pfn_new; n_heap := pfn_heap;
  n_set_heap := fun n h => mkPFN (pfn_ptrs n) (pfn_bytes n) h;
  n_compare := pfn_compare; n_insert := fun _ _ _ => UB; n_expand := fun _ _ => UB;
  n_append := pfn_append vs; n_append_dummy := pfn_append_dummy; n_size := pfn_size |}.
