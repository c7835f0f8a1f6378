(** Model of include/poplar/standard_hash_table.hpp. *)
From Verif.Model Require Export Hash MaxSize.
Local Open Scope N_scope.

(** standard_hash_table.hpp:126-134 (slot_type and fields; statistics are left out) *)
Record std_table := mkST {
  st_table : vec (N * N); st_size : N; st_max : N; st_capa : size_p2 }.

(** standard_hash_table.hpp:39 *)
Definition st_min_capa_bits : N := 6.
(** standard_hash_table.hpp:40 *)
Definition st_nil : N := UINT64_MAX.
(** standard_hash_table.hpp:43 default constructor *)
Definition st_default : std_table := mkST (vnew 0 (UINT64_MAX, 0)) 0 0 p2_default.
(** standard_hash_table.hpp:45-49; [mf] is the template parameter MaxFactor *)
Definition st_new (mf capa_bits : N) : outcome std_table :=
  let* c := p2_new (N.max st_min_capa_bits capa_bits) in
  Ret (mkST (vnew (p2_size c) (UINT64_MAX, 0)) 0 (max_size_of (p2_size c) mf) c).

Section hash.
(** the template parameter Hasher *)
Context {H : plain_hasher}.
(** standard_hash_table.hpp:139-141 [init_id_] *)
Definition st_init_id (t : std_table) (key : N) : N := N.land (p_hash key) (p2_mask (st_capa t)).
(** standard_hash_table.hpp:142-144 [right_] *)
Definition st_right (t : std_table) (i : N) : N := N.land (add64 i 1) (p2_mask (st_capa t)).

(** standard_hash_table.hpp:53-66 *)
Definition st_get (t : std_table) (key : N) : outcome N :=
  if vlen (st_table t) =? 0 then Ret st_nil
  else
    loop (fun i =>
      let* s := vget (st_table t) i in
      if fst s =? UINT64_MAX then Ret (inr st_nil)
      else if fst s =? key then Ret (inr (snd s))
      else Ret (inl (st_right t i))) (st_init_id t key).

(** standard_hash_table.hpp:68-88 [set] and :146-160 [expand_], mutually recursive;
    [fuel] bounds the recursion depth (the real depth is at most 2). *)
Fixpoint st_set_aux (fuel : nat) (mf : N) (t : std_table) (key val : N)
  : outcome (bool * std_table) :=
  match fuel with
  | O => Diverge
  | S fuel =>
      let* t := (if vlen (st_table t) =? 0 then st_new mf st_min_capa_bits else Ret t) in
      let* t :=
        (if st_max t <=? st_size t then
           let* new_ht := st_new mf (p2_bits (st_capa t) + 1) in
           let* new_ht :=
             for_range 0 (vlen (st_table t)) (fun i new_ht =>
               let* s := vget (st_table t) i in
               if negb (fst s =? UINT64_MAX) then
                 let* r := st_set_aux fuel mf new_ht (fst s) (snd s) in Ret (snd r)
               else Ret new_ht) new_ht in
           let* _ := assert_ (st_size t =? st_size new_ht) in
           Ret new_ht
         else Ret t) in
      loop (fun i =>
        let* s := vget (st_table t) i in
        if fst s =? UINT64_MAX then
          let* tab := vset (st_table t) i (key, val) in
          Ret (inr (true, mkST tab (add64 (st_size t) 1) (st_max t) (st_capa t)))
        else if fst s =? key then
          let* tab := vset (st_table t) i (fst s, val) in
          Ret (inr (false, mkST tab (st_size t) (st_max t) (st_capa t)))
        else Ret (inl (st_right t i))) (st_init_id t key)
  end.
Definition st_set (mf : N) (t : std_table) (key val : N) : outcome (bool * std_table) :=
  st_set_aux 64 mf t key val.
End hash.
