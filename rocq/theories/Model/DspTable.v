(** The slots of the compact tries: quotients and displacements.  The functions below are textually the same
    in compact_bonsai_trie.hpp and compact_fkhash_trie.hpp and are modelled once, over a record holding the
    members they use. *)
From Verif.Model Require Export CompactHashTable StdTable PlainBonsaiTrie.
Local Open Scope N_scope.

(** The template arguments Hasher of the trie, of its AuxCht and of its AuxMap. *)
Class trie_hashers := TrieHashers { th_trie : bij_hasher; th_cht : bij_hasher; th_map : plain_hasher }.
(** the defaults (compact_bonsai_trie.hpp:36, compact_hash_table.hpp:34, standard_hash_table.hpp:32) *)
Definition std_hashers : trie_hashers := TrieHashers split_mix_hasher split_mix_hasher vigna_hasher.

Section hash.
Context {H : trie_hashers}.
(** compact_bonsai_trie.hpp:332-339, compact_fkhash_trie.hpp:198-206 (hasher_, table_, aux_cht_, aux_map_,
    capa_size_, symb_size_) *)
Record dsp_table := mkDT {
  dt_hasher : @hasher th_trie; dt_table : compact_vector; dt_cht : @cht th_cht; dt_map : std_table;
  dt_capa : size_p2; dt_symb : size_p2 }.
(** default member initialisers *)
Definition dt_default : dsp_table := mkDT (@hasher_default th_trie) cv_default ch_default st_default p2_default p2_default.
Definition dt_with_table (t : dsp_table) (tab : compact_vector) : dsp_table :=
  mkDT (dt_hasher t) tab (dt_cht t) (dt_map t) (dt_capa t) (dt_symb t).

(** Template parameters: Dsp1Bits, AuxCht = compact_hash_table<vb, cmf>, AuxMap = standard_hash_table<smf>
    (compact_bonsai_trie.hpp:35-36, compact_fkhash_trie.hpp:35-36). *)
Record dsp_params := mkDP { dp_d1 : N; dp_vb : N; dp_cmf : N; dp_smf : N }.
(** the defaults: 4, compact_hash_table<7> (MaxFactor 80), standard_hash_table<> (MaxFactor 80) *)
Definition dp_std : dsp_params := mkDP 4 7 80 80.

Section dsp.
  Context (P : dsp_params).

  (** compact_bonsai_trie.hpp:50, compact_fkhash_trie.hpp:50 *)
  Definition dsp1_mask : N := sub64 (shl 1 (dp_d1 P)) 1.
  (** compact_bonsai_trie.hpp:52, compact_fkhash_trie.hpp:52 (a uint32_t) *)
  Definition dsp2_mask : N := N.land (ch_val_mask (dp_vb P)) 4294967295.

  (** compact_bonsai_trie.hpp:60-68 without max_size_, compact_fkhash_trie.hpp:60-65 likewise *)
  Definition dt_new (capa_bits symb_bits cht_capa_bits : N) : outcome dsp_table :=
    let* c := p2_new (N.max trie_min_capa_bits capa_bits) in
    let* s := p2_new symb_bits in
    let* h := @hasher_new th_trie (p2_bits c + p2_bits s) in
    let* table := cv_new (p2_size c) (p2_bits s + dp_d1 P) in
    let* aux := @ch_new th_cht (dp_vb P) (dp_cmf P) (p2_bits c) cht_capa_bits in
    Ret (mkDT h table aux st_default c s).

  (** compact_bonsai_trie.hpp:345-347, compact_fkhash_trie.hpp:212-214 [make_key_]: [make_key];
      compact_bonsai_trie.hpp:351-353, compact_fkhash_trie.hpp:218-220 [right_]: [right_of]
      (both as in PlainBonsaiTrie.v).
      compact_bonsai_trie.hpp:348-350, compact_fkhash_trie.hpp:215-217 [decompose_] *)
  Definition dt_decompose (t : dsp_table) (x : N) : N * N :=
    (shr x (p2_bits (dt_capa t)), N.land x (p2_mask (dt_capa t))).
  (** compact_bonsai_trie.hpp:355-357, compact_fkhash_trie.hpp:222-224 *)
  Definition dt_get_quo (t : dsp_table) (i : N) : outcome N :=
    let* x := cv_get (dt_table t) i in Ret (shr x (dp_d1 P)).
  (** compact_bonsai_trie.hpp:358-370, compact_fkhash_trie.hpp:225-237 *)
  Definition dt_get_dsp (t : dsp_table) (i : N) : outcome N :=
    let* x := cv_get (dt_table t) i in
    let dsp := N.land x dsp1_mask in
    if dsp <? dsp1_mask then Ret dsp
    else
      let* dsp := ch_get (dp_vb P) (dt_cht t) i in
      if negb (dsp =? ch_nil) then Ret (add64 dsp dsp1_mask)
      else @st_get th_map (dt_map t) i.
  (** compact_bonsai_trie.hpp:372-392, compact_fkhash_trie.hpp:239-259 *)
  Definition dt_compare_dsp (t : dsp_table) (i rhs : N) : outcome bool :=
    let* x := cv_get (dt_table t) i in
    let lhs := N.land x dsp1_mask in
    if lhs <? dsp1_mask then Ret (lhs =? rhs)
    else if rhs <? dsp1_mask then Ret false
    else
      let* lhs := ch_get (dp_vb P) (dt_cht t) i in
      if negb (lhs =? ch_nil) then Ret (add64 lhs dsp1_mask =? rhs)
      else if rhs <? add64 dsp1_mask dsp2_mask then Ret false
      else
        let* v := @st_get th_map (dt_map t) i in
        let* _ := assert_ (negb (v =? st_nil)) in
        Ret (v =? rhs).
  (** compact_bonsai_trie.hpp:394-423, compact_fkhash_trie.hpp:261-289 (statistics left out) *)
  Definition dt_update_slot (t : dsp_table) (i quo dsp : N) : outcome dsp_table :=
    let* x := cv_get (dt_table t) i in
    let* _ := assert_ (x =? 0) in
    let* _ := assert_ (quo <? p2_size (dt_symb t)) in
    let v := shl quo (dp_d1 P) in
    let* r :=
      (if dsp <? dsp1_mask then Ret (N.lor v dsp, t)
       else
         let v := N.lor v dsp1_mask in
         let dsp_ := sub64 dsp dsp1_mask in
         if dsp_ <? dsp2_mask then
           let* a := ch_set (dp_vb P) (dp_cmf P) (dt_cht t) i dsp_ in
           Ret (v, mkDT (dt_hasher t) (dt_table t) (snd a) (dt_map t) (dt_capa t) (dt_symb t))
         else
           let* a := @st_set th_map (dp_smf P) (dt_map t) i dsp in
           Ret (v, mkDT (dt_hasher t) (dt_table t) (dt_cht t) (snd a) (dt_capa t) (dt_symb t))) in
    let '(v, t) := r in
    let* tab := cv_set (dt_table t) i v in
    Ret (dt_with_table t tab).
  (** compact_bonsai_trie.hpp:151, compact_fkhash_trie.hpp:308: the first slot probed for the element of slot
      [i] at distance [dist] *)
  Definition dt_init_id (t : dsp_table) (i dist : N) : N :=
    if dist <=? i then i - dist else sub64 (cv_size (dt_table t)) (dist - i).
End dsp.
End hash.
