(** standard_hash_table refines a finite map. *)
From Verif.Proofs Require Export ProbeP HashP MaxSizeP.
From Verif.Model Require Export StdTable.
Local Open Scope N_scope.

Section hash.
Context {HF : plain_hasher}.

Definition st_home (b k : N) : N := p_hash k mod 2 ^ b.
Definition st_cell (t : std_table) (i : N) : cell :=
  if fst (vnth (st_table t) i) =? UINT64_MAX then Vac else Full (fst (vnth (st_table t) i)).

Record st_rep (b : N) (t : std_table) (m : gmap N N) : Prop := {
  sr_capa : st_capa t = mkP2 b (N.ones b);
  sr_len : vlen (st_table t) = 2 ^ b;
  sr_b : 6 <= b <= 57;
  sr_pinv : pinv (2 ^ b) (st_home b) (st_cell t);
  sr_cnt : countb (fun i => is_full (st_cell t i)) (2 ^ b) = st_size t;
  sr_size : st_size t = N.of_nat (size m);
  sr_map : forall k v, m !! k = Some v <->
     k <> UINT64_MAX /\ exists i, i < 2 ^ b /\ vnth (st_table t) i = (k, v) }.

Lemma st_home_lt b k : st_home b k < 2 ^ b.
Proof. apply N.mod_lt. apply N.pow_nonzero. discriminate. Qed.
Lemma land_ones_mod' x b : N.land x (N.ones b) = x mod 2 ^ b.
Proof. apply N.land_ones. Qed.
Lemma p57_64 b : b <= 57 -> 2 ^ b <= 2 ^ 57.
Proof. apply pow2_le. Qed.
Lemma right_slot b h d : b <= 57 ->
  N.land (add64 (slot (2 ^ b) h d) 1) (N.ones b) = slot (2 ^ b) h (d + 1).
Proof.
  intros Hb. rewrite land_ones_mod. unfold add64. pose proof (pow2_pos b). pose proof (p57_64 b Hb).
  assert (slot (2 ^ b) h d < 2 ^ b) by (apply slot_lt; lia).
  rewrite w64_small. 2:{ change (2 ^ 64) with (2 ^ 57 * 128). lia. }
  apply slot_succ. lia.
Qed.

Section st.
  Context (b : N) (t : std_table) (m : gmap N N).
  Hypothesis H : st_rep b t m.

  Lemma st_full_cell i k : i < 2 ^ b -> st_cell t i = Full k <->
    k <> UINT64_MAX /\ exists v, vnth (st_table t) i = (k, v).
  Proof.
    intros Hi. unfold st_cell. destruct (vnth (st_table t) i) as [k' v'] eqn:E. simpl.
    destruct (N.eqb_spec k' UINT64_MAX) as [->|Hne]; split.
    - discriminate.
    - intros [Hk (v & Ev)]. congruence.
    - intros [= <-]. split; [exact Hne|]. eauto.
    - intros [_ (v & Ev)]. congruence.
  Qed.
  Lemma st_vacancy : st_size t < 2 ^ b -> exists v, v < 2 ^ b /\ st_cell t v = Vac.
  Proof.
    intros Hs. rewrite <- (sr_cnt b t m H) in Hs.
    destruct (countb_lt_ex _ _ Hs) as (i & Hi & Hf). exists i. split; [exact Hi|].
    unfold st_cell in *. destruct (_ =? _); [reflexivity|discriminate].
  Qed.
  Lemma st_init_slot k : st_init_id t k = slot (2 ^ b) (st_home b k) 0.
  Proof.
    unfold st_init_id. rewrite (sr_capa b t m H). simpl p2_mask. rewrite land_ones_mod.
    rewrite slot_0; [reflexivity|]. apply st_home_lt.
  Qed.
  Lemma st_right_slot h d : st_right t (slot (2 ^ b) h d) = slot (2 ^ b) h (d + 1).
  Proof.
    unfold st_right. rewrite (sr_capa b t m H). apply right_slot. apply (sr_b b t m H).
  Qed.
  Lemma st_M_pos : 0 < 2 ^ b. Proof. apply pow2_pos. Qed.
  Lemma st_M_64 : 2 ^ b <= 2 ^ 64. Proof. apply pow2_le. pose proof (sr_b b t m H). lia. Qed.

  Lemma st_get_ok k : k <> UINT64_MAX -> st_size t < 2 ^ b ->
    st_get t k = Ret (default st_nil (m !! k)).
  Proof.
    intros Hk Hs. unfold st_get. rewrite (sr_len b t m H).
    rewrite (proj2 (N.eqb_neq _ _)) by (pose proof st_M_pos; lia).
    rewrite st_init_slot.
    match goal with |- loop ?g _ = _ => set (f := g) end.
    destruct (probe_loop (2 ^ b) (st_home b) st_M_pos (st_home_lt b) f
       (fun d => slot (2 ^ b) (st_home b k) d) (st_cell t) k st_M_64 (sr_pinv b t m H) (st_vacancy Hs))
      as (d & Hd & Hpr & Hc & Hl).
    { intros d Hd H1 H2. unfold f. assert (Hlt := slot_lt (2 ^ b) st_M_pos (st_home b k) d).
      rewrite vget_ok by (rewrite (sr_len b t m H); exact Hlt). rewrite bind_ret.
      unfold st_cell in H1, H2. destruct (N.eqb_spec (fst (vnth (st_table t) (slot (2 ^ b) (st_home b k) d))) UINT64_MAX); [congruence|].
      destruct (N.eqb_spec (fst (vnth (st_table t) (slot (2 ^ b) (st_home b k) d))) k); [congruence|].
      rewrite st_right_slot. reflexivity. }
    assert (Hlt := slot_lt (2 ^ b) st_M_pos (st_home b k) d).
    assert (Hf : f (slot (2 ^ b) (st_home b k) d) = Ret (inr (default st_nil (m !! k)))).
    { unfold f. rewrite vget_ok by (rewrite (sr_len b t m H); exact Hlt). rewrite bind_ret.
      destruct Hc as [Hc|[Hc Hab]].
      - apply st_full_cell in Hc as [_ (v & Ev)]; [|exact Hlt]. rewrite Ev. simpl fst. simpl snd.
        rewrite (proj2 (N.eqb_neq _ _) Hk), N.eqb_refl.
        assert (E : m !! k = Some v) by (apply (sr_map b t m H); eauto). rewrite E. reflexivity.
      - unfold st_cell in Hc. destruct (_ =? _); [|discriminate].
        destruct (m !! k) as [v|] eqn:E; [|reflexivity].
        apply (sr_map b t m H) in E as [_ (i & Hi & Ei)]. exfalso. apply (Hab i Hi).
        apply st_full_cell; eauto. }
    rewrite Hl by (rewrite Hf; intros s; discriminate). rewrite Hf. reflexivity.
  Qed.
End st.

(** The insertion loop shared by [set] and growth. *)
Definition st_core (t : std_table) (key val : N) : outcome (bool * std_table) :=
  loop (fun i =>
        let* s := vget (st_table t) i in
        if fst s =? UINT64_MAX then
          let* tab := vset (st_table t) i (key, val) in
          Ret (inr (true, mkST tab (add64 (st_size t) 1) (st_max t) (st_capa t)))
        else if fst s =? key then
          let* tab := vset (st_table t) i (fst s, val) in
          Ret (inr (false, mkST tab (st_size t) (st_max t) (st_capa t)))
        else Ret (inl (st_right t i))) (st_init_id t key).

Lemma st_core_ok b t m key val : st_rep b t m -> key <> UINT64_MAX -> st_size t < 2 ^ b ->
  exists t', st_core t key val = Ret (bool_decide (m !! key = None), t') /\
    st_rep b t' (<[key := val]> m) /\ st_max t' = st_max t.
Proof.
  intros H Hk Hs. unfold st_core. rewrite (st_init_slot b t m H).
  match goal with |- context [loop ?g _] => set (f := g) end.
  assert (HM := st_M_pos b).
  destruct (probe_loop (2 ^ b) (st_home b) HM (st_home_lt b) f
     (fun d => slot (2 ^ b) (st_home b key) d) (st_cell t) key (st_M_64 b t m H) (sr_pinv b t m H)
     (st_vacancy b t m H Hs)) as (d & Hd & Hpr & Hc & Hl).
  { intros d Hd H1 H2. unfold f. assert (Hlt := slot_lt (2 ^ b) HM (st_home b key) d).
    rewrite vget_ok by (rewrite (sr_len b t m H); exact Hlt). rewrite bind_ret.
    unfold st_cell in H1, H2. destruct (N.eqb_spec (fst (vnth (st_table t) (slot (2 ^ b) (st_home b key) d))) UINT64_MAX); [congruence|].
    destruct (N.eqb_spec (fst (vnth (st_table t) (slot (2 ^ b) (st_home b key) d))) key); [congruence|].
    rewrite (st_right_slot b t m H). reflexivity. }
  set (i := slot (2 ^ b) (st_home b key) d) in *.
  assert (Hlt : i < 2 ^ b) by (apply slot_lt, HM).
  destruct Hc as [Hc|[Hc Hab]].
  - (* present *)
    pose proof Hc as Hc'. apply (st_full_cell b t) in Hc' as [_ (v & Ev)]; [|exact Hlt].
    assert (E : m !! key = Some v) by (apply (sr_map b t m H); split; [exact Hk|]; eauto).
    set (t' := mkST (vupd (st_table t) i (key, val)) (st_size t) (st_max t) (st_capa t)).
    assert (Hf : f i = Ret (inr (false, t'))).
    { unfold f. rewrite vget_ok by (rewrite (sr_len b t m H); exact Hlt). rewrite bind_ret.
      rewrite Ev; simpl fst. rewrite (proj2 (N.eqb_neq _ _) Hk), N.eqb_refl.
      rewrite vset_ok by (rewrite (sr_len b t m H); exact Hlt). reflexivity. }
    rewrite Hl by (rewrite Hf; intros s; discriminate). rewrite Hf. cbn [finish].
    exists t'. rewrite bool_decide_false by congruence. split; [reflexivity|]. split; [|reflexivity].
    assert (Hcell : forall j, j < 2 ^ b -> st_cell t j = st_cell t' j).
    { intros j Hj. unfold st_cell, t'. simpl st_table. rewrite vnth_upd.
      destruct (N.eqb_spec j i) as [->|]; [|reflexivity]. rewrite Ev. reflexivity. }
    destruct H as [H1 H2 H3 H4 H5 H6 H7]. split; auto.
    + apply (pinv_ext (2 ^ b) (st_home b) HM (st_cell t)); assumption.
    + change (st_size t') with (st_size t). rewrite <- H5. apply countb_ext. intros j Hj. rewrite Hcell by exact Hj. reflexivity.
    + simpl st_size. rewrite H6, map_size_insert, E. simpl. reflexivity.
    + intros k w. unfold t'. simpl st_table. destruct (N.eq_dec k key) as [->|Hne].
      * rewrite lookup_insert. split.
        -- intros [= ->]. split; [exact Hk|]. exists i. split; [exact Hlt|apply vnth_upd_eq].
        -- intros [_ (j & Hj & Ej)]. rewrite vnth_upd in Ej. destruct (N.eqb_spec j i) as [->|Hne]; [congruence|].
           exfalso. apply Hne. apply (pi_uniq _ _ _ H4 j i key Hj Hlt); [|exact Hc].
           apply (st_full_cell b); [exact Hj|]. eauto.
      * rewrite lookup_insert_ne by congruence. rewrite H7. split; intros [Hk' (j & Hj & Ej)]; (split; [exact Hk'|]); exists j; (split; [exact Hj|]).
        -- rewrite vnth_upd_ne; [exact Ej|]. intros ->. congruence.
        -- rewrite vnth_upd in Ej. destruct (j =? i); congruence.
  - (* absent *)
    assert (E : m !! key = None).
    { destruct (m !! key) as [v|] eqn:E; [|reflexivity].
      apply (sr_map b t m H) in E as [_ (j & Hj & Ej)]. exfalso. apply (Hab j Hj).
      apply (st_full_cell b); [exact Hj|]. eauto. }
    set (t' := mkST (vupd (st_table t) i (key, val)) (add64 (st_size t) 1) (st_max t) (st_capa t)).
    assert (Hv : fst (vnth (st_table t) i) = UINT64_MAX).
    { unfold st_cell in Hc. destruct (N.eqb_spec (fst (vnth (st_table t) i)) UINT64_MAX); congruence. }
    assert (Hf : f i = Ret (inr (true, t'))).
    { unfold f. rewrite vget_ok by (rewrite (sr_len b t m H); exact Hlt). rewrite bind_ret.
      rewrite Hv, N.eqb_refl.
      rewrite vset_ok by (rewrite (sr_len b t m H); exact Hlt). reflexivity. }
    rewrite Hl by (rewrite Hf; intros s; discriminate). rewrite Hf. cbn [finish].
    exists t'. rewrite bool_decide_true by exact E. split; [reflexivity|]. split; [|reflexivity].
    assert (Hcell : forall j, st_cell t' j = cell_upd (st_cell t) i (Full key) j).
    { intros j. unfold st_cell, t', cell_upd. simpl st_table. rewrite vnth_upd.
      destruct (N.eqb_spec j i) as [->|]; [|reflexivity]. simpl.
      rewrite (proj2 (N.eqb_neq _ _) Hk). reflexivity. }
    assert (Hsz : st_size t' = st_size t + 1).
    { simpl. unfold add64. apply w64_small. pose proof (p57_64 b). pose proof (sr_b b t m H).
      change (2 ^ 64) with (2 ^ 57 * 128). lia. }
    destruct H as [H1 H2 H3 H4 H5 H6 H7]. split; auto.
    + apply (pinv_ext (2 ^ b) (st_home b) HM (cell_upd (st_cell t) i (Full key))).
      { intros j _. symmetry. apply Hcell. }
      apply pinv_insert; auto using st_home_lt. intros d' Hd'. apply (Hpr d' Hd').
    + rewrite Hsz, <- H5. apply (countb_upd _ _ _ i Hlt).
      * rewrite Hc. reflexivity.
      * rewrite Hcell. unfold cell_upd. rewrite N.eqb_refl. reflexivity.
      * intros j _ Hj. rewrite Hcell. unfold cell_upd. rewrite (proj2 (N.eqb_neq _ _) Hj). reflexivity.
    + rewrite Hsz, map_size_insert, E. simpl. lia.
    + intros k w. unfold t'. simpl st_table. destruct (N.eq_dec k key) as [->|Hne].
      * rewrite lookup_insert. split.
        -- intros [= ->]. split; [exact Hk|]. exists i. split; [exact Hlt|apply vnth_upd_eq].
        -- intros [_ (j & Hj & Ej)]. rewrite vnth_upd in Ej. destruct (N.eqb_spec j i) as [->|Hne]; [congruence|].
           exfalso. apply (Hab j Hj). apply (st_full_cell b); [exact Hj|]. eauto.
      * rewrite lookup_insert_ne by congruence. rewrite H7. split; intros [Hk' (j & Hj & Ej)]; (split; [exact Hk'|]); exists j; (split; [exact Hj|]).
        -- rewrite vnth_upd_ne; [exact Ej|]. intros ->. rewrite Ej in Hv. simpl in Hv. congruence.
        -- rewrite vnth_upd in Ej. destruct (j =? i); congruence.
Qed.

(** Full invariant: the representation plus the load limit. *)
Definition st_inv (mf b : N) (t : std_table) (m : gmap N N) : Prop :=
  st_rep b t m /\ st_max t = max_size_of (2 ^ b) mf /\ st_size t <= st_max t.

Lemma st_new_ok mf cb : cb <= 57 -> 1 <= mf <= 99 ->
  exists t, st_new mf cb = Ret t /\ st_inv mf (N.max 6 cb) t ∅ /\ st_size t = 0.
Proof.
  intros Hb Hmf. unfold st_new, st_min_capa_bits. rewrite p2_new_eq by lia. rewrite bind_ret.
  rewrite p2_size_ones by lia. eexists. split; [reflexivity|]. split; [|reflexivity].
  assert (Hcell : forall i, st_cell (mkST (vnew (2 ^ N.max 6 cb) (UINT64_MAX, 0)) 0
       (max_size_of (2 ^ N.max 6 cb) mf) (mkP2 (N.max 6 cb) (N.ones (N.max 6 cb)))) i = Vac).
  { intros i. unfold st_cell. simpl st_table. rewrite vnth_new. reflexivity. }
  split; [|split; [reflexivity|simpl; lia]].
  split; simpl st_capa; simpl st_size; auto.
  - lia.
  - apply pinv_empty. intros i k _. rewrite Hcell. discriminate.
  - apply countb_const_false. intros i _. rewrite Hcell. reflexivity.
  - intros k v. rewrite lookup_empty. split; [discriminate|].
    intros [Hk (i & _ & Ei)]. simpl in Ei. rewrite vnth_new in Ei. congruence.
Qed.

Lemma st_inv_lt mf b t m : 1 <= mf <= 99 -> st_inv mf b t m -> st_size t < 2 ^ b.
Proof.
  intros Hmf (Hr & Hm & Hs). pose proof (max_size_lt b mf). pose proof (sr_b b t m Hr). lia.
Qed.

Lemma st_set_aux_unfold fuel mf t key val :
  st_set_aux (S fuel) mf t key val =
      let* t := (if vlen (st_table t) =? 0 then st_new mf st_min_capa_bits else Ret t) in
      let* t :=
        (if st_max t <=? st_size t then
           let* new_ht := st_new mf (p2_bits (st_capa t) + 1) in
           let* new_ht :=
             for_range 0 (vlen (st_table t)) (fun i new_ht =>
               let* s := vget (st_table t) i in
               if negb (fst s =? UINT64_MAX) then
                 let* r := st_set_aux fuel mf new_ht (fst s) (snd s) in Ret (snd r)
               else Ret new_ht) new_ht in
           let* _ := assert_ (st_size t =? st_size new_ht) in
           Ret new_ht
         else Ret t) in st_core t key val.
Proof. reflexivity. Qed.

Lemma st_set_noexp fuel mf b t m key val : 1 <= mf <= 99 -> st_inv mf b t m -> key <> UINT64_MAX ->
  st_size t < st_max t ->
  exists t', st_set_aux (S fuel) mf t key val = Ret (bool_decide (m !! key = None), t') /\
    st_inv mf b t' (<[key := val]> m).
Proof.
  intros Hmf (Hr & Hm & Hs) Hk Hlt. rewrite st_set_aux_unfold.
  rewrite (sr_len b t m Hr). pose proof (pow2_pos b).
  rewrite (proj2 (N.eqb_neq _ _)) by lia. rewrite bind_ret.
  rewrite (proj2 (N.leb_gt _ _) Hlt). rewrite bind_ret.
  destruct (st_core_ok b t m key val Hr Hk) as (t' & E & Hr' & Hm').
  { apply (st_inv_lt mf b t m Hmf). split; auto. }
  exists t'. split; [exact E|]. split; [exact Hr'|]. split; [congruence|].
  rewrite Hm'. rewrite (sr_size b t' _ Hr'), map_size_insert. rewrite (sr_size b t m Hr) in *.
  destruct (m !! key); simpl; lia.
Qed.

(** The map restricted to the slots below [i]. *)
Lemma st_expand_ok fuel mf b t m : 1 <= mf <= 99 -> b <= 56 -> st_inv mf b t m ->
  wp (let* new_ht := st_new mf (p2_bits (st_capa t) + 1) in
           let* new_ht :=
             for_range 0 (vlen (st_table t)) (fun i new_ht =>
               let* s := vget (st_table t) i in
               if negb (fst s =? UINT64_MAX) then
                 let* r := st_set_aux (S fuel) mf new_ht (fst s) (snd s) in Ret (snd r)
               else Ret new_ht) new_ht in
           let* _ := assert_ (st_size t =? st_size new_ht) in
           Ret new_ht)
     (fun t' => st_inv mf (b + 1) t' m /\ st_size t' < st_max t').
Proof.
  intros Hmf Hb (Hr & Hm & Hs). pose proof (sr_b b t m Hr) as Hbb.
  rewrite (sr_capa b t m Hr). simpl p2_bits. rewrite (sr_len b t m Hr).
  destruct (st_new_ok mf (b + 1)) as (t0 & E0 & Hi0 & Hz0); [lia|exact Hmf|].
  replace (N.max 6 (b + 1)) with (b + 1) in Hi0 by lia.
  rewrite E0, bind_ret. apply wp_bind.
  assert (Hmono : max_size_of (2 ^ b) mf < max_size_of (2 ^ (b + 1)) mf) by (apply ms_ok2_facts; lia).
  apply wp_for_range with (I := fun i t' => exists m', st_inv mf (b + 1) t' m' /\ m' ⊆ m /\
     (forall k v, m' !! k = Some v <-> k <> UINT64_MAX /\ exists j, j < i /\ vnth (st_table t) j = (k, v))).
  - lia.
  - pose proof (pow2_lt b 64). lia.
  - exists ∅. split; [exact Hi0|]. split; [apply map_empty_subseteq|].
    intros k v. rewrite lookup_empty. split; [discriminate|]. intros [_ (j & Hj & _)]. lia.
  - intros i t' Hi (m' & Hi' & Hsub & Hm').
    rewrite vget_ok by (rewrite (sr_len b t m Hr); lia). rewrite bind_ret.
    destruct (vnth (st_table t) i) as [k v] eqn:E. simpl fst; simpl snd.
    destruct (N.eqb_spec k UINT64_MAX) as [->|Hk]; simpl negb; cbv iota.
    + apply wp_ret. exists m'. split; [exact Hi'|]. split; [exact Hsub|].
      intros k' v'. rewrite Hm'. split; intros [Hk' (j & Hj & Ej)]; (split; [exact Hk'|]).
      * exists j. split; [lia|exact Ej].
      * exists j. split; [|exact Ej]. destruct (N.eq_dec j i) as [->|]; [congruence|lia].
    + assert (Hkm : m !! k = Some v).
      { apply (sr_map b t m Hr). split; [exact Hk|]. exists i. split; [lia|exact E]. }
      assert (Hnew : m' !! k = None).
      { destruct (m' !! k) as [w|] eqn:Ew; [|reflexivity]. exfalso.
        apply Hm' in Ew as [_ (j & Hj & Ej)].
        assert (j = i); [|lia].
        apply (pi_uniq _ _ _ (sr_pinv b t m Hr) j i k); [lia|lia| |];
          (apply (st_full_cell b); [lia|]; eauto). }
      assert (Hlt : st_size t' < st_max t').
      { destruct Hi' as (Hr' & Hm2 & _). rewrite Hm2.
        assert (Hsz : (size m' < size m)%nat).
        { apply (map_size_lt m' m k v); assumption. }
        rewrite (sr_size _ _ _ Hr'). rewrite (sr_size _ _ _ Hr) in Hs. lia. }
      destruct (st_set_noexp fuel mf (b + 1) t' m' k v Hmf Hi' Hk Hlt) as (t2 & E2 & Hi2).
      rewrite E2, bind_ret. simpl snd. apply wp_ret.
      exists (<[k := v]> m'). split; [exact Hi2|]. split.
      { apply insert_subseteq_l; assumption. }
      intros k' v'. destruct (N.eq_dec k' k) as [->|Hne].
      * rewrite lookup_insert. split.
        -- intros [= <-]. split; [exact Hk|]. exists i. split; [lia|exact E].
        -- intros [_ (j & Hj & Ej)].
           assert (Hkv : m !! k = Some v').
           { apply (sr_map b t m Hr). split; [exact Hk|]. exists j. split; [lia|exact Ej]. }
           congruence.
      * rewrite lookup_insert_ne by congruence. rewrite Hm'.
        split; intros [Hk' (j & Hj & Ej)]; (split; [exact Hk'|]); exists j; (split; [|exact Ej]); [lia|].
        destruct (N.eq_dec j i) as [->|]; [congruence|lia].
  - intros t' (m' & Hi' & Hsub & Hm').
    assert (Em : m' = m).
    { apply map_eq. intros k. apply option_eq. intros v. rewrite Hm', (sr_map b t m Hr). reflexivity. }
    subst m'. destruct Hi' as (Hr' & Hm2 & Hs').
    rewrite assert_true. 2:{ apply N.eqb_eq. rewrite (sr_size _ _ _ Hr), (sr_size _ _ _ Hr'). reflexivity. }
    rewrite bind_ret. apply wp_ret. split; [split; auto|].
    rewrite Hm2, (sr_size _ _ _ Hr'), <- (sr_size _ _ _ Hr). lia.
Qed.

(** The public view: an empty default table, or an initialised one within [lim] bits. *)
Definition st_ok (mf : N) (t : std_table) (m : gmap N N) : Prop :=
  (t = st_default /\ m = ∅) \/ exists b, st_inv mf b t m.

Lemma st_get_spec mf t m k : 1 <= mf <= 99 -> st_ok mf t m -> k <> UINT64_MAX ->
  st_get t k = Ret (default st_nil (m !! k)).
Proof.
  intros Hmf [[-> ->]|[b Hi]] Hk.
  - rewrite lookup_empty. reflexivity.
  - apply (st_get_ok b t m); [apply Hi|exact Hk|]. apply (st_inv_lt mf b t m Hmf Hi).
Qed.

Lemma st_set_inv mf b t m key val : 1 <= mf <= 99 -> st_inv mf b t m ->
  key <> UINT64_MAX -> (b <= 56 \/ st_size t < st_max t) ->
  exists t' b', st_set mf t key val = Ret (bool_decide (m !! key = None), t') /\
    st_inv mf b' t' (<[key := val]> m) /\
    (b' = b \/ b' = b + 1 /\ st_max t <= st_size t).
Proof.
  intros Hmf Hi Hk Hlim. unfold st_set. change 64%nat with (S (S 62)).
  destruct (N.lt_ge_cases (st_size t) (st_max t)) as [Hlt|Hge].
  - destruct (st_set_noexp 63 mf b t m key val Hmf Hi Hk Hlt) as (t' & E & Hi').
    exists t', b. split; [exact E|]. split; [exact Hi'|]. left; reflexivity.
  - assert (Hb : b <= 56) by lia.
    pose proof (st_expand_ok 62 mf b t m Hmf Hb Hi) as Hx. apply wp_inv in Hx as (t1 & E1 & Hi1 & Hlt1).
    rewrite st_set_aux_unfold. destruct Hi as (Hr & Hm & Hs).
    rewrite (sr_len b t m Hr). pose proof (pow2_pos b).
    rewrite (proj2 (N.eqb_neq _ _)) by lia. rewrite bind_ret.
    rewrite (proj2 (N.leb_le _ _) Hge).
    rewrite E1, bind_ret.
    destruct Hi1 as (Hr1 & Hm1 & Hs1).
    destruct (st_core_ok (b + 1) t1 m key val Hr1 Hk) as (t' & E & Hr' & Hm').
    { apply (st_inv_lt mf (b + 1) t1 m Hmf). split; auto. }
    exists t', (b + 1). split; [exact E|]. split; [|right; auto].
    split; [exact Hr'|]. split; [congruence|].
    rewrite Hm', (sr_size _ _ _ Hr'), map_size_insert. rewrite (sr_size _ _ _ Hr1) in *.
    destruct (m !! key); simpl; lia.
Qed.

(** A number of keys the table can always take: the limit of a table of 2^57 slots. *)
Lemma st_set_spec mf t m key val : 1 <= mf <= 99 -> st_ok mf t m -> key <> UINT64_MAX ->
  N.of_nat (size m) < max_size_of (2 ^ 57) mf ->
  exists t', st_set mf t key val = Ret (bool_decide (m !! key = None), t') /\
    st_ok mf t' (<[key := val]> m).
Proof.
  intros Hmf [[-> ->]|[b Hi]] Hk Hn.
  - destruct (st_new_ok mf 6) as (t0 & E0 & Hi0 & Hz0); [lia|exact Hmf|].
    change (N.max 6 6) with 6 in Hi0.
    destruct (st_set_inv mf 6 t0 ∅ key val Hmf Hi0 Hk) as (t' & b' & E & Hi' & _); [left; lia|].
    exists t'. split; [|right; eauto]. rewrite <- E. unfold st_set. change 64%nat with (S 63).
    rewrite !st_set_aux_unfold. change (vlen (st_table st_default)) with 0.
    change (st_min_capa_bits) with 6. rewrite N.eqb_refl, E0.
    destruct Hi0 as (Hr0 & _). rewrite (sr_len _ _ _ Hr0). reflexivity.
  - pose proof Hi as (Hr & Hm & Hs). pose proof (sr_b b t m Hr) as Hb.
    destruct (st_set_inv mf b t m key val Hmf Hi Hk) as (t' & b' & E & Hi' & _).
    { destruct (N.le_gt_cases b 56); [left; assumption|right].
      rewrite Hm, (sr_size _ _ _ Hr). replace b with 57 by lia. exact Hn. }
    exists t'. split; [exact E|]. right; eauto.
Qed.

(** A table that grew from the default one is no larger than its contents require. *)
Definition st_snug (mf : N) (t : std_table) (m : gmap N N) : Prop :=
  (t = st_default /\ m = ∅) \/
  exists b, st_inv mf b t m /\ (b = 6 \/ 6 < b /\ max_size_of (2 ^ (b - 1)) mf <= N.of_nat (size m)).
Lemma st_snug_ok mf t m : st_snug mf t m -> st_ok mf t m.
Proof. intros [H|(b & H & _)]; [left; exact H|right; eauto]. Qed.
Lemma size_insert_le (m : gmap N N) k v : N.of_nat (size m) <= N.of_nat (size (<[k := v]> m)).
Proof. rewrite map_size_insert. destruct (m !! k); simpl; lia. Qed.
Lemma st_set_snug mf t m key val : 1 <= mf <= 99 -> st_snug mf t m -> key <> UINT64_MAX ->
  N.of_nat (size m) < max_size_of (2 ^ 57) mf ->
  exists t', st_set mf t key val = Ret (bool_decide (m !! key = None), t') /\
    st_snug mf t' (<[key := val]> m).
Proof.
  intros Hmf [[-> ->]|(b & Hi & Hb0)] Hk Hn.
  - destruct (st_new_ok mf 6) as (t0 & E0 & Hi0 & Hz0); [lia|exact Hmf|].
    change (N.max 6 6) with 6 in Hi0.
    destruct (st_set_inv mf 6 t0 ∅ key val Hmf Hi0 Hk) as (t' & b' & E & Hi' & Hb'); [left; lia|].
    exists t'. split.
    2:{ right. exists b'. split; [exact Hi'|]. destruct Hb' as [->|[-> Hge]]; [left; reflexivity|right]. split; [lia|].
        pose proof Hi0 as (_ & Hm0 & _). replace (6 + 1 - 1) with 6 by lia. rewrite Hz0, Hm0 in Hge. lia. }
    rewrite <- E. unfold st_set. change 64%nat with (S 63).
    rewrite !st_set_aux_unfold. change (vlen (st_table st_default)) with 0.
    change (st_min_capa_bits) with 6. rewrite N.eqb_refl, E0.
    destruct Hi0 as (Hr0 & _). rewrite (sr_len _ _ _ Hr0). reflexivity.
  - pose proof Hi as (Hr & Hm & Hs). pose proof (sr_b b t m Hr) as Hb.
    destruct (st_set_inv mf b t m key val Hmf Hi Hk) as (t' & b' & E & Hi' & Hb').
    { destruct (N.le_gt_cases b 56); [left; assumption|right].
      rewrite Hm, (sr_size _ _ _ Hr). replace b with 57 by lia. exact Hn. }
    exists t'. split; [exact E|]. right. exists b'. split; [exact Hi'|].
    pose proof (size_insert_le m key val) as Hle.
    destruct Hb' as [->|[-> Hge]].
    + destruct Hb0 as [->|[H6 Ht]]; [left; reflexivity|right; split; [exact H6|]]. lia.
    + right. split; [lia|]. replace (b + 1 - 1) with b by lia.
      rewrite Hm, (sr_size _ _ _ Hr) in Hge. lia.
Qed.
End hash.
