(** Properties of the tries: C18-C25.  The specification is Props/TrieSpec.v. *)
From Verif.Props Require Import HashSpec.
From Verif.Proofs Require Import TrieInstP FastP.
Local Open Scope N_scope.

(** Constructor arguments within the representation: at most 2^56 slots, slot and symbol in one word. *)
Definition fits_word (mf cb sb : N) : Prop := 1 <= mf <= 99 /\ N.max 16 cb <= 56 /\ N.max 16 cb + sb < 64.
(** Template and constructor parameters of the displacement tables: 1-16 bits per slot and per auxiliary slot,
    load factors 1-99% and 51-99%, initial auxiliary capacity not above the trie's. *)
Definition fits_aux (P : dsp_params) (cb ccb : N) : Prop :=
  1 <= dp_d1 P <= 16 /\ 1 <= dp_vb P <= 16 /\ 1 <= dp_cmf P <= 99 /\ 51 <= dp_smf P <= 99 /\
  N.max 12 ccb <= N.max 16 cb.
Lemma fits_aux_ok P cb ccb : fits_aux P cb ccb -> dp_ok P /\ N.max 12 ccb <= N.max 16 cb.
Proof. intros (H1 & H2 & H3 & H4 & H5). split; [split; assumption|exact H5]. Qed.
(** The Hasher of a plain trie is any function; the Hashers of a compact trie and of its AuxCht must be bijective
    (HashSpec.v), that of its AuxMap is any function. *)
Definition hashers_ok (H : trie_hashers) : Prop := bijective (@th_trie H) /\ bijective (@th_cht H).
Lemma hashers_th_ok H : hashers_ok H -> th_ok H.
Proof. intros [H1 H2]. split; assumption. Qed.
(** No reservation. *)
Definition exact (b n : N) : Prop := False.
(** The displacement table of a compact trie with 2^b slots may be full when the trie has more nodes than
    the load limit of that table. *)
Definition aux_full (P : dsp_params) (b n : N) : Prop := max_size_of (2 ^ b) (dp_cmf P) < n.

(** ** C18-C21 The four tries are dynamic tries *)
Theorem C18_plain_bonsai : forall (HF : plain_hasher) mf cb sb t ids T, fits_word mf cb sb ->
  built (pb_ops mf) mf sb false (pb_new mf cb sb) t ids T ->
  dynamic_trie (pb_ops mf) mf sb false exact t ids T.
Proof. intros HF mf cb sb t ids T (H1 & H2 & H3). apply (built_dynamic _ _ _ _ _ _ _ _ (pb_dyn mf cb sb H1 H2 H3)). Qed.
Theorem C19_compact_bonsai : forall (HT : trie_hashers) P ccb mf cb sb t ids T, hashers_ok HT -> fits_word mf cb sb -> fits_aux P cb ccb ->
  built (cb_ops P mf) mf sb false (cb_new P mf cb sb ccb) t ids T ->
  dynamic_trie (cb_ops P mf) mf sb false (aux_full P) t ids T.
Proof.
  intros HT P ccb mf cb sb t ids T HO%hashers_th_ok (H1 & H2 & H3) [HP Hc]%fits_aux_ok.
  apply (built_dynamic _ _ _ _ _ _ _ _ (cb_dyn mf cb sb H1 H2 H3 P ccb HP Hc)).
Qed.
Theorem C20_plain_fkhash : forall (HF : plain_hasher) dbg mf cb sb t ids T, fits_word mf cb sb ->
  built (pf_ops dbg mf) mf sb dbg (pf_new mf cb sb) t ids T ->
  dynamic_trie (pf_ops dbg mf) mf sb dbg exact t ids T.
Proof. intros HF dbg mf cb sb t ids T (H1 & H2 & H3). apply (built_dynamic _ _ _ _ _ _ _ _ (pf_dyn mf cb sb H1 H2 H3 dbg)). Qed.
Theorem C21_compact_fkhash : forall (HT : trie_hashers) P ccb mf cb sb t ids T, hashers_ok HT -> fits_word mf cb sb -> fits_aux P cb ccb ->
  built (cf_ops P mf) mf sb false (cf_new P mf cb sb ccb) t ids T ->
  dynamic_trie (cf_ops P mf) mf sb false (aux_full P) t ids T.
Proof.
  intros HT P ccb mf cb sb t ids T HO%hashers_th_ok (H1 & H2 & H3) [HP Hc]%fits_aux_ok.
  apply (built_dynamic _ _ _ _ _ _ _ _ (cf_dyn mf cb sb H1 H2 H3 P ccb HP Hc)).
Qed.
(** If the trie's load factor is at most that of its displacement table there is no reservation. *)
Lemma no_aux_full TO P mf sb forbid t ids T : mf <= dp_cmf P -> 1 <= mf <= 99 -> dp_cmf P <= 99 -> trie_bits TO t <= 56 ->
  dynamic_trie TO mf sb forbid (aux_full P) t ids T -> dynamic_trie TO mf sb forbid exact t ids T.
Proof.
  intros Hle Hmf Hc Hb H. pose proof (dy_load _ _ _ _ _ _ _ _ H) as Hl.
  pose proof (max_size_factor (trie_bits TO t) mf (dp_cmf P) ltac:(lia) ltac:(lia) Hc) as Hm.
  assert (Hno : ~ aux_full P (trie_bits TO t) (t_size TO t)) by (unfold aux_full; lia).
  destruct H as [F1 F2 F3 F4 F5 F6 Fa Fn]. split; auto.
  - intros h v s c H1 H2 H3. destruct (Fa h v s c H1 H2 H3) as [H4|[_ [_ H4]]]; [left; exact H4|destruct (Hno H4)].
  - intros h v s H1 H2 H3 H4. destruct (Fn h v s H1 H2 H3 H4) as [H5|[_ H5]]; [left; exact H5|destruct (Hno H5)].
Qed.
Theorem C19_exact : forall (HT : trie_hashers) P ccb mf cb sb t ids T, hashers_ok HT -> fits_word mf cb sb -> fits_aux P cb ccb -> mf <= dp_cmf P ->
  built (cb_ops P mf) mf sb false (cb_new P mf cb sb ccb) t ids T ->
  dynamic_trie (cb_ops P mf) mf sb false exact t ids T.
Proof.
  intros HT P ccb mf cb sb t ids T HA Hw Ha Hle HB. pose proof (hashers_th_ok _ HA) as HO. pose proof Hw as (H1 & H2 & H3). pose proof (fits_aux_ok _ _ _ Ha) as [HP Hc].
  apply (no_aux_full _ P); [exact Hle|exact H1|apply HP| |apply (C19_compact_bonsai HT P ccb mf cb sb t ids T HA Hw Ha HB)].
  destruct (built_rep _ _ _ _ _ _ _ _ (cb_dyn mf cb sb H1 H2 H3 P ccb HP Hc) t ids T HB) as (loc & paths & Hr & _).
  apply (d_bits _ _ _ _ _ _ _ _ (cb_dyn mf cb sb H1 H2 H3 P ccb HP Hc) t loc Hr).
Qed.
Theorem C21_exact : forall (HT : trie_hashers) P ccb mf cb sb t ids T, hashers_ok HT -> fits_word mf cb sb -> fits_aux P cb ccb -> mf <= dp_cmf P ->
  built (cf_ops P mf) mf sb false (cf_new P mf cb sb ccb) t ids T ->
  dynamic_trie (cf_ops P mf) mf sb false exact t ids T.
Proof.
  intros HT P ccb mf cb sb t ids T HA Hw Ha Hle HB. pose proof (hashers_th_ok _ HA) as HO. pose proof Hw as (H1 & H2 & H3). pose proof (fits_aux_ok _ _ _ Ha) as [HP Hc].
  apply (no_aux_full _ P); [exact Hle|exact H1|apply HP| |apply (C21_compact_fkhash HT P ccb mf cb sb t ids T HA Hw Ha HB)].
  destruct (built_rep _ _ _ _ _ _ _ _ (cf_dyn mf cb sb H1 H2 H3 P ccb HP Hc) t ids T HB) as (loc & paths & Hr & _).
  apply (d_bits _ _ _ _ _ _ _ _ (cf_dyn mf cb sb H1 H2 H3 P ccb HP Hc) t loc Hr).
Qed.

(** ** C22 FK-hash identifiers are consecutive and never change *)
(** [ids] lists the identifiers in the order of insertion and is only ever extended, also when the table grows. *)
Theorem C22_plain_fkhash : forall (HF : plain_hasher) dbg mf cb sb t ids T h v, fits_word mf cb sb ->
  built (pf_ops dbg mf) mf sb dbg (pf_new mf cb sb) t ids T -> ids !! h = Some v -> v = N.of_nat h.
Proof. intros HF dbg mf cb sb t ids T h v (H1 & H2 & H3) HB. apply (built_ids _ _ _ _ _ _ _ _ (pf_dyn mf cb sb H1 H2 H3 dbg) t ids T h v HB eq_refl). Qed.
Theorem C22_compact_fkhash : forall (HT : trie_hashers) P ccb mf cb sb t ids T h v, hashers_ok HT -> fits_word mf cb sb -> fits_aux P cb ccb ->
  built (cf_ops P mf) mf sb false (cf_new P mf cb sb ccb) t ids T -> ids !! h = Some v -> v = N.of_nat h.
Proof.
  intros HT P ccb mf cb sb t ids T h v HO%hashers_th_ok (H1 & H2 & H3) [HP Hc]%fits_aux_ok HB.
  apply (built_ids _ _ _ _ _ _ _ _ (cf_dyn mf cb sb H1 H2 H3 P ccb HP Hc) t ids T h v HB eq_refl).
Qed.

(** ** C23 get_parent_and_symb inverts find_child *)
Definition parent_inverts (TO : trie_ops) (sb : N) (gp : tT TO -> N -> outcome (N * N)) (t : tT TO) (ids : list N) : Prop :=
  forall i, i < 2 ^ trie_bits TO t ->
    (forall v s, In v ids -> s < 2 ^ sb -> (gp t i = Ret (v, s) <-> t_find_child TO t v s = Ret i)) /\
    (ids !! 0%nat = Some i -> gp t i = Ret (nil_id, 0)) /\
    (~ In i ids -> gp t i = Ret (nil_id, 0)) /\
    (In i ids -> ids !! 0%nat <> Some i -> exists v s, In v ids /\ s < 2 ^ sb /\ gp t i = Ret (v, s)).
Theorem C23_plain_bonsai : forall (HF : plain_hasher) mf cb sb t ids T, fits_word mf cb sb ->
  built (pb_ops mf) mf sb false (pb_new mf cb sb) t ids T ->
  parent_inverts (pb_ops mf) sb pb_get_parent_and_symb t ids.
Proof.
  intros HF mf cb sb t ids T (H1 & H2 & H3) HB i Hi.
  apply (built_parent _ _ _ _ _ _ _ _ (pb_dyn mf cb sb H1 H2 H3) pb_get_parent_and_symb t ids T i (pb_gp_spec mf sb) HB Hi).
Qed.
Theorem C23_compact_bonsai : forall (HT : trie_hashers) P ccb mf cb sb t ids T, hashers_ok HT -> fits_word mf cb sb -> fits_aux P cb ccb ->
  built (cb_ops P mf) mf sb false (cb_new P mf cb sb ccb) t ids T ->
  parent_inverts (cb_ops P mf) sb (cb_get_parent_and_symb P) t ids.
Proof.
  intros HT P ccb mf cb sb t ids T HO%hashers_th_ok (H1 & H2 & H3) [HP Hc]%fits_aux_ok HB i Hi.
  apply (built_parent _ _ _ _ _ _ _ _ (cb_dyn mf cb sb H1 H2 H3 P ccb HP Hc) (cb_get_parent_and_symb P) t ids T i (cb_gp_spec P HP mf sb) HB Hi).
Qed.

(** ** C24 Bonsai expansion returns an exact renaming *)
(** [nm] sends the nodes of [t] injectively to the nodes of [t'] and nothing else anywhere. *)
Definition exact_renaming (TO : trie_ops) (sb : N) (t : tT TO) (ids : list N) (nm : node_map) (t' : tT TO) : Prop :=
  trie_bits TO t' = trie_bits TO t + 1 /\ t_size TO t' = t_size TO t /\ nm_size nm = 2 ^ trie_bits TO t /\
  (forall i, i < 2 ^ trie_bits TO t -> ~ In i ids -> nm_get nm i = Ret UINT64_MAX) /\
  (forall v, In v ids -> exists v', nm_get nm v = Ret v' /\ v' < 2 ^ trie_bits TO t') /\
  (forall v w x, In v ids -> In w ids -> nm_get nm v = Ret x -> nm_get nm w = Ret x -> v = w) /\
  (exists r r', t_get_root TO t = Ret r /\ t_get_root TO t' = Ret r' /\ nm_get nm r = Ret r') /\
  (forall v v' c c' s, In v ids -> In c ids -> s < 2 ^ sb -> nm_get nm v = Ret v' -> nm_get nm c = Ret c' ->
     (t_find_child TO t v s = Ret c <-> t_find_child TO t' v' s = Ret c')) /\
  (forall v v' s, In v ids -> s < 2 ^ sb -> nm_get nm v = Ret v' ->
     (t_find_child TO t v s = Ret nil_id <-> t_find_child TO t' v' s = Ret nil_id)).
Lemma renaming_built TO mf sb forbid start b0 sat rep t ids T : dyn_ok TO mf sb forbid start b0 sat rep ->
  built TO mf sb forbid start t ids T -> t_kind TO = Bonsai -> 1 <= sb -> can_grow TO sb t ->
  returns (sat (trie_bits TO t + 1) (t_size TO t)) (t_expand TO t) (fun '(nm, t') => exact_renaming TO sb t ids nm t').
Proof.
  intros HD HB Hk Hsb Hg. destruct (built_expands _ _ _ _ _ _ _ _ HD t ids T HB Hk Hsb Hg) as [([nm t'] & E & H)|H]; [left|right; exact H].
  exists (nm, t'). split; [exact E|]. destruct H as (Hb & Hs & Hn & Hno & ids' & HF & HB').
  pose proof (built_dynamic _ _ _ _ _ _ _ _ HD t ids T HB) as D. pose proof (built_dynamic _ _ _ _ _ _ _ _ HD t' ids' T HB') as D'.
  destruct (built_rep _ _ _ _ _ _ _ _ HD t' ids' T HB') as (loc' & paths' & Hr' & Hto' & _).
  destruct (dy_ids _ _ _ _ _ _ _ _ D) as (Hnd & Hlen & Hnil). destruct (dy_ids _ _ _ _ _ _ _ _ D') as (Hnd' & Hlen' & Hnil').
  assert (Hget : forall v v', In v ids -> nm_get nm v = Ret v' -> exists h, ids !! h = Some v /\ ids' !! h = Some v').
  { intros v v' Hv Hv'. apply elem_of_list_In, elem_of_list_lookup in Hv as [h Hh].
    destruct (Forall2_lookup_l _ _ _ _ _ HF Hh) as (w & Hw & Ew). exists h. split; [exact Hh|]. congruence. }
  assert (Hsh : forall (is : list N) c x, NoDup is -> ~ In nil_id is -> (forall c', c = Some c' -> (c' < length is)%nat) -> In x is ->
     shown is c = x <-> exists c', c = Some c' /\ is !! c' = Some x).
  { intros is [c|] x N1 N2 N3 Hx; unfold shown; cbn.
    - destruct (lookup_lt_is_Some_2 is c (N3 c eq_refl)) as [y Hy]. rewrite Hy. cbn. split; [intros <-; eauto|].
      intros (c' & [= <-] & E'). congruence.
    - split; [intros <-; destruct (N2 Hx)|intros (c' & [=] & _)]. }
  assert (Hlt : forall h s c, kids T !! (h, s) = Some c -> (c < length ids)%nat /\ (c < length ids')%nat).
  { intros h s c Hc. rewrite Hlen, Hlen'. split; apply (dy_kid _ _ _ _ _ _ _ _ D h s c Hc). }
  split; [exact Hb|]. split; [exact Hs|]. split; [exact Hn|]. split; [exact Hno|]. split; [|split; [|split; [|split]]].
  - intros v Hv. apply elem_of_list_In, elem_of_list_lookup in Hv as [h Hh].
    destruct (Forall2_lookup_l _ _ _ _ _ HF Hh) as (v' & Hv' & Ev). exists v'. split; [exact Ev|].
    destruct (to_path _ _ _ _ _ _ Hto' Hv') as (p & _ & Lp). apply (d_bound _ _ _ _ _ _ _ _ HD t' loc' p v' Hr' Lp).
  - intros v w x Hv Hw Ev Ew. destruct (Hget v x Hv Ev) as (h & Hh & Hh'). destruct (Hget w x Hw Ew) as (k & Hk1 & Hk2).
    rewrite (proj1 (NoDup_alt ids') Hnd' h k x Hh' Hk2) in Hh. congruence.
  - destruct (dy_root _ _ _ _ _ _ _ _ D) as (r & Er & Hr). destruct (dy_root _ _ _ _ _ _ _ _ D') as (r' & Er' & Hr2).
    exists r, r'. split; [exact Er|]. split; [exact Er'|]. apply (Forall2_lookup_lr _ _ _ _ _ _ HF Hr Hr2).
  - intros v v' c c' s Hv Hc Hs1 Ev Ec. destruct (Hget v v' Hv Ev) as (h & Hh & Hh'). destruct (Hget c c' Hc Ec) as (k & Hk1 & Hk2).
    rewrite (dy_find _ _ _ _ _ _ _ _ D h v s Hh Hs1), (dy_find _ _ _ _ _ _ _ _ D' h v' s Hh' Hs1).
    assert (Hc2 : In c' ids') by (apply elem_of_list_In, elem_of_list_lookup; eauto).
    split; intros [= E1]; f_equal.
    + apply (Hsh ids _ c Hnd Hnil) in E1 as (d & E1 & E2); [|intros c0 E0; apply (Hlt _ _ _ E0)|exact Hc].
      apply (Hsh ids' _ c' Hnd' Hnil'); [intros c0 E0; apply (Hlt _ _ _ E0)|exact Hc2|]. exists d. split; [exact E1|].
      rewrite (proj1 (NoDup_alt ids) Hnd d k c E2 Hk1). exact Hk2.
    + apply (Hsh ids' _ c' Hnd' Hnil') in E1 as (d & E1 & E2); [|intros c0 E0; apply (Hlt _ _ _ E0)|exact Hc2].
      apply (Hsh ids _ c Hnd Hnil); [intros c0 E0; apply (Hlt _ _ _ E0)|exact Hc|]. exists d. split; [exact E1|].
      rewrite (proj1 (NoDup_alt ids') Hnd' d k c' E2 Hk2). exact Hk1.
  - intros v v' s Hv Hs1 Ev. destruct (Hget v v' Hv Ev) as (h & Hh & Hh').
    rewrite (dy_find _ _ _ _ _ _ _ _ D h v s Hh Hs1), (dy_find _ _ _ _ _ _ _ _ D' h v' s Hh' Hs1).
    unfold shown. destruct (kids T !! (h, s)) as [d|] eqn:Ed; cbn; [|tauto].
    destruct (Hlt _ _ _ Ed) as [L1 L2]. destruct (lookup_lt_is_Some_2 ids d L1) as [x Hx]. destruct (lookup_lt_is_Some_2 ids' d L2) as [y Hy].
    rewrite Hx, Hy. cbn. unfold id. split; intros [= ->]; exfalso.
    + apply Hnil, elem_of_list_In, elem_of_list_lookup. eauto.
    + apply Hnil', elem_of_list_In, elem_of_list_lookup. eauto.
Qed.
Theorem C24_plain_bonsai : forall (HF : plain_hasher) mf cb sb t ids T, fits_word mf cb sb ->
  built (pb_ops mf) mf sb false (pb_new mf cb sb) t ids T -> 1 <= sb -> can_grow (pb_ops mf) sb t ->
  exists nm t', t_expand (pb_ops mf) t = Ret (nm, t') /\ exact_renaming (pb_ops mf) sb t ids nm t'.
Proof.
  intros HF mf cb sb t ids T (H1 & H2 & H3) HB Hsb Hg.
  destruct (renaming_built _ _ _ _ _ _ _ _ t ids T (pb_dyn mf cb sb H1 H2 H3) HB eq_refl Hsb Hg) as [([nm t'] & E & H)|[_ []]].
  eauto.
Qed.
Theorem C24_compact_bonsai : forall (HT : trie_hashers) P ccb mf cb sb t ids T, hashers_ok HT -> fits_word mf cb sb -> fits_aux P cb ccb ->
  built (cb_ops P mf) mf sb false (cb_new P mf cb sb ccb) t ids T -> 1 <= sb -> can_grow (cb_ops P mf) sb t ->
  returns (aux_full P (trie_bits (cb_ops P mf) t + 1) (cb_size t)) (t_expand (cb_ops P mf) t)
    (fun '(nm, t') => exact_renaming (cb_ops P mf) sb t ids nm t').
Proof.
  intros HT P ccb mf cb sb t ids T HO%hashers_th_ok (H1 & H2 & H3) [HP Hc]%fits_aux_ok HB Hsb Hg.
  apply (renaming_built _ _ _ _ _ _ _ _ t ids T (cb_dyn mf cb sb H1 H2 H3 P ccb HP Hc) HB eq_refl Hsb Hg).
Qed.

(** ** C25 A full Bonsai trie refuses new children silently *)
Theorem C25_plain_bonsai : forall (HF : plain_hasher) mf cb sb t ids T h v s, fits_word mf cb sb ->
  built (pb_ops mf) mf sb false (pb_new mf cb sb) t ids T ->
  pb_max t = max_size_of (2 ^ trie_bits (pb_ops mf) t) mf /\
  (pb_needs_to_expand t = true <-> pb_size t = pb_max t) /\
  (ids !! h = Some v -> s < 2 ^ sb -> kids T !! (h, s) = None -> pb_size t = pb_max t ->
   pb_add_child t v s = Ret (false, v, t)).
Proof.
  intros HF mf cb sb t ids T h v s (H1 & H2 & H3) HB. pose proof (pb_dyn mf cb sb H1 H2 H3) as HD.
  assert (Hmax : pb_max t = max_size_of (2 ^ trie_bits (pb_ops mf) t) mf).
  { destruct (built_rep _ _ _ _ _ _ _ _ HD t ids T HB) as (loc & paths & (b & Hr) & _).
    rewrite (pb_rep_bits _ _ _ _ _ Hr). apply Hr. }
  split; [exact Hmax|]. rewrite Hmax. apply (built_full _ _ _ _ _ _ _ _ HD t ids T h v s HB eq_refl).
Qed.
Theorem C25_compact_bonsai : forall (HT : trie_hashers) P ccb mf cb sb t ids T h v s, hashers_ok HT -> fits_word mf cb sb -> fits_aux P cb ccb ->
  built (cb_ops P mf) mf sb false (cb_new P mf cb sb ccb) t ids T ->
  cb_max t = max_size_of (2 ^ trie_bits (cb_ops P mf) t) mf /\
  (cb_needs_to_expand t = true <-> cb_size t = cb_max t) /\
  (ids !! h = Some v -> s < 2 ^ sb -> kids T !! (h, s) = None -> cb_size t = cb_max t ->
   cb_add_child P t v s = Ret (false, v, t)).
Proof.
  intros HT P ccb mf cb sb t ids T h v s HO%hashers_th_ok (H1 & H2 & H3) [HP Hc]%fits_aux_ok HB. pose proof (cb_dyn mf cb sb H1 H2 H3 P ccb HP Hc) as HD.
  assert (Hmax : cb_max t = max_size_of (2 ^ trie_bits (cb_ops P mf) t) mf).
  { destruct (built_rep _ _ _ _ _ _ _ _ HD t ids T HB) as (loc & paths & (b & Hr) & _).
    rewrite (cb_rep_bits _ _ _ _ _ _ Hr). destruct Hr as (mc & ms & Hr). apply (xs_max _ _ _ _ _ _ _ (xr_shape _ _ _ _ _ _ _ _ Hr)). }
  split; [exact Hmax|]. rewrite Hmax. apply (built_full _ _ _ _ _ _ _ _ HD t ids T h v s HB eq_refl).
Qed.

(** ** The hypotheses are met *)
(** Chains of every length up to the load limit are built; the last one is full (C25). *)
Lemma chain_plain_bonsai {HF : plain_hasher} mf cb sb n : fits_word mf cb sb -> N.of_nat n < max_size_of (2 ^ N.max 16 cb) mf ->
  exists t ids T, built (pb_ops mf) mf sb false (pb_new mf cb sb) t ids T /\ trie_bits (pb_ops mf) t = N.max 16 cb /\
    nodes T = S n /\ kids T !! (n, 0) = None.
Proof.
  intros (H1 & H2 & H3) Hn. apply (built_chain _ _ _ _ _ _ _ _ (pb_dyn mf cb sb H1 H2 H3)); auto; apply pow2_pos.
Qed.
Lemma chain_plain_fkhash {HF : plain_hasher} dbg mf cb sb n : fits_word mf cb sb -> 1 <= sb -> N.of_nat n < max_size_of (2 ^ N.max 16 cb) mf ->
  exists t ids T, built (pf_ops dbg mf) mf sb dbg (pf_new mf cb sb) t ids T /\ trie_bits (pf_ops dbg mf) t = N.max 16 cb /\
    nodes T = S n /\ kids T !! (n, 1) = None.
Proof.
  intros (H1 & H2 & H3) Hsb Hn. apply (built_chain _ _ _ _ _ _ _ _ (pf_dyn mf cb sb H1 H2 H3 dbg)); auto.
  apply N.pow_gt_1; lia.
Qed.
Lemma aux_room P mf b n : 1 <= mf <= dp_cmf P -> dp_cmf P <= 99 -> n <= max_size_of (2 ^ b) mf -> b <= 56 -> ~ saturates P b n.
Proof. intros H1 H2 H3 Hb. pose proof (max_size_factor b mf (dp_cmf P) ltac:(lia) H1 H2). unfold saturates. lia. Qed.
Lemma chain_compact_bonsai {HT : trie_hashers} {HO : th_ok HT} P ccb mf cb sb n : fits_word mf cb sb -> fits_aux P cb ccb -> mf <= dp_cmf P ->
  N.of_nat n < max_size_of (2 ^ N.max 16 cb) mf ->
  exists t ids T, built (cb_ops P mf) mf sb false (cb_new P mf cb sb ccb) t ids T /\ trie_bits (cb_ops P mf) t = N.max 16 cb /\
    nodes T = S n /\ kids T !! (n, 0) = None.
Proof.
  intros (H1 & H2 & H3) [HP Hc]%fits_aux_ok Hle Hn.
  apply (built_chain _ _ _ _ _ _ _ _ (cb_dyn mf cb sb H1 H2 H3 P ccb HP Hc)); auto; [apply pow2_pos|].
  intros b k. apply aux_room; [lia|apply HP].
Qed.
Lemma chain_compact_fkhash {HT : trie_hashers} {HO : th_ok HT} P ccb mf cb sb n : fits_word mf cb sb -> fits_aux P cb ccb -> mf <= dp_cmf P ->
  N.of_nat n < max_size_of (2 ^ N.max 16 cb) mf ->
  exists t ids T, built (cf_ops P mf) mf sb false (cf_new P mf cb sb ccb) t ids T /\ trie_bits (cf_ops P mf) t = N.max 16 cb /\
    nodes T = S n /\ kids T !! (n, 0) = None.
Proof.
  intros (H1 & H2 & H3) [HP Hc]%fits_aux_ok Hle Hn.
  apply (built_chain _ _ _ _ _ _ _ _ (cf_dyn mf cb sb H1 H2 H3 P ccb HP Hc)); auto; [apply pow2_pos|].
  intros b k. apply aux_room; [lia|apply HP].
Qed.
(** A full plain Bonsai trie exists for all parameters (C25 is not vacuous). *)
Theorem C25_reachable : forall (HF : plain_hasher) mf cb sb, fits_word mf cb sb ->
  exists t ids T h v, built (pb_ops mf) mf sb false (pb_new mf cb sb) t ids T /\ pb_size t = pb_max t /\
    ids !! h = Some v /\ kids T !! (h, 0) = None.
Proof.
  intros HF mf cb sb Hw. pose proof Hw as (H1 & H2 & H3).
  destruct (ms_ok2_facts (N.max 16 cb) mf H2 H1) as (_ & _ & H16). destruct (H16 ltac:(lia)) as [H655 _].
  destruct (chain_plain_bonsai mf cb sb (N.to_nat (max_size_of (2 ^ N.max 16 cb) mf - 1)) Hw) as (t & ids & T & HB & Eb & En & Ek); [lia|].
  pose proof (C18_plain_bonsai HF mf cb sb t ids T Hw HB) as D. destruct (dy_ids _ _ _ _ _ _ _ _ D) as (_ & Hlen & _).
  set (n := N.to_nat (max_size_of (2 ^ N.max 16 cb) mf - 1)) in *. assert (Hl : (n < length ids)%nat) by lia.
  destruct (lookup_lt_is_Some_2 ids n Hl) as [v Hv]. exists t, ids, T, n, v. split; [exact HB|]. split; [|auto].
  destruct (C25_plain_bonsai HF mf cb sb t ids T 0%nat 0 0 Hw HB) as (Hm & _). rewrite Hm, Eb.
  pose proof (dy_size _ _ _ _ _ _ _ _ D) as Hsz. cbn [t_size pb_ops] in Hsz. rewrite Hsz, En. lia.
Qed.
Example standard_parameters : hashers_ok std_hashers /\ fits_word 90 0 13 /\ fits_aux dp_std 0 0 /\ fits_word 80 20 8.
Proof. split; [split; exact split_mix_ok|]. repeat split; vm_compute; discriminate. Qed.
(** A run of each trie: three nodes, looked up again; for the Bonsai tries also after an expansion. *)
Definition trie_demo (TO : trie_ops) (start : outcome (tT TO)) (expand : bool) : outcome (list bool) :=
  let* t := start in let* t := t_add_root TO t in let* r := t_get_root TO t in
  let* a := t_add_child TO t r 7 in let '(b1, x, t) := a in
  let* a := t_add_child TO t x 200 in let '(b2, y, t) := a in
  let* a := t_add_child TO t r 7 in let '(b3, x', t) := a in
  let* e := (if expand then let* e := t_expand TO t in let '(nm, t) := e in
               let* r := nm_get nm r in let* x := nm_get nm x in let* y := nm_get nm y in Ret (r, x, y, t)
             else Ret (r, x, y, t)) in
  let '(r2, x2, y2, t) := e in
  let* f1 := t_find_child TO t r2 7 in let* f2 := t_find_child TO t x2 200 in let* f3 := t_find_child TO t r2 200 in
  Ret [b1; b2; b3; x' =? x; f1 =? x2; f2 =? y2; f3 =? nil_id; t_size TO t =? 3; negb (x2 =? y2)].
Example trie_demo_runs :
  trie_demo (@pb_ops vigna_hasher 90) (pb_new 90 16 9) true = Ret [true; true; false; true; true; true; true; true; true] /\
  trie_demo (@cb_ops std_hashers dp_std 90) (cb_new dp_std 90 16 9 0) true = Ret [true; true; false; true; true; true; true; true; true] /\
  trie_demo (@pf_ops vigna_hasher true 90) (pf_new 90 16 9) false = Ret [true; true; false; true; true; true; true; true; true] /\
  trie_demo (@cf_ops std_hashers dp_std 90) (cf_new dp_std 90 16 9 0) false = Ret [true; true; false; true; true; true; true; true; true].
Proof. rewrite cf_new_fast_ok. split; [run|]. split; [run|]. split; run. Qed.

Definition trie_props := (@C18_plain_bonsai, @C19_compact_bonsai, @C20_plain_fkhash, @C21_compact_fkhash, @C19_exact, @C21_exact,
  @C22_plain_fkhash, @C22_compact_fkhash, @C23_plain_bonsai, @C23_compact_bonsai, @C24_plain_bonsai, @C24_compact_bonsai,
  @C25_plain_bonsai, @C25_compact_bonsai, @C25_reachable).
Print Assumptions trie_props.
