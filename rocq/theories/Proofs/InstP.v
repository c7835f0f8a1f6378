(** Every instantiation of the map template meets the store contract. *)
From Verif.Proofs Require Export ReachP TryP.
From Verif.Model Require Export Instances.
From Verif.Props Require Export InstSpec.
Local Open Scope N_scope.

Definition i_lim (i : inst) (B0 T : N) : lims :=
  mkLim (match i_par i with Some P => saturates P B0 T /\ dp_cmf P < i_mf i | None => False end) T B0.
Definition i_stable (i : inst) : bool := match i_l i with None => true | Some _ => false end.
Definition i_frz (i : inst) (n x : N) : Prop :=
  match i_t i, i_l i with
  | _, None => True
  | T_plain_bonsai _ _, Some _ | T_compact_bonsai _ _ _, Some _ => False
  | T_plain_fkhash _ _, Some c | T_compact_fkhash _ _ _, Some c => x / cs_val c < (n - 1) / cs_val c
  end.
Record ipack (dbg : bool) (vs : nat) (i : inst) (e B0 T : N) := mkIPack {
  ip_srep : N -> tT (i_trie dbg i) -> nT (i_nlm vs i) -> locmap -> labmap -> Prop;
  ip_sfresh : N -> tT (i_trie dbg i) -> nT (i_nlm vs i) -> Prop;
  ip_npt : nT (i_nlm vs i) -> N -> ptr -> Prop;
  ip_ok : store_ok (i_trie dbg i) (i_nlm vs i) (i_lim i B0 T) (i_mf i) (8 + e) (i_traps dbg i) (tok (is_fkhash i) (i_frz i) ip_npt) ip_srep ip_sfresh ip_npt }.

Lemma valid_dp i P : valid_inst i -> i_par i = Some P -> dp_ok P.
Proof. intros [_ [H _]] E. rewrite E in H. destruct H as (H1 & H2 & H3 & H4). split; assumption. Qed.

Lemma valid_th (H : trie_hashers) : bijective (@th_trie H) /\ bijective (@th_cht H) -> th_ok H.
Proof. intros [H1 H2]. split; assumption. Qed.

Lemma inst_pack dbg vs i e B0 T : valid_inst i -> (1 <= vs)%nat -> 16 <= B0 -> T <= node_limit (i_mf i) (8 + e) ->
  exists K : ipack dbg vs i e B0 T, True.
Proof.
  intros Hv Hvs HB HT. pose proof (proj1 Hv) as Hmf. pose proof (valid_dp i) as HP.
  destruct i as [[H mf|H P mf|H mf|H P mf] [c|]]; cbn [i_mf i_par i_t] in *; try pose proof (valid_th H (proj2 (proj2 Hv))) as HTO.
  - refine (ex_intro _ (mkIPack dbg vs (mkInst (T_plain_bonsai H mf) (Some c)) e B0 T _ _ _ (bonsai_store_ok (pb_ops mf) (cbn_ops (cs_val c) vs) _ mf (8 + e) _ _ _ _ _ (pb_ok mf (8 + e) Hmf _ T B0 HT (sb_pos e))
      (cbn_ok (cs_val c) vs (chunk_width c)))) I).
  - refine (ex_intro _ (mkIPack dbg vs (mkInst (T_plain_bonsai H mf) None) e B0 T _ _ _ (bonsai_store_ok (pb_ops mf) (pbn_ops vs) _ mf (8 + e) _ _ _ _ _ (pb_ok mf (8 + e) Hmf _ T B0 HT (sb_pos e)) (pbn_ok vs))) I).
  - specialize (HP P Hv eq_refl). refine (ex_intro _ (mkIPack dbg vs (mkInst (T_compact_bonsai H P mf) (Some c)) e B0 T _ _ _ (bonsai_store_ok (cb_ops P mf) (cbn_ops (cs_val c) vs) _ mf (8 + e) _ _ _ _ _ (cb_ok P HP mf (8 + e) Hmf B0 T HB HT)
      (cbn_ok (cs_val c) vs (chunk_width c)))) I).
  - specialize (HP P Hv eq_refl). refine (ex_intro _ (mkIPack dbg vs (mkInst (T_compact_bonsai H P mf) None) e B0 T _ _ _ (bonsai_store_ok (cb_ops P mf) (pbn_ops vs) _ mf (8 + e) _ _ _ _ _ (cb_ok P HP mf (8 + e) Hmf B0 T HB HT) (pbn_ok vs))) I).
  - refine (ex_intro _ (mkIPack dbg vs (mkInst (T_plain_fkhash H mf) (Some c)) e B0 T _ _ _ (fkhash_store_ok (pf_ops dbg mf) (cfn_ops (cs_val c) vs) _ mf (8 + e) dbg _ _ _ _ _ Hmf (pf_ok mf (8 + e) Hmf _ T B0 dbg HT)
      (cfn_ok (cs_val c) vs (chunk_width c) Hvs))) I).
  - refine (ex_intro _ (mkIPack dbg vs (mkInst (T_plain_fkhash H mf) None) e B0 T _ _ _ (fkhash_store_ok (pf_ops dbg mf) (pfn_ops vs) _ mf (8 + e) dbg _ _ _ _ _ Hmf (pf_ok mf (8 + e) Hmf _ T B0 dbg HT) (pfn_ok vs))) I).
  - specialize (HP P Hv eq_refl). refine (ex_intro _ (mkIPack dbg vs (mkInst (T_compact_fkhash H P mf) (Some c)) e B0 T _ _ _ (fkhash_store_ok (cf_ops P mf) (cfn_ops (cs_val c) vs) _ mf (8 + e) false _ _ _ _ _ Hmf (cf_ok P HP mf (8 + e) Hmf B0 T HB HT)
      (cfn_ok (cs_val c) vs (chunk_width c) Hvs))) I).
  - specialize (HP P Hv eq_refl). refine (ex_intro _ (mkIPack dbg vs (mkInst (T_compact_fkhash H P mf) None) e B0 T _ _ _ (fkhash_store_ok (cf_ops P mf) (pfn_ops vs) _ mf (8 + e) false _ _ _ _ _ Hmf (cf_ok P HP mf (8 + e) Hmf B0 T HB HT) (pfn_ok vs))) I).
Qed.
Lemma i_vs vs i : n_vs (i_nlm vs i) = vs. Proof. destruct i as [[] []]; reflexivity. Qed.

Lemma i_supported_limit vs i cb e ks : valid_inst i -> i_supported vs i cb e ks ->
  e <= 39 /\ N.max 16 cb <= bits_limit (8 + e) /\ nodes_for e ks + 1 < node_limit (i_mf i) (8 + e) /\ N.max 16 cb <= 56.
Proof.
  intros [Hmf _] (_ & H1 & H2 & H3). assert (He : e <= 39) by lia. split; [exact He|].
  assert (Eb : bits_limit (8 + e) = 54 - e + 1) by (unfold bits_limit; lia).
  split; [lia|]. split; [|lia]. unfold node_limit. rewrite Eb.
  eapply N.lt_le_trans; [exact H2|]. apply max_size_twice; [lia|exact Hmf].
Qed.
Lemma wpx_i_yields {A} vs i cb e ks (r : outcome A) Q : valid_inst i -> i_supported vs i cb e ks ->
  wpx (i_lim i (N.max 16 cb) (nodes_for e ks + 2)) r Q -> i_yields i cb e ks r Q.
Proof.
  intros Hv Hsup. destruct r as [x| | | |]; simpl; intros H; try contradiction; [left; eauto|].
  right. split; [|reflexivity]. unfold i_near_full. cbn [i_lim l_fail] in H.
  pose proof (valid_dp i) as HP. destruct (i_par i) as [P|]; [|exact H]. destruct H as [H1 H2]. split; [exact H2|].
  destruct (i_supported_limit _ _ _ _ _ Hv Hsup) as (_ & _ & _ & Hcb). unfold saturates in H1.
  pose proof (max_size_near (N.max 16 cb) (dp_cmf P) Hcb (do_cmf _ (HP P Hv eq_refl))) as H3. clear -H1 H3. lia.
Qed.
Lemma i_no_trap_forall dbg i ks : i_no_trap dbg i ks -> i_traps dbg i = true -> Forall (fun k => k <> [0]) ks.
Proof. intros H Ht. apply Forall_forall. intros k Hk ->. apply (H Ht). apply elem_of_list_In, Hk. Qed.

Lemma i_run_ok dbg vs i cb e ops : valid_inst i -> i_supported vs i cb e (updated ops) -> Forall (valid_op vs) ops ->
  i_no_trap dbg i (updated ops) ->
  exists m0, i_new dbg vs i cb (2 ^ e) = Ret m0 /\
    i_yields i cb e (updated ops) (i_run dbg vs i m0 ops) (fun '(xs, _) => xs = fst (spec_run vs ∅ ops)).
Proof.
  intros Hvi Hsup Hv Hnt. destruct (i_supported_limit _ _ _ _ _ Hvi Hsup) as (He & Hcb & Hroom & _).
  pose proof (proj1 Hvi) as Hmf. destruct Hsup as (Hvs & Hcb' & Hn & HA).
  assert (HB : 16 <= N.max 16 cb) by lia.
  destruct (inst_pack dbg vs i e (N.max 16 cb) (nodes_for e (updated ops) + 2) Hvi Hvs HB ltac:(lia)) as [K _].
  pose proof (ip_ok _ _ _ _ _ _ K) as PK.
  destruct (map_new_ok _ _ _ _ _ _ _ _ _ _ PK He cb Hcb) as (m0 & E & Hf); [reflexivity|].
  exists m0. split; [exact E|]. pose proof (mfresh_minv _ _ e (ip_srep _ _ _ _ _ _ K) (ip_sfresh _ _ _ _ _ _ K) _ _ Hf) as Hf0. clear Hf. rename Hf0 into Hf.
  apply (wpx_i_yields vs); [exact Hvi|repeat split; assumption|].
  eapply wpx_mono.
  { apply (run_ok dbg _ _ _ _ e _ _ _ _ _ PK He Hmf ops m0 {[ 0 ]} ∅ ∅ _ ∅ (alphabet (updated ops)) Hf).
    - rewrite i_vs. exact Hv.
    - apply i_no_trap_forall, Hnt.
    - unfold alphabet. set_solver.
    - reflexivity.
    - exact HA.
    - cbn [i_lim l_max]. rewrite dom_empty_L, union_empty_l_L. unfold nodes_for. lia. }
  intros [xs m'] [H _]. rewrite i_vs in H. exact H.
Qed.
Lemma i_stable_pts vs i npt : i_stable i = true -> pts_stable (@tok (i_nlm vs i) (is_fkhash i) (i_frz i) npt) npt.
Proof. destruct i as [[] []]; try discriminate; intros _; apply tok_stable. Qed.
Lemma i_hrun_ok dbg vs i cb e ops r : valid_inst i -> i_stable i = true -> i_supported vs i cb e (hupdated ops) ->
  Forall (hvalid_op vs) ops -> i_no_trap dbg i (hupdated ops) -> hspec_run vs (∅, []) ops = Some r ->
  exists m0, i_new dbg vs i cb (2 ^ e) = Ret m0 /\
    i_yields i cb e (hupdated ops) (i_hrun dbg vs i m0 ops) (fun '(seen, _, _) => seen = fst r).
Proof.
  intros Hvi Hst Hsup Hv Hnt Hr. destruct (i_supported_limit _ _ _ _ _ Hvi Hsup) as (He & Hcb & Hroom & _).
  pose proof (proj1 Hvi) as Hmf. destruct Hsup as (Hvs & Hcb' & Hn & HA).
  assert (HB : 16 <= N.max 16 cb) by lia.
  destruct (inst_pack dbg vs i e (N.max 16 cb) (nodes_for e (hupdated ops) + 2) Hvi Hvs HB ltac:(lia)) as [K _].
  pose proof (ip_ok _ _ _ _ _ _ K) as PK.
  destruct (map_new_ok _ _ _ _ _ _ _ _ _ _ PK He cb Hcb) as (m0 & E & Hf); [reflexivity|].
  exists m0. split; [exact E|]. pose proof (mfresh_minv _ _ e (ip_srep _ _ _ _ _ _ K) (ip_sfresh _ _ _ _ _ _ K) _ _ Hf) as Hf0. clear Hf. rename Hf0 into Hf.
  apply (wpx_i_yields vs); [exact Hvi|repeat split; assumption|].
  eapply wpx_mono.
  { apply (hrun_ok dbg _ _ _ _ e _ _ _ _ _ PK He Hmf ops (i_stable_pts vs i _ Hst) m0 [] {[ 0 ]} ∅ ∅ [] _ ∅ (alphabet (hupdated ops)) r Hf).
    - constructor.
    - rewrite i_vs. exact Hv.
    - apply i_no_trap_forall, Hnt.
    - unfold alphabet. set_solver.
    - reflexivity.
    - exact HA.
    - cbn [i_lim l_max]. rewrite dom_empty_L, union_empty_l_L. unfold nodes_for. lia.
    - rewrite i_vs. exact Hr. }
  intros [[seen m1] hs] [-> _]. reflexivity.
Qed.

(** *** The exception of update, caught *)
Lemma wpx_i_yields_56 {A} i cb e ks (r : outcome A) Q : valid_inst i -> N.max 16 cb <= 56 ->
  wpx (i_lim i (N.max 16 cb) (nodes_for e ks + 2)) r Q -> i_yields i cb e ks r Q.
Proof.
  intros Hv Hcb. destruct r as [x| | | |]; simpl; intros H; try contradiction; [left; eauto|].
  right. split; [|reflexivity]. unfold i_near_full. cbn [i_lim l_fail] in H.
  pose proof (valid_dp i) as HP. destruct (i_par i) as [P|]; [|exact H]. destruct H as [H1 H2]. split; [exact H2|].
  unfold saturates in H1.
  pose proof (max_size_near (N.max 16 cb) (dp_cmf P) Hcb (do_cmf _ (HP P Hv eq_refl))) as H3. clear -H1 H3. lia.
Qed.
Lemma i_try_run_ok dbg vs i cb e ops : valid_inst i -> i_supported_255 vs i cb e (updated ops) -> Forall (valid_op vs) ops ->
  i_no_trap dbg i (updated ops) ->
  exists m0, i_new dbg vs i cb (2 ^ e) = Ret m0 /\
    i_yields i cb e (updated ops) (i_try_run dbg vs i m0 ops) (fun '(seen, m) =>
      exists throws d, shows vs throws ∅ ops seen d /\ (throws = true -> size (alphabet (updated ops)) = 255%nat) /\
        i_size dbg vs i m = N.of_nat (size d)).
Proof.
  intros Hvi Hsup Hv Hnt. pose proof (proj1 Hvi) as Hmf. destruct Hsup as (Hvs & Hcb' & Hn & HA).
  assert (He : e <= 39) by lia. assert (Eb : bits_limit (8 + e) = 54 - e + 1) by (unfold bits_limit; lia).
  assert (Hcb : N.max 16 cb <= bits_limit (8 + e)) by lia.
  assert (Hroom : nodes_for e (updated ops) + 1 < node_limit (i_mf i) (8 + e)).
  { unfold node_limit. rewrite Eb. eapply N.lt_le_trans; [exact Hn|]. apply max_size_twice; [lia|exact Hmf]. }
  assert (HB : 16 <= N.max 16 cb) by lia.
  destruct (inst_pack dbg vs i e (N.max 16 cb) (nodes_for e (updated ops) + 2) Hvi Hvs HB ltac:(lia)) as [K _].
  pose proof (ip_ok _ _ _ _ _ _ K) as PK.
  destruct (map_new_ok _ _ _ _ _ _ _ _ _ _ PK He cb Hcb) as (m0 & E & Hf); [reflexivity|].
  exists m0. split; [exact E|]. pose proof (mfresh_minv _ _ e (ip_srep _ _ _ _ _ _ K) (ip_sfresh _ _ _ _ _ _ K) _ _ Hf) as Hf0. clear Hf. rename Hf0 into Hf.
  apply wpx_i_yields_56; [exact Hvi|lia|].
  eapply wpx_mono.
  { apply (try_run_ok dbg _ _ _ _ e _ _ _ _ _ PK He Hmf ops m0 {[ 0 ]} ∅ ∅ _ ∅ (alphabet (updated ops)) Hf).
    - rewrite i_vs. exact Hv.
    - apply i_no_trap_forall, Hnt.
    - unfold alphabet. set_solver.
    - reflexivity.
    - left. exact HA.
    - cbn [i_lim l_max]. rewrite dom_empty_L, union_empty_l_L. unfold nodes_for. lia. }
  intros [xs m'] (th & S' & D' & M' & b' & loc' & Hs & Hth & Hi & HSS & HSA & Hd). rewrite i_vs in Hs.
  exists th, M'. split; [exact Hs|]. split.
  - intros Ht. destruct (Hth Ht) as [_ H255]. apply subseteq_size in HSA. lia.
  - apply (minv_size_small _ _ _ _ e _ _ _ _ _ PK He Hmf m' _ _ _ _ _ Hi). cbn [i_lim l_max].
    rewrite dom_empty_L, union_empty_l_L in Hd. apply (nb_mono e) in Hd. unfold nodes_for. lia.
Qed.

(** A build with assertions, any bytes: the dictionary, or a failed assertion. *)
Lemma i_debug_ok vs i cb e ops : valid_inst i -> i_supported_any vs i cb e (updated ops) -> Forall (valid_op vs) ops ->
  i_no_trap true i (updated ops) ->
  exists m0, i_new true vs i cb (2 ^ e) = Ret m0 /\
    match i_try_run true vs i m0 ops with
    | Ret (seen, m) => exists throws d, shows vs throws ∅ ops seen d /\
        (throws = true -> (255 <= size (alphabet (updated ops)))%nat) /\ i_size true vs i m = N.of_nat (size d)
    | AssertFail => i_near_full i cb e (updated ops) \/ (255 < size (alphabet (updated ops)))%nat
    | _ => False
    end.
Proof.
  intros Hvi Hsup Hv Hnt. pose proof (proj1 Hvi) as Hmf. destruct Hsup as (Hvs & Hcb' & Hn).
  assert (He : e <= 39) by lia. assert (Eb : bits_limit (8 + e) = 54 - e + 1) by (unfold bits_limit; lia).
  assert (Hcb : N.max 16 cb <= bits_limit (8 + e)) by lia.
  assert (Hroom : nodes_for e (updated ops) + 1 < node_limit (i_mf i) (8 + e)).
  { unfold node_limit. rewrite Eb. eapply N.lt_le_trans; [exact Hn|]. apply max_size_twice; [lia|exact Hmf]. }
  assert (HB : 16 <= N.max 16 cb) by lia.
  destruct (inst_pack true vs i e (N.max 16 cb) (nodes_for e (updated ops) + 2) Hvi Hvs HB ltac:(lia)) as [K _].
  set (L0 := i_lim i (N.max 16 cb) (nodes_for e (updated ops) + 2)).
  set (L1 := mkLim (l_fail L0 \/ (255 < size (alphabet (updated ops)))%nat) (l_max L0) (l_b0 L0)).
  assert (PK := store_ok_weak _ _ L0 L1 _ _ _ _ _ _ _ ltac:(intros H; left; exact H) eq_refl eq_refl (ip_ok _ _ _ _ _ _ K)).
  destruct (map_new_ok _ _ _ _ _ _ _ _ _ _ PK He cb Hcb) as (m0 & E & Hf); [reflexivity|].
  exists m0. split; [exact E|]. pose proof (mfresh_minv _ _ e (ip_srep _ _ _ _ _ _ K) (ip_sfresh _ _ _ _ _ _ K) _ _ Hf) as Hf0. clear Hf. rename Hf0 into Hf.
  assert (H : wpx L1 (i_try_run true vs i m0 ops) (fun '(seen, m) => exists throws d, shows vs throws ∅ ops seen d /\
        (throws = true -> (255 <= size (alphabet (updated ops)))%nat) /\ i_size true vs i m = N.of_nat (size d))).
  { eapply wpx_mono.
    { apply (try_run_ok true _ _ _ _ e _ _ _ _ _ PK He Hmf ops m0 {[ 0 ]} ∅ ∅ _ ∅ (alphabet (updated ops)) Hf).
      - rewrite i_vs. exact Hv.
      - apply i_no_trap_forall, Hnt.
      - unfold alphabet. set_solver.
      - reflexivity.
      - destruct (decide (size (alphabet (updated ops)) <= 255)%nat) as [H|H]; [left; exact H|].
        right. split; [reflexivity|]. right. lia.
      - cbn [L1 L0 i_lim l_max]. rewrite dom_empty_L, union_empty_l_L. unfold nodes_for. lia. }
    intros [xs m'] (th & S' & D' & M' & b' & loc' & Hs & Hth & Hi & HSS & HSA & Hd). rewrite i_vs in Hs.
    exists th, M'. split; [exact Hs|]. split.
    - intros Ht. destruct (Hth Ht) as [_ H255]. apply subseteq_size in HSA. lia.
    - apply (minv_size_small _ _ _ _ e _ _ _ _ _ PK He Hmf m' _ _ _ _ _ Hi). cbn [L1 L0 i_lim l_max].
      rewrite dom_empty_L, union_empty_l_L in Hd. apply (nb_mono e) in Hd. unfold nodes_for. lia. }
  destruct (i_try_run true vs i m0 ops) as [[seen m]| | | |]; try contradiction; [exact H|].
  destruct H as [H|H]; [left|right; exact H].
  destruct (wpx_i_yields_56 (A := unit) i cb e (updated ops) AssertFail (fun _ => True) Hvi ltac:(lia) H) as [(x & ? & _)|[? _]];
    [discriminate|assumption].
Qed.

(** The state reached by a history. *)
Lemma i_reach_inv dbg vs i cb e ops m : valid_inst i -> i_supported vs i cb e (updated ops) -> Forall (valid_op vs) ops ->
  i_no_trap dbg i (updated ops) -> i_reaches dbg vs i cb e ops m ->
  exists (K : ipack dbg vs i e (N.max 16 cb) (nodes_for e (updated ops) + 2)) S D b loc,
    minv (i_trie dbg i) (i_nlm vs i) e (ip_srep _ _ _ _ _ _ K) (ip_sfresh _ _ _ _ _ _ K) m S D (final vs ops) b loc /\
    N.max 16 cb <= b.
Proof.
  intros Hvi Hsup Hv Hnt (m0 & xs & Hnew & Hrun). destruct (i_supported_limit _ _ _ _ _ Hvi Hsup) as (He & Hcb & Hroom & _).
  pose proof (proj1 Hvi) as Hmf. destruct Hsup as (Hvs & Hcb' & Hn & HA).
  assert (HB : 16 <= N.max 16 cb) by lia.
  destruct (inst_pack dbg vs i e (N.max 16 cb) (nodes_for e (updated ops) + 2) Hvi Hvs HB ltac:(lia)) as [K _].
  pose proof (ip_ok _ _ _ _ _ _ K) as PK. exists K.
  destruct (map_new_ok _ _ _ _ _ _ _ _ _ _ PK He cb Hcb) as (m1 & E & Hf); [reflexivity|].
  assert (m1 = m0) as -> by (unfold i_new in Hnew; congruence).
  apply (mfresh_minv _ _ e (ip_srep _ _ _ _ _ _ K) (ip_sfresh _ _ _ _ _ _ K)) in Hf.
  pose proof (run_ok dbg _ _ _ _ e _ _ _ _ _ PK He Hmf ops m0 {[ 0 ]} ∅ ∅ _ ∅ (alphabet (updated ops)) Hf) as Hok.
  rewrite i_vs in Hok. specialize (Hok Hv (i_no_trap_forall _ _ _ Hnt) ltac:(unfold alphabet; set_solver) ltac:(reflexivity) HA).
  cbn [i_lim l_max] in Hok. rewrite dom_empty_L, union_empty_l_L in Hok. specialize (Hok ltac:(unfold nodes_for; lia)).
  unfold i_run in Hrun. rewrite Hrun in Hok. destruct Hok as (_ & S & D & b & loc & Hb & Hi & _).
  exists S, D, b, loc. split; [exact Hi|exact Hb].
Qed.
Lemma i_bounds dbg vs i cb e ops m : valid_inst i -> i_supported vs i cb e (updated ops) -> Forall (valid_op vs) ops ->
  i_no_trap dbg i (updated ops) -> i_reaches dbg vs i cb e ops m ->
  i_size dbg vs i m = N.of_nat (size (final vs ops)) /\
  i_size dbg vs i m <= i_nodes dbg vs i m <= nodes_for e (updated ops) /\
  exists b, i_capa_size dbg vs i m = 2 ^ b /\ N.max 16 cb <= b /\ b + e <= 55 /\ i_nodes dbg vs i m < 2 ^ b /\
    (is_fkhash i = false -> i_nodes dbg vs i m < max_size_of (2 ^ b) (i_mf i)) /\
    (is_fkhash i = true -> i_nodes dbg vs i m <= max_size_of (2 ^ b) (i_mf i)) /\
    (b = N.max 16 cb \/ i_mf i * 2 ^ b <= 200 * (i_nodes dbg vs i m + 8)).
Proof.
  intros Hvi Hsup Hv Hnt Hr. destruct (i_reach_inv dbg vs i cb e ops m Hvi Hsup Hv Hnt Hr) as (K & S & D & b & loc & Hi & Hb0).
  destruct (i_supported_limit _ _ _ _ _ Hvi Hsup) as (He & Hcb & Hroom & _). pose proof (proj1 Hvi) as Hmf.
  pose proof (ip_ok _ _ _ _ _ _ K) as PK.
  destruct (minv_capa _ _ _ _ e _ _ _ _ _ PK m S D _ b loc Hi) as (_ & Hc & Hz & Hl).
  pose proof (minv_bits _ _ _ _ e _ _ _ _ _ PK m S D _ b loc Hi) as Hb2. unfold bits_limit in Hb2.
  assert (Hb56 : b <= 56) by lia.
  assert (Esz : m_size _ _ m = N.of_nat (size (final vs ops))).
  { apply (minv_size_small _ _ _ _ e _ _ _ _ _ PK He Hmf m S D _ b loc Hi).
    rewrite dom_final. cbn [i_lim l_max]. unfold nodes_for. lia. }
  unfold i_size, i_nodes, i_capa_size, map_capa_size. rewrite Hc, Hz, Esz, p2_size_ones by lia. split; [reflexivity|].
  destruct (minv_count _ _ _ _ _ m _ _ _ _ _ Hi) as [Hcn _]. rewrite dom_final in Hcn. unfold nodes_for.
  pose proof (minv_count_ge _ _ _ _ e _ _ _ _ _ PK He m _ _ _ _ _ Hi) as Hg. split; [split; [clear -Hg; lia|exact Hcn]|].
  exists b. pose proof (max_size_lt b (i_mf i) ltac:(lia) Hmf) as Hlt.
  destruct (ms_ok2_facts b (i_mf i) Hb56 Hmf) as (_ & _ & H16). destruct (H16 ltac:(lia)) as [H655 _].
  split; [reflexivity|]. split; [exact Hb0|]. split; [lia|].
  assert (Hk : is_fkhash i = match t_kind (i_trie dbg i) with Bonsai => false | Fkhash => true end).
  { destruct i as [[] []]; reflexivity. }
  assert (Hload : N.of_nat (size loc) < 2 ^ b /\
    (is_fkhash i = false -> N.of_nat (size loc) < max_size_of (2 ^ b) (i_mf i)) /\
    (is_fkhash i = true -> N.of_nat (size loc) <= max_size_of (2 ^ b) (i_mf i))).
  { rewrite Hk. destruct (t_kind (i_trie dbg i)); (split; [|split; intros Hd; try discriminate Hd]).
    - destruct Hl as [Hl| ->]; [lia|]. rewrite map_size_empty. apply pow2_pos.
    - destruct Hl as [Hl| ->]; [exact Hl|]. rewrite map_size_empty. lia.
    - lia.
    - exact Hl. }
  destruct Hload as (H1 & H2 & H3). split; [exact H1|]. split; [exact H2|]. split; [exact H3|].
  destruct (minv_tight _ _ _ _ e _ _ _ _ _ PK m S D _ b loc Hi) as [Ht|Ht]; [left; cbn [i_lim l_b0] in Ht; lia|right].
  pose proof (max_size_near (b - 1) (i_mf i) ltac:(lia) Hmf) as Hm. replace b with (b - 1 + 1) at 1 by lia. rewrite pow2_succ.
  clear -Hm Ht. lia.
Qed.
