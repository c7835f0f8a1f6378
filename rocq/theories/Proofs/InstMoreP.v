(** find after any history, and the exception of update, for every instantiation (Props/InstMore.v). *)
From Verif.Proofs Require Import InstP TryP SpecP.
From Verif.Props Require Export InstMoreSpec.
Local Open Scope N_scope.

Section more.
  Context (dbg : bool) (vs : nat) (i : inst) (cb e : N) (ks : list (list N)).
  Context (K : ipack dbg vs i e (N.max 16 cb) (nodes_for e ks + 2)).
  Hypothesis Hvi : valid_inst i.
  Hypothesis He : e <= 39.
  Notation inv := (minv (i_trie dbg i) (i_nlm vs i) e (ip_srep _ _ _ _ _ _ K) (ip_sfresh _ _ _ _ _ _ K)).
  Let PK := ip_ok _ _ _ _ _ _ K.

  Lemma i_inv_find m S D M b loc k : inv m S D M b loc -> valid_key k -> N.of_nat (length k) < 2 ^ 64 ->
    i_find_value dbg vs i m k = Ret (M !! k).
  Proof.
    intros Hi Hk Hlen. destruct (valid_okey k Hk) as [Hok Hb].
    pose proof (minv_find dbg _ _ _ _ e _ _ _ _ _ PK He m S D M b loc k Hi Hok Hb Hlen) as H.
    unfold i_find_value, i_find. destruct (map_find dbg _ _ m k) as [[p|]| | | |]; try contradiction; rewrite bind_ret.
    - destruct H as [_ H]. destruct (minv_read _ _ _ _ e _ _ _ _ _ PK m S D M b loc k p Hi H) as (v & Hv & E).
      unfold map_read. rewrite E, bind_ret, Hv. reflexivity.
    - rewrite H. reflexivity.
  Qed.
  Lemma i_inv_size m S D M b loc : inv m S D M b loc -> dom M ⊆ list_to_set ks -> i_size dbg vs i m = N.of_nat (size M).
  Proof.
    intros Hi Hu. unfold i_size.
    apply (minv_size_small _ _ _ _ e _ _ _ _ _ PK He (proj1 Hvi) m _ _ _ _ _ Hi). cbn [i_lim l_max].
    apply (nb_mono e) in Hu. unfold nodes_for. lia.
  Qed.
End more.

Lemma i_find_after dbg vs i cb e ops m k : valid_inst i -> i_supported vs i cb e (updated ops) -> Forall (valid_op vs) ops ->
  i_no_trap dbg i (updated ops) -> i_reaches dbg vs i cb e ops m -> valid_key k -> N.of_nat (length k) < 2 ^ 64 ->
  i_find_value dbg vs i m k = Ret (value_after vs k None ops).
Proof.
  intros Hvi Hsup Hv Hnt Hr Hk Hlen. destruct (i_supported_limit _ _ _ _ _ Hvi Hsup) as (He & _).
  destruct (i_reach_inv dbg vs i cb e ops m Hvi Hsup Hv Hnt Hr) as (K & S & D & b & loc & Hi & _).
  rewrite (i_inv_find dbg vs i cb e _ K He m S D _ b loc k Hi Hk Hlen), final_value. reflexivity.
Qed.

Lemma i_no_trap_app dbg i k1 k2 : i_no_trap dbg i (k1 ++ k2) -> i_no_trap dbg i k1 /\ i_no_trap dbg i k2.
Proof. intros H. split; intros Ht Hin; apply (H Ht), in_or_app; auto. Qed.

Lemma i_throw_inv dbg vs i cb e ops m k x m' : valid_inst i -> i_supported_255 vs i cb e (updated ops ++ [k]) ->
  Forall (valid_op vs) ops -> i_no_trap dbg i (updated ops ++ [k]) -> i_try_reaches dbg vs i cb e ops m ->
  valid_key k -> N.of_nat (length k) + N.of_nat vs < 2 ^ 64 -> i_update dbg vs i m k = Ret (UThrow x, m') ->
  size (alphabet (updated ops ++ [k])) = 255%nat /\ i_size dbg vs i m' = i_size dbg vs i m /\
  (forall k', valid_key k' -> N.of_nat (length k') < 2 ^ 64 -> i_find_value dbg vs i m' k' = i_find_value dbg vs i m k') /\
  i_find_value dbg vs i m k = Ret None /\
  i_yields i cb e (updated ops ++ [k]) (i_update dbg vs i m' k) (fun '(r, m'') => exists p, r = UPtr (Some p) /\
    map_read _ _ m'' p = Ret (replicate vs 0) /\ i_size dbg vs i m'' = i_size dbg vs i m + 1 /\
    i_find_value dbg vs i m'' k = Ret (Some (replicate vs 0)) /\
    (forall k', k' <> k -> valid_key k' -> N.of_nat (length k') < 2 ^ 64 ->
       i_find_value dbg vs i m'' k' = i_find_value dbg vs i m k')).
Proof.
  intros Hvi Hsup Hv Hnt (m0 & xs & E0 & Er) Hk Hsm E. set (ks := updated ops ++ [k]) in *.
  pose proof (proj1 Hvi) as Hmf. destruct Hsup as (Hvs & Hcb' & Hn & HA).
  destruct (i_no_trap_app dbg i _ _ Hnt) as [Hnt1 Hnt2].
  assert (He : e <= 39) by lia. assert (Eb : bits_limit (8 + e) = 54 - e + 1) by (unfold bits_limit; lia).
  assert (Hcb : N.max 16 cb <= bits_limit (8 + e)) by lia.
  assert (Hroom : nodes_for e ks + 1 < node_limit (i_mf i) (8 + e)).
  { unfold node_limit. rewrite Eb. eapply N.lt_le_trans; [exact Hn|]. apply max_size_twice; [lia|exact Hmf]. }
  assert (HB : 16 <= N.max 16 cb) by lia.
  destruct (inst_pack dbg vs i e (N.max 16 cb) (nodes_for e ks + 2) Hvi Hvs HB ltac:(lia)) as [K _].
  pose proof (ip_ok _ _ _ _ _ _ K) as PK.
  destruct (map_new_ok _ _ _ _ _ _ _ _ _ _ PK He cb Hcb) as (m1 & E1 & Hf); [reflexivity|].
  assert (m1 = m0) as -> by (unfold i_new in E0; congruence).
  pose proof (mfresh_minv _ _ e (ip_srep _ _ _ _ _ _ K) (ip_sfresh _ _ _ _ _ _ K) _ _ Hf) as Hf0.
  assert (Hu0 : (list_to_set (updated ops) : gset (list N)) ⊆ list_to_set ks).
  { unfold ks. rewrite list_to_set_app_L. clear. set_solver. }
  assert (Ha1 : alphabet (updated ops) ⊆ alphabet ks) by apply alphabet_app.
  assert (Ha2 : alphabet [k] ⊆ alphabet ks) by apply alphabet_app.
  assert (Htr : exists S D M b loc, minv (i_trie dbg i) (i_nlm vs i) e (ip_srep _ _ _ _ _ _ K) (ip_sfresh _ _ _ _ _ _ K) m S D M b loc /\
    S ⊆ alphabet (updated ops) /\ dom M ⊆ list_to_set (updated ops)).
  { pose proof (try_run_ok dbg _ _ _ _ e _ _ _ _ _ PK He Hmf ops m0 {[ 0 ]} ∅ ∅ _ ∅ (alphabet (updated ops)) Hf0) as H.
    rewrite i_vs in H. specialize (H Hv (i_no_trap_forall _ _ _ Hnt1)).
    assert (H0 : {[ 0 ]} ⊆ alphabet (updated ops)) by (unfold alphabet; set_solver).
    specialize (H H0 (reflexivity _)).
    assert (H2 : (size (alphabet (updated ops)) <= 255)%nat) by (apply subseteq_size in Ha1; lia).
    specialize (H (or_introl H2)).
    assert (H3 : node_bound e (dom (∅ : dict) ∪ list_to_set (updated ops)) + 1 < l_max (i_lim i (N.max 16 cb) (nodes_for e ks + 2))).
    { cbn [i_lim l_max]. rewrite dom_empty_L, union_empty_l_L. apply (nb_mono e) in Hu0. unfold nodes_for. lia. }
    specialize (H H3). unfold i_try_run in Er. rewrite Er in H.
    destruct H as (th & S' & D' & M' & b' & loc' & _ & _ & Hi & _ & HSA & Hd). exists S', D', M', b', loc'.
    split; [exact Hi|]. split; [exact HSA|]. rewrite dom_empty_L, union_empty_l_L in Hd. exact Hd. }
  destruct Htr as (S & D & M & b & loc & Hi & HSA & Hu). clear Hf0 Hf.
  assert (Hks : dom M ⊆ list_to_set ks) by (etransitivity; eassumption).
  assert (Hks2 : dom M ∪ {[ k ]} ⊆ list_to_set ks).
  { unfold ks. rewrite list_to_set_app_L. clear -Hu. set_solver. }
  pose proof (nb_mono e _ _ Hks) as Hle. change (node_bound e (list_to_set ks)) with (nodes_for e ks) in Hle.
  assert (HkA : (list_to_set k : gset N) ⊆ alphabet ks).
  { etransitivity; [|exact Ha2]. unfold alphabet. simpl concat. set_solver. }
  assert (HSA' : S ⊆ alphabet ks) by (etransitivity; eassumption).
  assert (Hsm' : small (n_vs (i_nlm vs i)) k) by (rewrite i_vs; exact Hsm).
  assert (HBk : i_traps dbg i = true -> k <> [0]). { intros Htr ->. apply (Hnt2 Htr). left. reflexivity. }
  pose proof (update_255 dbg _ _ _ _ e _ _ _ _ _ PK He Hmf m S D M b loc k (alphabet ks) Hi Hk Hsm' HBk) as H.
  specialize (H ltac:(cbn [i_lim l_max]; lia) HSA' HkA HA).
  unfold i_update in E. rewrite E in H. destruct H as (S1 & D1 & b1 & loc1 & _ & _ & HS1 & _ & -> & Hn0 & Hi1 & _ & H5).
  pose proof (i_inv_size dbg vs i cb e ks K Hvi He m S D M b loc Hi Hks) as Esz.
  split. { apply subseteq_size in HS1. lia. }
  split. { rewrite Esz. apply (i_inv_size dbg vs i cb e ks K Hvi He m' S1 D M b1 loc1 Hi1 Hks). }
  split. { intros k' Hk' Hl'. rewrite (i_inv_find dbg vs i cb e ks K He m S D M b loc k' Hi Hk' Hl').
    apply (i_inv_find dbg vs i cb e ks K He m' S1 D M b1 loc1 k' Hi1 Hk' Hl'). }
  assert (Hl : N.of_nat (length k) < 2 ^ 64) by (clear -Hsm; lia).
  split. { rewrite (i_inv_find dbg vs i cb e ks K He m S D M b loc k Hi Hk Hl), Hn0. reflexivity. }
  apply wpx_i_yields_56; [exact Hvi|lia|]. eapply wpx_mono.
  { apply (update_255 dbg _ _ _ _ e _ _ _ _ _ PK He Hmf m' S1 D M b1 loc1 k (alphabet ks) Hi1 Hk Hsm' HBk);
      [cbn [i_lim l_max]; lia|assumption..]. }
  rewrite i_vs. intros [r m2] (S2 & D2 & b2 & loc2 & _ & _ & HS2 & _ & H2). destruct r as [[p|]|y]; [|destruct H2|].
  - destruct H2 as [Hi2 Hp]. exists p. split; [reflexivity|]. rewrite Hn0 in Hi2. cbn [default from_option] in Hi2.
    destruct (minv_read _ _ _ _ e _ _ _ _ _ PK m2 _ _ _ _ _ k p Hi2 Hp) as (v & Hv2 & Erd).
    rewrite lookup_insert in Hv2. injection Hv2 as <-. split; [exact Erd|]. split.
    { rewrite Esz. rewrite (i_inv_size dbg vs i cb e ks K Hvi He m2 S2 D2 _ b2 loc2 Hi2).
      - rewrite map_size_insert_None by exact Hn0. lia.
      - rewrite dom_insert_L. clear -Hks2. set_solver. }
    split. { rewrite (i_inv_find dbg vs i cb e ks K He m2 _ _ _ _ _ k Hi2 Hk Hl), lookup_insert. reflexivity. }
    intros k' Hne Hk' Hl'. rewrite (i_inv_find dbg vs i cb e ks K He m2 _ _ _ _ _ k' Hi2 Hk' Hl'), lookup_insert_ne by congruence.
    symmetry. apply (i_inv_find dbg vs i cb e ks K He m S D M b loc k' Hi Hk' Hl').
  - destruct H2 as (_ & _ & _ & H2 & _). lia.
Qed.
