(** One more update, for every instantiation (Props/InstStep.v). *)
From Verif.Proofs Require Import InstP TryP SpecP SlotsP InstMoreP.
From Verif.Props Require Export InstMoreSpec.
Local Open Scope N_scope.

Lemma i_supported_app vs i cb e k1 k2 : i_supported vs i cb e (k1 ++ k2) -> i_supported vs i cb e k1.
Proof.
  intros (H1 & H2 & H3 & H4). split; [exact H1|]. split; [exact H2|]. split.
  - pose proof (nodes_for_app e k1 k2) as H. clear -H H3. lia.
  - etransitivity; [apply subseteq_size, (proj1 (alphabet_app k1 k2))|exact H4].
Qed.
Lemma i_yields_mono {A} i cb e ks (r : outcome A) (P Q : A -> Prop) :
  i_yields i cb e ks r P -> (forall x, P x -> Q x) -> i_yields i cb e ks r Q.
Proof. intros [(x & E & H)|H] HPQ; [left; eauto|right; exact H]. Qed.

Section step.
  Context (dbg : bool) (vs : nat) (i : inst) (cb e : N) (ks : list (list N)).
  Context (K : ipack dbg vs i e (N.max 16 cb) (nodes_for e ks + 2)).
  Hypothesis Hvi : valid_inst i.
  Hypothesis He : e <= 39.
  Notation inv := (minv (i_trie dbg i) (i_nlm vs i) e (ip_srep _ _ _ _ _ _ K) (ip_sfresh _ _ _ _ _ _ K)).
  Notation pt := (mpt (i_trie dbg i) (i_nlm vs i) e (ip_npt _ _ _ _ _ _ K)).
  Let PK := ip_ok _ _ _ _ _ _ K.

  Lemma i_inv_write m S D M b loc k p w : inv m S D M b loc -> pt m D loc k p -> length w = vs ->
    exists m' D', map_write (i_trie dbg i) (i_nlm vs i) m p w = Ret m' /\ inv m' S D' (<[k := w]> M) b loc.
  Proof.
    intros Hi Hp Hw. destruct (minv_write _ _ _ _ e _ _ _ _ _ PK m S D M b loc k p w Hi Hp) as (h & D' & E & H1 & _).
    { rewrite i_vs. exact Hw. }
    unfold map_write. rewrite E, bind_ret. eauto.
  Qed.
End step.

Lemma i_reach_update dbg vs i cb e ops m k : valid_inst i -> i_supported vs i cb e (updated ops ++ [k]) ->
  Forall (valid_op vs) ops -> i_no_trap dbg i (updated ops ++ [k]) -> i_reaches dbg vs i cb e ops m ->
  valid_key k -> N.of_nat (length k) + N.of_nat vs < 2 ^ 64 ->
  exists (K : ipack dbg vs i e (N.max 16 cb) (nodes_for e (updated ops ++ [k]) + 2)) S D b loc,
    minv (i_trie dbg i) (i_nlm vs i) e (ip_srep _ _ _ _ _ _ K) (ip_sfresh _ _ _ _ _ _ K) m S D (final vs ops) b loc /\
    i_yields i cb e (updated ops ++ [k]) (i_update dbg vs i m k) (fun '(r, m') => exists p S' D' b' loc', r = UPtr (Some p) /\
      b <= b' /\
      minv (i_trie dbg i) (i_nlm vs i) e (ip_srep _ _ _ _ _ _ K) (ip_sfresh _ _ _ _ _ _ K) m' S' D'
        (<[k := default (zeros vs) (final vs ops !! k)]> (final vs ops)) b' loc' /\
      mpt (i_trie dbg i) (i_nlm vs i) e (ip_npt _ _ _ _ _ _ K) m' D' loc' k p).
Proof.
  intros Hvi Hsup Hv Hnt (m0 & xs & Hnew & Hrun) Hk Hsm. set (ks := updated ops ++ [k]) in *.
  pose proof Hsup as (Hvs & Hcb' & Hn & HA). destruct (i_supported_limit _ _ _ _ _ Hvi Hsup) as (He & Hcb & Hroom & _).
  pose proof (proj1 Hvi) as Hmf. destruct (i_no_trap_app dbg i _ _ Hnt) as [Hnt1 Hnt2].
  destruct (inst_pack dbg vs i e (N.max 16 cb) (nodes_for e ks + 2) Hvi Hvs ltac:(clear; lia) ltac:(clear -Hroom; lia)) as [K _].
  pose proof (ip_ok _ _ _ _ _ _ K) as PK. exists K.
  destruct (map_new_ok _ _ _ _ _ _ _ _ _ _ PK He cb Hcb) as (m1 & E & Hf); [reflexivity|].
  assert (m1 = m0) as -> by (unfold i_new in Hnew; congruence).
  apply (mfresh_minv _ _ e (ip_srep _ _ _ _ _ _ K) (ip_sfresh _ _ _ _ _ _ K)) in Hf.
  destruct (alphabet_app (updated ops) [k]) as [Ha1 Ha2]. fold ks in Ha1, Ha2.
  pose proof (nodes_for_app e (updated ops) [k]) as Hle. fold ks in Hle.
  pose proof (run_ok dbg _ _ _ _ e _ _ _ _ _ PK He Hmf ops m0 {[ 0 ]} ∅ ∅ _ ∅ (alphabet (updated ops)) Hf) as Hok.
  rewrite i_vs in Hok. specialize (Hok Hv (i_no_trap_forall _ _ _ Hnt1) ltac:(unfold alphabet; set_solver) ltac:(reflexivity)).
  specialize (Hok ltac:(etransitivity; [apply subseteq_size, Ha1|exact HA])).
  cbn [i_lim l_max] in Hok. rewrite dom_empty_L, union_empty_l_L in Hok. specialize (Hok ltac:(unfold nodes_for in Hle |- *; clear -Hle; lia)).
  unfold i_run in Hrun. rewrite Hrun in Hok. destruct Hok as (_ & S & D & b & loc & Hb & Hi & HSA).
  exists S, D, b, loc. split; [exact Hi|].
  apply (wpx_i_yields vs); [exact Hvi|exact Hsup|]. eapply wpx_mono.
  { apply (update_alpha dbg _ _ _ _ e _ _ _ _ _ PK He Hmf m S D _ b loc k (alphabet ks) Hi Hk).
    - rewrite i_vs. exact Hsm.
    - intros Htr ->. apply (Hnt2 Htr). left. reflexivity.
    - change (node_bound e (dom (final vs ops)) + 1 < l_max (i_lim i (N.max 16 cb) (nodes_for e ks + 2))).
      cbn [i_lim l_max]. rewrite dom_final. unfold nodes_for in Hle |- *. clear -Hle. lia.
    - etransitivity; [|exact Ha1]. exact HSA.
    - etransitivity; [|exact Ha2]. unfold alphabet. simpl concat. rewrite app_nil_r. set_solver.
    - exact HA. }
  rewrite i_vs. intros [r m'] (p & S' & D' & b' & loc' & H1 & H2 & H3 & _ & H6 & H7).
  exists p, S', D', b', loc'. auto.
Qed.
(** A history and its continuation. *)
Lemma i_reach_run dbg vs i cb e ops1 ops2 m1 xs m2 : valid_inst i -> i_supported vs i cb e (updated (ops1 ++ ops2)) ->
  Forall (valid_op vs) (ops1 ++ ops2) -> i_no_trap dbg i (updated (ops1 ++ ops2)) ->
  i_reaches dbg vs i cb e ops1 m1 -> i_run dbg vs i m1 ops2 = Ret (xs, m2) ->
  exists (K : ipack dbg vs i e (N.max 16 cb) (nodes_for e (updated (ops1 ++ ops2)) + 2)) S1 D1 b1 loc1 S2 D2 b2 loc2,
    minv (i_trie dbg i) (i_nlm vs i) e (ip_srep _ _ _ _ _ _ K) (ip_sfresh _ _ _ _ _ _ K) m1 S1 D1 (final vs ops1) b1 loc1 /\
    minv (i_trie dbg i) (i_nlm vs i) e (ip_srep _ _ _ _ _ _ K) (ip_sfresh _ _ _ _ _ _ K) m2 S2 D2 (final vs (ops1 ++ ops2)) b2 loc2 /\
    b1 <= b2.
Proof.
  intros Hvi Hsup Hv Hnt (m0 & xs0 & Hnew & Hrun) Hrun2. set (ks := updated (ops1 ++ ops2)) in *.
  assert (Eks : ks = updated ops1 ++ updated ops2) by apply updated_app.
  pose proof Hsup as (Hvs & Hcb' & Hn & HA). destruct (i_supported_limit _ _ _ _ _ Hvi Hsup) as (He & Hcb & Hroom & _).
  pose proof (proj1 Hvi) as Hmf. rewrite Eks in Hnt. destruct (i_no_trap_app dbg i _ _ Hnt) as [Hnt1 Hnt2].
  apply Forall_app in Hv as [Hv1 Hv2].
  destruct (inst_pack dbg vs i e (N.max 16 cb) (nodes_for e ks + 2) Hvi Hvs ltac:(clear; lia) ltac:(clear -Hroom; lia)) as [K _].
  pose proof (ip_ok _ _ _ _ _ _ K) as PK. exists K.
  destruct (map_new_ok _ _ _ _ _ _ _ _ _ _ PK He cb Hcb) as (m & E & Hf); [reflexivity|].
  assert (m = m0) as -> by (unfold i_new in Hnew; congruence).
  apply (mfresh_minv _ _ e (ip_srep _ _ _ _ _ _ K) (ip_sfresh _ _ _ _ _ _ K)) in Hf.
  destruct (alphabet_app (updated ops1) (updated ops2)) as [Ha1 Ha2]. rewrite <- Eks in Ha1, Ha2.
  pose proof (nodes_for_app e (updated ops1) (updated ops2)) as Hle. rewrite <- Eks in Hle.
  pose proof (run_ok dbg _ _ _ _ e _ _ _ _ _ PK He Hmf ops1 m0 {[ 0 ]} ∅ ∅ _ ∅ (alphabet ks) Hf) as Hok.
  rewrite i_vs in Hok. specialize (Hok Hv1 (i_no_trap_forall _ _ _ Hnt1) ltac:(unfold alphabet; set_solver) Ha1 HA).
  cbn [i_lim l_max] in Hok. rewrite dom_empty_L, union_empty_l_L in Hok. specialize (Hok ltac:(unfold nodes_for in Hle |- *; clear -Hle; lia)).
  unfold i_run in Hrun. rewrite Hrun in Hok. destruct Hok as (_ & S1 & D1 & b1 & loc1 & _ & Hi1 & HSA1).
  exists S1, D1, b1, loc1.
  pose proof (run_ok dbg _ _ _ _ e _ _ _ _ _ PK He Hmf ops2 m1 S1 D1 _ b1 loc1 (alphabet ks) Hi1) as Hok2.
  rewrite i_vs in Hok2. specialize (Hok2 Hv2 (i_no_trap_forall _ _ _ Hnt2) HSA1 Ha2 HA).
  cbn [i_lim l_max] in Hok2.
  assert (Hd : dom (final vs ops1) ∪ list_to_set (updated ops2) = list_to_set ks).
  { rewrite dom_final, Eks, list_to_set_app_L. reflexivity. }
  change (snd (spec_run vs ∅ ops1)) with (final vs ops1) in Hok2. rewrite Hd in Hok2.
  specialize (Hok2 ltac:(unfold nodes_for; clear; lia)).
  unfold i_run in Hrun2. rewrite Hrun2 in Hok2. destruct Hok2 as (_ & S2 & D2 & b2 & loc2 & Hb & Hi2 & _).
  exists S2, D2, b2, loc2. split; [exact Hi1|]. split; [|exact Hb].
  unfold final at 1. rewrite spec_run_app. exact Hi2.
Qed.
