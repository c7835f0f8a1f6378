(** The four tries meet the contract of TrieHistP. *)
From Verif.Proofs Require Export TrieHistP.
Local Open Scope N_scope.

Ltac unops := cbn [tT t_kind t_default t_new t_size t_capa t_get_root t_add_root t_find_child
      t_add_child t_needs_to_expand t_expand pb_ops pf_ops cb_ops cf_ops] in *.

Section hash.
Context {HF : plain_hasher} {HT : trie_hashers} {HO : th_ok HT}.

Definition pb_lrep (mf sb : N) (t : pb_trie) (loc : locmap) : Prop := exists b, pb_rep mf b sb t loc.
Definition pf_lrep (dbg : bool) (mf sb : N) (t : pf_trie) (loc : locmap) : Prop := exists b, pf_rep dbg mf b sb t loc.
Definition cb_lrep (P : dsp_params) (mf sb : N) (t : cb_trie) (loc : locmap) : Prop := exists b, cb_rep P mf b sb t loc.
Definition cf_lrep (P : dsp_params) (mf sb : N) (t : cf_trie) (loc : locmap) : Prop := exists b, cf_rep P mf b sb t loc.
Definition never (b n : N) : Prop := False.

Lemma pb_rep_bits mf b sb t loc : pb_rep mf b sb t loc -> trie_bits (pb_ops mf) t = b.
Proof. intros H. unfold trie_bits. cbn [t_capa pb_ops]. rewrite (ps_capa _ _ _ _ (PlainBonsaiP.pr_shape _ _ _ _ _ H)). reflexivity. Qed.
Lemma pf_rep_bits dbg mf b sb t loc : pf_rep dbg mf b sb t loc -> trie_bits (pf_ops dbg mf) t = b.
Proof. intros H. unfold trie_bits. cbn [t_capa pf_ops]. rewrite (fs_capa _ _ _ _ (fr_shape _ _ _ _ _ _ H)). reflexivity. Qed.
Lemma cb_rep_bits P mf b sb t loc : cb_rep P mf b sb t loc -> trie_bits (cb_ops P mf) t = b.
Proof.
  intros (mc & ms & H). unfold trie_bits. cbn [t_capa cb_ops].
  rewrite (ds_capa _ _ _ _ (dr_shape _ _ _ _ _ _ (xs_rep _ _ _ _ _ _ _ (xr_shape _ _ _ _ _ _ _ _ H)))). reflexivity.
Qed.
Lemma cf_rep_bits P mf b sb t loc : cf_rep P mf b sb t loc -> trie_bits (cf_ops P mf) t = b.
Proof.
  intros (mc & ms & H). unfold trie_bits. cbn [t_capa cf_ops].
  rewrite (ds_capa _ _ _ _ (dr_shape _ _ _ _ _ _ (ys_rep _ _ _ _ _ _ _ (yr_shape _ _ _ _ _ _ _ _ H)))). reflexivity.
Qed.

Section inst.
  Context (mf cb sb : N).
  Hypothesis Hmf : 1 <= mf <= 99.
  Hypothesis Hcb : N.max 16 cb <= 56.
  Hypothesis Hsb : N.max 16 cb + sb < 64.

  Lemma pb_dyn : dyn_ok (pb_ops mf) mf sb false (pb_new mf cb sb) (N.max 16 cb) never (pb_lrep mf sb).
  Proof.
    split.
    - exact Hmf.
    - destruct (pb_new_ok mf cb sb Hmf Hcb Hsb) as (t0 & E0 & Hf). destruct (pb_add_root_ok _ _ _ _ Hf) as (t & E & Hr).
      exists t0, t, 1. split; [exact E0|]. split; [exact E|]. split; [apply (pb_root _ _ _ _ _ Hr)|]. exists (N.max 16 cb). exact Hr.
    - intros t0 t E0 E1. destruct (pb_new_ok mf cb sb Hmf Hcb Hsb) as (t0' & E0' & Hf). rewrite E0 in E0'. injection E0' as <-.
      destruct (pb_add_root_ok _ _ _ _ Hf) as (t' & E & Hr). unops. rewrite E1 in E. injection E as <-. apply (pb_rep_bits _ _ _ _ _ Hr).
    - intros t loc (b & H). rewrite (pb_rep_bits _ _ _ _ _ H). apply H.
    - intros t loc (b & H). apply H.
    - intros t loc (b & H). rewrite (pb_rep_bits _ _ _ _ _ H). unops.
      rewrite <- (ps_max _ _ _ _ (PlainBonsaiP.pr_shape _ _ _ _ _ H)). apply H.
    - intros t loc (b & H). exists 1. split; [apply (pb_root _ _ _ _ _ H)|]. apply (tr_root _ _ _ _ _ _ _ (PlainBonsaiP.pr_trep _ _ _ _ _ H)).
    - intros t loc r Hk. discriminate Hk.
    - intros t loc p q x (b & H). eapply trep_loc_inj; apply H.
    - intros t loc s p (b & H) [x Hx].
      destruct (trep_parent _ _ _ _ _ _ _ (PlainBonsaiP.pr_trep _ _ _ _ _ H) s p x Hx) as [v Hv]. eauto.
    - intros t loc p x (b & H) Hx. rewrite (pb_rep_bits _ _ _ _ _ H). apply (pb_loc_bounds _ _ _ _ _ H p x Hx).
    - intros t loc p v s (b & H) Hp Hs. apply (pb_find_ok _ _ _ _ _ H p v s Hp Hs).
    - intros t loc p v s y (b & H) Hp Hs _ _ Hy. pose proof (pb_add_ok _ _ _ _ _ H p v s Hp Hs) as Ha. rewrite Hy in Ha.
      unops. rewrite Ha. apply wpx_ret. split; [reflexivity|]. split; [reflexivity|]. split; [exists b; exact H|reflexivity].
    - intros t loc p v s (b & H) Hp Hs _ _ Hn Hlt. pose proof (pb_add_ok _ _ _ _ _ H p v s Hp Hs) as Ha. rewrite Hn in Ha.
      rewrite (pb_rep_bits _ _ _ _ _ H) in Hlt. specialize (Hlt eq_refl). unops.
      rewrite (proj2 (N.eqb_neq (pb_size t) (pb_max t))) in Ha.
      2:{ rewrite (ps_max _ _ _ _ (PlainBonsaiP.pr_shape _ _ _ _ _ H)). lia. }
      destruct Ha as (x & t' & -> & Hx & Hr). apply wpx_ret. split; [reflexivity|]. split; [exact Hx|].
      split; [discriminate|]. split; [intros _; rewrite (pb_rep_bits _ _ _ _ _ H); apply (pb_rep_bits _ _ _ _ _ Hr)|]. exists b. exact Hr.
    - intros t loc p v s (b & H) Hp Hs _ Hn Hfull. pose proof (pb_add_ok _ _ _ _ _ H p v s Hp Hs) as Ha. rewrite Hn in Ha.
      rewrite (pb_rep_bits _ _ _ _ _ H) in Hfull. unops.
      rewrite (proj2 (N.eqb_eq (pb_size t) (pb_max t))) in Ha; [exact Ha|].
      rewrite (ps_max _ _ _ _ (PlainBonsaiP.pr_shape _ _ _ _ _ H)). exact Hfull.
    - intros t loc (b & H) _. rewrite (pb_rep_bits _ _ _ _ _ H). unops. unfold pb_needs_to_expand.
      rewrite (ps_max _ _ _ _ (PlainBonsaiP.pr_shape _ _ _ _ _ H)). reflexivity.
    - intros t loc (b & H) _ H1 (G1 & G2). rewrite (pb_rep_bits _ _ _ _ _ H) in *. unops.
      destruct (pb_expand_ok mf b sb t loc H ltac:(lia) H1 G2) as (nm & t' & loc' & E & Hr & Hd & _ & mp & (Hn1 & Hn2) & Hm1 & Hm2).
      rewrite E, bind_ret. apply wpx_ret. exists loc', mp. cbn [fst snd nm_size nm_get].
      split; [exists (b + 1); exact Hr|]. split; [apply (pb_rep_bits _ _ _ _ _ Hr)|]. auto.
  Qed.

  Lemma pf_dyn dbg : dyn_ok (pf_ops dbg mf) mf sb dbg (pf_new mf cb sb) (N.max 16 cb) never (pf_lrep dbg mf sb).
  Proof.
    assert (Hadd : forall t loc p v s, pf_lrep dbg mf sb t loc -> loc !! p = Some v -> s < 2 ^ sb ->
      (dbg = true -> s :: p <> [0]) ->
      (t_kind (pf_ops dbg mf) = Fkhash -> t_size (pf_ops dbg mf) t < max_size_of (2 ^ trie_bits (pf_ops dbg mf) t) mf \/ can_grow (pf_ops dbg mf) sb t) ->
      exists r x t', pf_add_child dbg mf t v s = Ret (r, x, t') /\ match loc !! (s :: p) with
        | Some y => r = false /\ x = y /\ pf_lrep dbg mf sb t' loc
        | None => r = true /\ x = pf_size t /\
            (pf_size t < max_size_of (2 ^ trie_bits (pf_ops dbg mf) t) mf -> trie_bits (pf_ops dbg mf) t' = trie_bits (pf_ops dbg mf) t) /\
            pf_lrep dbg mf sb t' (<[s :: p := x]> loc) end).
    { intros t loc p v s (b & H) Hp Hs Hf Hg. specialize (Hg eq_refl). unfold can_grow in Hg. rewrite (pf_rep_bits _ _ _ _ _ _ H) in Hg. unops.
      destruct (pf_add_ok dbg mf b sb t loc p v s H Hp Hs Hf) as (r & x & t' & b' & E & _ & Hbb & Hm).
      { rewrite (fs_max _ _ _ _ (fr_shape _ _ _ _ _ _ H)). destruct Hg as [Hg|[G1 G2]]; [left; exact Hg|right; lia]. }
      exists r, x, t'. split; [exact E|]. unfold pf_lrep. destruct (loc !! (s :: p)); destruct Hm as (H1 & H2 & H3); [eauto|].
      split; [exact H1|]. split; [exact H2|]. split; [|eauto]. intros Hlt. rewrite (pf_rep_bits _ _ _ _ _ _ H) in *.
      rewrite <- (proj1 Hbb ltac:(rewrite (fs_max _ _ _ _ (fr_shape _ _ _ _ _ _ H)); exact Hlt)). apply (pf_rep_bits _ _ _ _ _ _ H3). }
    split.
    - exact Hmf.
    - destruct (pf_new_ok mf cb sb Hmf Hcb Hsb) as (t0 & E0 & Hf). destruct (pf_add_root_ok dbg _ _ _ _ Hf) as (t & E & Hr).
      exists t0, t, 0. split; [exact E0|]. split; [exact E|]. split; [apply (pf_root _ _ _ _ _ _ Hr)|]. exists (N.max 16 cb). exact Hr.
    - intros t0 t E0 E1. destruct (pf_new_ok mf cb sb Hmf Hcb Hsb) as (t0' & E0' & Hf). rewrite E0 in E0'. injection E0' as <-.
      destruct (pf_add_root_ok dbg _ _ _ _ Hf) as (t' & E & Hr). unops. rewrite E1 in E. injection E as <-. apply (pf_rep_bits _ _ _ _ _ _ Hr).
    - intros t loc (b & H). rewrite (pf_rep_bits _ _ _ _ _ _ H). apply H.
    - intros t loc (b & H). apply H.
    - intros t loc (b & H). rewrite (pf_rep_bits _ _ _ _ _ _ H). unops. rewrite <- (fs_max _ _ _ _ (fr_shape _ _ _ _ _ _ H)). apply H.
    - intros t loc (b & H). exists 0. split; [apply (pf_root _ _ _ _ _ _ H)|]. apply (tr_root _ _ _ _ _ _ _ (fr_trep _ _ _ _ _ _ H)).
    - intros t loc r _ (b & H) Hr. rewrite (tr_root _ _ _ _ _ _ _ (fr_trep _ _ _ _ _ _ H)) in Hr. congruence.
    - intros t loc p q x (b & H). eapply trep_loc_inj; apply H.
    - intros t loc s p (b & H) [x Hx]. destruct (trep_parent _ _ _ _ _ _ _ (fr_trep _ _ _ _ _ _ H) s p x Hx) as [v Hv]. eauto.
    - intros t loc p x (b & H) Hx. rewrite (pf_rep_bits _ _ _ _ _ _ H). apply (pf_id_lt _ _ _ _ _ _ H p x Hx).
    - intros t loc p v s (b & H) Hp Hs. apply (pf_find_ok _ _ _ _ _ _ H p v s Hp Hs).
    - intros t loc p v s y H Hp Hs Hf Hg Hy. destruct (Hadd t loc p v s H Hp Hs Hf Hg) as (r & x & t' & E & Hm). rewrite Hy in Hm.
      unops. rewrite E. apply wpx_ret. destruct Hm as (H1 & H2 & H3). split; [exact H1|]. split; [exact H2|]. split; [exact H3|discriminate].
    - intros t loc p v s H Hp Hs Hf Hg Hn _. destruct (Hadd t loc p v s H Hp Hs Hf Hg) as (r & x & t' & E & Hm). rewrite Hn in Hm.
      unops. rewrite E. apply wpx_ret. destruct Hm as (H1 & -> & H3). split; [exact H1|]. split; [|split; [reflexivity|exact H3]].
      intros q Hq. destruct H as (b & H). pose proof (fr_ids _ _ _ _ _ _ H q _ Hq). lia.
    - intros t loc p v s _ _ _ Hk. discriminate Hk.
    - intros t loc _ Hk. discriminate Hk.
    - intros t loc _ Hk. discriminate Hk.
  Qed.

  Section compact.
    Context (P : dsp_params) (ccb : N).
    Hypothesis HP : dp_ok P.
    Hypothesis Hccb : N.max 12 ccb <= N.max 16 cb.

    Lemma cb_dyn : dyn_ok (cb_ops P mf) mf sb false (cb_new P mf cb sb ccb) (N.max 16 cb) (saturates P) (cb_lrep P mf sb).
    Proof.
      split.
      - exact Hmf.
      - destruct (cb_new_ok P HP mf cb sb ccb Hmf Hcb Hsb Hccb) as (t0 & E0 & Hf). destruct (cb_add_root_ok P HP _ _ _ _ Hf) as (t & E & Hr).
        exists t0, t, 0. split; [exact E0|]. split; [exact E|]. split; [apply (cb_root _ _ _ _ _ _ _ _ Hr)|].
        exists (N.max 16 cb), ∅, ∅. exact Hr.
      - intros t0 t E0 E1. destruct (cb_new_ok P HP mf cb sb ccb Hmf Hcb Hsb Hccb) as (t0' & E0' & Hf). rewrite E0 in E0'. injection E0' as <-.
        destruct (cb_add_root_ok P HP _ _ _ _ Hf) as (t' & E & Hr). unops. rewrite E1 in E. injection E as <-.
        apply (cb_rep_bits P mf (N.max 16 cb) sb t {[ [] := 0 ]}). exists ∅, ∅. exact Hr.
      - intros t loc (b & H). rewrite (cb_rep_bits _ _ _ _ _ _ H). apply (cb_rep_b P mf sb b t loc H).
      - intros t loc (b & mc & ms & H). apply H.
      - intros t loc (b & H). rewrite (cb_rep_bits _ _ _ _ _ _ H). unops. destruct H as (mc & ms & H).
        rewrite <- (xs_max _ _ _ _ _ _ _ (xr_shape _ _ _ _ _ _ _ _ H)). apply H.
      - intros t loc (b & mc & ms & H). exists 0. split; [apply (cb_root _ _ _ _ _ _ _ _ H)|].
        apply (tr_root _ _ _ _ _ _ _ (xr_trep _ _ _ _ _ _ _ _ H)).
      - intros t loc r Hk. discriminate Hk.
      - intros t loc p q x (b & mc & ms & H). eapply trep_loc_inj; apply H.
      - intros t loc s p (b & mc & ms & H) [x Hx].
        destruct (trep_parent _ _ _ _ _ _ _ (xr_trep _ _ _ _ _ _ _ _ H) s p x Hx) as [v Hv]. eauto.
      - intros t loc p x (b & H) Hx. rewrite (cb_rep_bits _ _ _ _ _ _ H). destruct H as (mc & ms & H).
        apply (cb_loc_bounds _ _ _ _ _ _ _ _ H p x Hx).
      - intros t loc p v s (b & mc & ms & H) Hp Hs. apply (cb_find_ok P HP _ _ _ _ _ _ _ H p v s Hp Hs).
      - intros t loc p v s y (b & mc & ms & H) Hp Hs _ _ Hy. pose proof (cb_add_okx P HP _ _ _ _ _ _ _ H p v s Hp Hs) as Ha.
        rewrite Hy in Ha. unops. rewrite Ha. apply wpx_ret. split; [reflexivity|]. split; [reflexivity|].
        split; [exists b, mc, ms; exact H|reflexivity].
      - intros t loc p v s (b & H) Hp Hs _ _ Hn Hlt. rewrite (cb_rep_bits _ _ _ _ _ _ H) in *. destruct H as (mc & ms & H).
        pose proof (cb_add_okx P HP _ _ _ _ _ _ _ H p v s Hp Hs) as Ha. rewrite Hn in Ha.
        specialize (Hlt eq_refl). unops. rewrite (proj2 (N.eqb_neq (cb_size t) (cb_max t))) in Ha.
        2:{ rewrite (xs_max _ _ _ _ _ _ _ (xr_shape _ _ _ _ _ _ _ _ H)). lia. }
        eapply wpx_mono; [exact Ha|]. intros [[r x] t'] (-> & _ & Hx & Hr). split; [reflexivity|]. split; [exact Hx|].
        split; [discriminate|]. split; [intros _; apply (cb_rep_bits _ _ _ _ _ _ Hr)|]. exists b. exact Hr.
      - intros t loc p v s (b & H) Hp Hs _ Hn Hfull. rewrite (cb_rep_bits _ _ _ _ _ _ H) in *. destruct H as (mc & ms & H).
        pose proof (cb_add_okx P HP _ _ _ _ _ _ _ H p v s Hp Hs) as Ha. rewrite Hn in Ha. unops.
        rewrite (proj2 (N.eqb_eq (cb_size t) (cb_max t))) in Ha; [exact Ha|].
        rewrite (xs_max _ _ _ _ _ _ _ (xr_shape _ _ _ _ _ _ _ _ H)). exact Hfull.
      - intros t loc (b & H) _. rewrite (cb_rep_bits _ _ _ _ _ _ H). destruct H as (mc & ms & H). unops. unfold cb_needs_to_expand.
        rewrite (xs_max _ _ _ _ _ _ _ (xr_shape _ _ _ _ _ _ _ _ H)). reflexivity.
      - intros t loc (b & H) _ _ (G1 & G2). rewrite (cb_rep_bits _ _ _ _ _ _ H) in *. unops.
        apply wpx_bind. eapply wpx_mono; [apply (cb_expand_ok P HP mf b sb t loc H); lia|].
        intros [nm t'] (loc' & Hr & Hd & _ & mp & (Hn1 & Hn2) & Hm1 & Hm2). apply wpx_ret. exists loc', mp. cbn [fst snd nm_size nm_get].
        split; [exists (b + 1); exact Hr|]. split; [apply (cb_rep_bits _ _ _ _ _ _ Hr)|]. auto.
    Qed.

    Lemma cf_dyn : dyn_ok (cf_ops P mf) mf sb false (cf_new P mf cb sb ccb) (N.max 16 cb) (saturates P) (cf_lrep P mf sb).
    Proof.
      assert (Hadd : forall t loc p v s, cf_lrep P mf sb t loc -> loc !! p = Some v -> s < 2 ^ sb ->
        (t_kind (cf_ops P mf) = Fkhash -> t_size (cf_ops P mf) t < max_size_of (2 ^ trie_bits (cf_ops P mf) t) mf \/ can_grow (cf_ops P mf) sb t) ->
        wpx (saturates P (trie_bits (cf_ops P mf) t) (cf_size t)) (cf_add_child P mf t v s) (fun '(r, x, t') => match loc !! (s :: p) with
          | Some y => r = false /\ x = y /\ cf_lrep P mf sb t' loc
          | None => r = true /\ x = cf_size t /\
              (cf_size t < max_size_of (2 ^ trie_bits (cf_ops P mf) t) mf -> trie_bits (cf_ops P mf) t' = trie_bits (cf_ops P mf) t) /\
              cf_lrep P mf sb t' (<[s :: p := x]> loc) end)).
      { intros t loc p v s (b & H) Hp Hs Hg. specialize (Hg eq_refl). unfold can_grow in Hg. rewrite (cf_rep_bits _ _ _ _ _ _ H) in *. unops.
        eapply wpx_mono; [apply (cf_add_ok P HP mf b sb t loc p v s H Hp Hs)|].
        - destruct H as (mc & ms & H). rewrite (ys_max _ _ _ _ _ _ _ (yr_shape _ _ _ _ _ _ _ _ H)).
          destruct Hg as [Hg|[G1 G2]]; [left; exact Hg|right; lia].
        - intros [[r x] t'] (b' & _ & Hbb & Hm). unfold cf_lrep. destruct (loc !! (s :: p)); destruct Hm as (H1 & H2 & H3); [eauto|].
          split; [exact H1|]. split; [exact H2|]. split; [|eauto]. intros Hlt. rewrite (cf_rep_bits _ _ _ _ _ _ H3). apply (proj1 Hbb).
          destruct H as (mc & ms & H). rewrite (ys_max _ _ _ _ _ _ _ (yr_shape _ _ _ _ _ _ _ _ H)). exact Hlt. }
      split.
      - exact Hmf.
      - destruct (cf_new_ok P HP mf cb sb ccb Hmf Hcb Hsb Hccb) as (t0 & E0 & Hf). destruct (cf_add_root_ok P _ _ _ _ Hf) as (t & E & Hr).
        exists t0, t, 0. split; [exact E0|]. split; [exact E|]. split; [apply (cf_root _ _ _ _ _ _ _ _ Hr)|].
        exists (N.max 16 cb), ∅, ∅. exact Hr.
      - intros t0 t E0 E1. destruct (cf_new_ok P HP mf cb sb ccb Hmf Hcb Hsb Hccb) as (t0' & E0' & Hf). rewrite E0 in E0'. injection E0' as <-.
        destruct (cf_add_root_ok P _ _ _ _ Hf) as (t' & E & Hr). unops. rewrite E1 in E. injection E as <-.
        apply (cf_rep_bits P mf (N.max 16 cb) sb t {[ [] := 0 ]}). exists ∅, ∅. exact Hr.
      - intros t loc (b & H). rewrite (cf_rep_bits _ _ _ _ _ _ H). apply (cf_rep_b P mf sb b t loc H).
      - intros t loc (b & mc & ms & H). apply H.
      - intros t loc (b & H). rewrite (cf_rep_bits _ _ _ _ _ _ H). unops. destruct H as (mc & ms & H).
        rewrite <- (ys_max _ _ _ _ _ _ _ (yr_shape _ _ _ _ _ _ _ _ H)). apply H.
      - intros t loc (b & mc & ms & H). exists 0. split; [apply (cf_root _ _ _ _ _ _ _ _ H)|].
        apply (tr_root _ _ _ _ _ _ _ (yr_trep _ _ _ _ _ _ _ _ H)).
      - intros t loc r _ (b & mc & ms & H) Hr. rewrite (tr_root _ _ _ _ _ _ _ (yr_trep _ _ _ _ _ _ _ _ H)) in Hr. congruence.
      - intros t loc p q x (b & mc & ms & H). eapply trep_loc_inj; apply H.
      - intros t loc s p (b & mc & ms & H) [x Hx].
        destruct (trep_parent _ _ _ _ _ _ _ (yr_trep _ _ _ _ _ _ _ _ H) s p x Hx) as [v Hv]. eauto.
      - intros t loc p x (b & H) Hx. rewrite (cf_rep_bits _ _ _ _ _ _ H). destruct H as (mc & ms & H).
        apply (cf_id_lt _ _ _ _ _ _ _ _ H p x Hx).
      - intros t loc p v s (b & mc & ms & H) Hp Hs. apply (cf_find_ok P HP _ _ _ _ _ _ _ H p v s Hp Hs).
      - intros t loc p v s y H Hp Hs Hf Hg Hy. pose proof (Hadd t loc p v s H Hp Hs Hg) as Ha. rewrite Hy in Ha. unops.
        eapply wpx_limit; [|eapply wpx_mono; [exact Ha|]]; [auto|].
        intros [[r x] t'] (H1 & H2 & H3). split; [exact H1|]. split; [exact H2|]. split; [exact H3|discriminate].
      - intros t loc p v s H Hp Hs Hf Hg Hn _. pose proof (Hadd t loc p v s H Hp Hs Hg) as Ha. rewrite Hn in Ha. unops.
        eapply wpx_mono; [exact Ha|]. intros [[r x] t'] (H1 & -> & H3). split; [exact H1|]. split; [|split; [reflexivity|exact H3]].
        intros q Hq. destruct H as (b & mc & ms & H). pose proof (yr_ids _ _ _ _ _ _ _ _ H q _ Hq). lia.
      - intros t loc p v s _ _ _ Hk. discriminate Hk.
      - intros t loc _ Hk. discriminate Hk.
      - intros t loc _ Hk. discriminate Hk.
    Qed.
  End compact.
End inst.

Lemma trep_gp (M sb root : N) home c loc i : trep M sb root home c (fun i => i) loc -> i < M ->
  match c i with
  | Full k => exists p, k mod 2 ^ sb < 2 ^ sb /\ loc !! p = Some (k / 2 ^ sb) /\ loc !! (k mod 2 ^ sb :: p) = Some i
  | _ => forall s p, loc !! (s :: p) <> Some i
  end.
Proof.
  intros H Hi. destruct (c i) as [| |k] eqn:E.
  - intros s p Hp. destruct (tr_cell _ _ _ _ _ _ _ H s p i Hp) as (_ & v & j & _ & Hj & Hc & <-). congruence.
  - intros s p Hp. destruct (tr_cell _ _ _ _ _ _ _ H s p i Hp) as (_ & v & j & _ & Hj & Hc & <-). congruence.
  - destruct (tr_path _ _ _ _ _ _ _ H i k Hi E) as (p & H1 & H2). exists p. split; [|auto].
    apply N.mod_lt. pose proof (pow2_pos sb). lia.
Qed.
Lemma pb_gp_spec mf sb : gp_spec (pb_ops mf) sb (pb_lrep mf sb) pb_get_parent_and_symb.
Proof.
  intros t loc i (b & H) Hi. rewrite (pb_rep_bits _ _ _ _ _ H) in Hi. rewrite (pb_gp_ok _ _ _ _ _ H i Hi).
  pose proof (trep_gp _ _ _ _ _ _ i (PlainBonsaiP.pr_trep _ _ _ _ _ H) Hi) as Hc.
  destruct (pb_cell (pb_table t) i) as [| |k]; [right; auto|right; auto|left]. destruct Hc as (p & H1 & H2 & H3). eauto 10.
Qed.
Lemma cb_gp_spec P (HP : dp_ok P) mf sb : gp_spec (cb_ops P mf) sb (cb_lrep P mf sb) (cb_get_parent_and_symb P).
Proof.
  intros t loc i (b & H) Hi. rewrite (cb_rep_bits _ _ _ _ _ _ H) in Hi. destruct H as (mc & ms & H).
  rewrite (cb_gp_ok P HP _ _ _ _ _ _ _ H i Hi).
  pose proof (trep_gp _ _ _ _ _ _ i (xr_trep _ _ _ _ _ _ _ _ H) Hi) as Hc.
  destruct (cb_cell P b sb mc ms (dt_table (cb_dt t)) i) as [| |k]; [right; auto|right; auto|left]. destruct Hc as (p & H1 & H2 & H3). eauto 10.
Qed.
End hash.
