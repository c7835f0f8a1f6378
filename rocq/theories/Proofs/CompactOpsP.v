(** The compact tries meet the contracts of StoreP. *)
From Verif.Model Require Export CompactAliases.
From Verif.Proofs Require Export CompactBonsaiP CompactFkP PlainOpsP.
Local Open Scope N_scope.

Section hash.
Context {HTH : trie_hashers} {HO : th_ok HTH}.

Lemma dp_std_ok : dp_ok dp_std.
Proof. split; cbn; lia. Qed.

Section compact_ops.
  Context (P : dsp_params).
  Hypothesis HP : dp_ok P.
  Context (mf sb : N).
  Hypothesis Hmf : 1 <= mf <= 99.

  Lemma cb_rep_b b t loc : cb_rep P mf b sb t loc -> 16 <= b <= 56 /\ b + sb < 64.
  Proof.
    intros (mc & ms & H). split; [apply (cb_b P mf b sb t mc ms loc H)|apply (cb_bsb P mf b sb t mc ms loc H)].
  Qed.
  Lemma cf_rep_b b t loc : cf_rep P mf b sb t loc -> 16 <= b <= 56 /\ b + sb < 64.
  Proof.
    intros (mc & ms & H). pose proof (yr_shape _ _ _ _ _ _ _ _ H) as Hs.
    split; [apply (cf_b P mf b sb t mc ms Hs)|apply (cf_bsb P mf b sb t mc ms Hs)].
  Qed.

  (** A table with at least 2^B0 slots and fewer than T nodes; its displacement table can only fill up if it is
      allowed a smaller load than the trie. *)
  Definition sat_lim (B0 T : N) : lims := mkLim (saturates P B0 T /\ dp_cmf P < mf) T B0.
  Lemma sat_mono B0 T b n : 16 <= B0 <= b -> b <= 56 -> n <= T -> n <= max_size_of (2 ^ b) mf ->
    saturates P b n -> saturates P B0 T /\ dp_cmf P < mf.
  Proof.
    intros Hb H56 Hn Hmax HL. unfold saturates in *. pose proof (do_cmf _ HP) as Hc. split.
    2:{ destruct (N.lt_ge_cases (dp_cmf P) mf) as [|Hge]; [assumption|exfalso].
        pose proof (max_size_factor b mf (dp_cmf P) ltac:(lia) ltac:(lia) ltac:(lia)) as Hf. clear -Hf Hmax HL. lia. }
   
    destruct (N.eq_dec B0 b) as [->|Hne]; [clear -HL Hn; lia|].
    pose proof (max_size_strict B0 b (dp_cmf P) ltac:(lia) ltac:(lia) ltac:(lia) Hc) as Hlt. clear -HL Hn Hlt. lia.
  Qed.
  Context (B0 T : N).
  Hypothesis HB0 : 16 <= B0.
  Hypothesis HT : T <= node_limit mf sb.

  Lemma cb_ok :
    bonsai_ok (cb_ops P mf) (sat_lim B0 T) mf sb (fun b t loc => B0 <= b /\ cb_rep P mf b sb t loc)
      (fun b t => B0 <= b /\ cb_fresh P mf b sb t).
  Proof.
    split; cbn [tT t_kind t_default t_new t_size t_capa t_get_root t_add_root t_find_child
      t_add_child t_needs_to_expand t_expand cb_ops].
    - reflexivity.
    - exact HT.
    - reflexivity.
    - intros cb Hcb Hb0. destruct (lim_sb mf sb Hmf (N.max 16 cb)); [lia|assumption|].
      destruct (cb_new_ok P HP mf cb sb 0) as (t & E & Hf); [assumption || lia..|].
      exists t. split; [exact E|]. split; [apply N.eq_le_incl, Hb0|exact Hf].
    - intros b t (_ & Hsh & Hz & _). split; [exact Hz|]. apply (ds_capa _ _ _ _ (dr_shape _ _ _ _ _ _ (xs_rep _ _ _ _ _ _ _ Hsh))).
    - intros b t (Hb0 & Hf). destruct (cb_add_root_ok P HP mf b sb t Hf) as (t' & E & Hr). exists t', 0.
      split; [exact E|]. split; [split; [exact Hb0|exists ∅, ∅; exact Hr]|].
      rewrite (xr_size _ _ _ _ _ _ _ _ Hr). rewrite map_size_singleton.
      pose proof (cb_b P mf b sb t' _ _ _ Hr).
      destruct (ms_ok2_facts b mf ltac:(lia) Hmf) as (_ & _ & H3). specialize (H3 ltac:(lia)). lia.
    - intros b t loc (Hb0 & H). destruct (cb_rep_b b t loc H). unfold bits_limit. lia.
    - intros b t loc (Hb0 & mc & ms & H). apply (ds_capa _ _ _ _ (dr_shape _ _ _ _ _ _ (xs_rep _ _ _ _ _ _ _ (xr_shape _ _ _ _ _ _ _ _ H)))).
    - intros b t loc (Hb0 & mc & ms & H). apply (xr_size _ _ _ _ _ _ _ _ H).
    - intros b t loc (Hb0 & mc & ms & H). exists 0. split; [apply (cb_root P mf b sb t mc ms loc H)|].
      apply (tr_root _ _ _ _ _ _ _ (xr_trep _ _ _ _ _ _ _ _ H)).
    - intros b t loc p q x (Hb0 & mc & ms & H). eapply trep_loc_inj; apply H.
    - intros b t loc s p (Hb0 & mc & ms & H) [x Hx].
      destruct (trep_parent _ _ _ _ _ _ _ (xr_trep _ _ _ _ _ _ _ _ H) s p x Hx) as [v Hv]. eauto.
    - intros b t loc p x (Hb0 & mc & ms & H) Hp. apply (cb_loc_bounds P mf b sb t mc ms loc H p x Hp).
    - intros b t loc p v s (Hb0 & mc & ms & H) Hp Hs. apply (cb_find_ok P HP mf b sb t mc ms loc H p v s Hp Hs).
    - intros b t loc p v s (Hb0 & mc & ms & H) Hp Hs Hroom Hlim.
      pose proof (cb_add_okx P HP mf b sb t mc ms loc H p v s Hp Hs) as Hadd.
      destruct (loc !! (s :: p)) as [y|] eqn:Ey.
      + rewrite Hadd. apply wpx_ret. split; [reflexivity|]. split; [reflexivity|]. split; [exact Hb0|]. exists mc, ms. exact H.
      + rewrite (proj2 (N.eqb_neq (cb_size t) (cb_max t))) in Hadd.
        2:{ rewrite (xs_max _ _ _ _ _ _ _ (xr_shape _ _ _ _ _ _ _ _ H)). lia. }
        cbn [sat_lim l_max l_fail] in *.
        eapply wpx_limit; [|eapply wpx_mono; [exact Hadd|]].
        { apply sat_mono; [lia| |rewrite (xr_size _ _ _ _ _ _ _ _ H); lia|lia].
          pose proof (cb_b P mf b sb t mc ms loc H). lia. }
        intros [[r x] t'] (-> & _ & Hx & Hr). auto.
    - intros b t loc p v s y (Hb0 & mc & ms & H) Hp Hs Ey.
      pose proof (cb_add_okx P HP mf b sb t mc ms loc H p v s Hp Hs) as Hadd. rewrite Ey in Hadd. exact Hadd.
    - intros b t loc (Hb0 & mc & ms & H). unfold cb_needs_to_expand.
      rewrite (xs_max _ _ _ _ _ _ _ (xr_shape _ _ _ _ _ _ _ _ H)). reflexivity.
    - intros b t loc (Hb0 & H) Hb Hlim. destruct (cb_rep_b b t loc H) as [Hb16 _].
      destruct (lim_sb mf sb Hmf (b + 1)) as [H1 H2]; [lia|lia|].
      assert (He := cb_expand_ok P HP mf b sb t loc H ltac:(lia) ltac:(lia)).
      apply wpx_bind. cbn [sat_lim l_max l_fail] in *.
      assert (Hsz : cb_size t = N.of_nat (size loc)).
      { destruct H as (mc & ms & H). apply (xr_size _ _ _ _ _ _ _ _ H). }
      assert (Hle : cb_size t <= max_size_of (2 ^ b) mf).
      { destruct H as (mc & ms & H). rewrite <- (xs_max _ _ _ _ _ _ _ (xr_shape _ _ _ _ _ _ _ _ H)). apply (xr_le _ _ _ _ _ _ _ _ H). }
      eapply wpx_limit; [|eapply wpx_mono; [exact He|]].
      { apply sat_mono; [lia|lia|rewrite Hsz; lia|]. etransitivity; [exact Hle|apply ms_ok2_facts; lia]. }
      intros [nm t'] (loc' & Hr & Hd & Hs & mp & (Hn1 & Hn2) & Hm1 & Hm2).
      apply wpx_ret. exists loc', mp. cbn [fst snd nm_size nm_get].
      split; [split; [lia|exact Hr]|]. split; [exact Hd|]. split; [exact Hs|]. auto.
  Qed.

  Lemma cf_ok :
    fkhash_ok (cf_ops P mf) (sat_lim B0 T) mf sb false (fun b t loc => B0 <= b /\ cf_rep P mf b sb t loc)
      (fun b t => B0 <= b /\ cf_fresh P mf b sb t).
  Proof.
    split; cbn [tT t_kind t_default t_new t_size t_capa t_get_root t_add_root t_find_child
      t_add_child t_needs_to_expand t_expand cf_ops].
    - reflexivity.
    - exact HT.
    - reflexivity.
    - intros cb Hcb Hb0. destruct (lim_sb mf sb Hmf (N.max 16 cb)); [lia|assumption|].
      destruct (cf_new_ok P HP mf cb sb 0) as (t & E & Hf); [assumption || lia..|].
      exists t. split; [exact E|]. split; [apply N.eq_le_incl, Hb0|exact Hf].
    - intros b t (_ & Hsh & Hz & _). split; [exact Hz|]. apply (ds_capa _ _ _ _ (dr_shape _ _ _ _ _ _ (ys_rep _ _ _ _ _ _ _ Hsh))).
    - intros b t (Hb0 & Hf). destruct (cf_add_root_ok P mf b sb t Hf) as (t' & E & Hr). exists t'. split; [exact E|].
      split; [exact Hb0|]. exists ∅, ∅. exact Hr.
    - intros b t loc (Hb0 & H). destruct (cf_rep_b b t loc H). unfold bits_limit. lia.
    - intros b t loc (Hb0 & mc & ms & H). apply (ds_capa _ _ _ _ (dr_shape _ _ _ _ _ _ (ys_rep _ _ _ _ _ _ _ (yr_shape _ _ _ _ _ _ _ _ H)))).
    - intros b t loc (Hb0 & mc & ms & H). apply (yr_size _ _ _ _ _ _ _ _ H).
    - intros b t loc (Hb0 & mc & ms & H). rewrite <- (ys_max _ _ _ _ _ _ _ (yr_shape _ _ _ _ _ _ _ _ H)). apply (yr_le _ _ _ _ _ _ _ _ H).
    - intros b t loc (Hb0 & mc & ms & H). exists 0. split; [apply (cf_root P mf b sb t mc ms loc H)|].
      apply (tr_root _ _ _ _ _ _ _ (yr_trep _ _ _ _ _ _ _ _ H)).
    - intros b t loc p q x (Hb0 & mc & ms & H). eapply trep_loc_inj; apply H.
    - intros b t loc s p (Hb0 & mc & ms & H) [x Hx].
      destruct (trep_parent _ _ _ _ _ _ _ (yr_trep _ _ _ _ _ _ _ _ H) s p x Hx) as [v Hv]. eauto.
    - intros b t loc p x (Hb0 & mc & ms & H) Hp. rewrite <- (yr_size _ _ _ _ _ _ _ _ H). apply (yr_ids _ _ _ _ _ _ _ _ H p x Hp).
    - intros b t loc p v s (Hb0 & mc & ms & H) Hp Hs. apply (cf_find_ok P HP mf b sb t mc ms loc H p v s Hp Hs).
    - intros b t loc p v s (Hb0 & H) Hp Hs _ Hroom. cbn [sat_lim l_max l_fail] in *. destruct (cf_rep_b b t loc H) as [Hb Hsb].
      assert (cf_size t = N.of_nat (size loc) /\ cf_max t = max_size_of (2 ^ b) mf) as [Hsz Hmax].
      { destruct H as (mc & ms & H). split; [apply (yr_size _ _ _ _ _ _ _ _ H)|apply (ys_max _ _ _ _ _ _ _ (yr_shape _ _ _ _ _ _ _ _ H))]. }
      assert (Hle : cf_size t <= cf_max t) by (destruct H as (mc & ms & H); apply (yr_le _ _ _ _ _ _ _ _ H)).
      eapply wpx_limit; [|eapply wpx_mono].
      + apply (sat_mono B0 T b (cf_size t)); [lia|lia|rewrite Hsz; lia|rewrite <- Hmax; exact Hle].
      + apply (cf_add_ok P HP mf b sb t loc p v s H Hp Hs).
        destruct (N.lt_ge_cases (cf_size t) (cf_max t)) as [|Hge]; [left; assumption|right].
        rewrite Hmax, Hsz in Hge.
        assert (b + 1 <= bits_limit sb) as Hl.
        { apply (node_limit_room mf sb Hmf b (N.of_nat (size loc))); [unfold bits_limit; lia|exact Hge|lia]. }
        unfold bits_limit in Hl. lia.
      + intros [[r x] t'] (b' & Hb' & Hlt & Hm). exists b'. split.
        { destruct (N.lt_ge_cases (cf_size t) (cf_max t)) as [Hl|Hl]; [left; apply (proj1 Hlt), Hl|]. rewrite Hmax, Hsz in Hl. lia. }
        rewrite <- Hsz.
        destruct (loc !! (s :: p)); destruct Hm as (H1 & H2 & H3); (split; [exact H1|]; split; [exact H2|]; split; [lia|exact H3]).
    - intros b t loc p v s y (Hb0 & H) Hp Hs _ Hroom Ey. cbn [sat_lim l_max l_fail] in *. destruct (cf_rep_b b t loc H) as [Hb Hsb].
      assert (cf_size t = N.of_nat (size loc) /\ cf_max t = max_size_of (2 ^ b) mf) as [Hsz Hmax].
      { destruct H as (mc & ms & H). split; [apply (yr_size _ _ _ _ _ _ _ _ H)|apply (ys_max _ _ _ _ _ _ _ (yr_shape _ _ _ _ _ _ _ _ H))]. }
      assert (Hle : cf_size t <= cf_max t) by (destruct H as (mc & ms & H); apply (yr_le _ _ _ _ _ _ _ _ H)).
      destruct (N.lt_ge_cases (cf_size t) (cf_max t)) as [Hlt|Hge].
      { destruct H as (mc & ms & H). pose proof (cf_add_room P HP mf b sb t mc ms loc H p v s Hp Hs Hlt) as Ha. rewrite Ey in Ha.
        rewrite Ha. apply wpx_ret. auto. }
      eapply wpx_limit; [|eapply wpx_mono].
      + apply (sat_mono B0 T b (cf_size t)); [lia|lia|rewrite Hsz; lia|rewrite <- Hmax; exact Hle].
      + apply (cf_add_ok P HP mf b sb t loc p v s H Hp Hs). right. rewrite Hmax, Hsz in Hge.
        assert (b + 1 <= bits_limit sb) as Hl.
        { apply (node_limit_room mf sb Hmf b (N.of_nat (size loc))); [unfold bits_limit; lia|exact Hge|lia]. }
        unfold bits_limit in Hl. lia.
      + intros [[r x] t'] (b' & Hb' & [_ Hbb] & Hm). rewrite Ey in Hm. destruct Hm as (-> & -> & Hr). rewrite (Hbb Hge) in Hr.
        rewrite Hmax, Hsz in Hge. split; [reflexivity|]. split; [reflexivity|]. right. split; [split; [lia|exact Hr]|exact Hge].
  Qed.
End compact_ops.
End hash.
