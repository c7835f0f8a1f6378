(** The plain tries meet the contracts of StoreP. *)
From Verif.Model Require Export PlainAliases.
From Verif.Proofs Require Export PlainBonsaiP PlainFkP PairP.
Local Open Scope N_scope.

Section hash.
Context {HF : plain_hasher}.

Section plain_ops.
  Context (mf sb : N).
  Hypothesis Hmf : 1 <= mf <= 99.

  Lemma lim_sb b : 16 <= b -> b <= bits_limit sb -> b <= 56 /\ b + sb < 64.
  Proof. unfold bits_limit. lia. Qed.

  Lemma pb_ok L T B0 : T <= node_limit mf sb -> 1 <= sb ->
    bonsai_ok (pb_ops mf) (mkLim L T B0) mf sb (fun b t loc => pb_rep mf b sb t loc) (fun b t => pb_fresh mf b sb t).
  Proof.
    intros HT Hsb1. split; cbn [tT t_kind t_default t_new t_size t_capa t_get_root t_add_root t_find_child
      t_add_child t_needs_to_expand t_expand pb_ops].
    - reflexivity.
    - exact HT.
    - reflexivity.
    - intros cb Hcb _. destruct (lim_sb (N.max 16 cb)); [lia|assumption|].
      apply pb_new_ok; assumption || lia.
    - intros b t (Hsh & Hz & _). split; [exact Hz|apply Hsh].
    - intros b t Hf. destruct (pb_add_root_ok mf b sb t Hf) as (t' & E & Hr). exists t', 1.
      split; [exact E|]. split; [exact Hr|]. rewrite <- (ps_max _ _ _ _ (pr_shape _ _ _ _ _ Hr)).
      rewrite (pr_size _ _ _ _ _ Hr). rewrite map_size_singleton. rewrite (ps_max _ _ _ _ (pr_shape _ _ _ _ _ Hr)).
      pose proof (ps_b _ _ _ _ (pr_shape _ _ _ _ _ Hr)).
      destruct (ms_ok2_facts b mf ltac:(lia) Hmf) as (_ & _ & H3). specialize (H3 ltac:(lia)). lia.
    - intros b t loc H. pose proof (pr_shape _ _ _ _ _ H) as Hsh.
      pose proof (ps_b _ _ _ _ Hsh). pose proof (ps_sb _ _ _ _ Hsh). unfold bits_limit. lia.
    - intros b t loc H. apply (pr_shape _ _ _ _ _ H).
    - intros b t loc H. apply (pr_size _ _ _ _ _ H).
    - intros b t loc H. exists 1. split; [apply (pb_root mf b sb t loc H)|].
      apply (tr_root _ _ _ _ _ _ _ (pr_trep _ _ _ _ _ H)).
    - intros b t loc p q x H. eapply trep_loc_inj; apply H.
    - intros b t loc s p H [x Hx]. destruct (trep_parent _ _ _ _ _ _ _ (pr_trep _ _ _ _ _ H) s p x Hx) as [v Hv]. eauto.
    - intros b t loc p x H Hp. apply (pb_loc_bounds mf b sb t loc H p x Hp).
    - intros b t loc p v s H Hp Hs. apply (pb_find_ok mf b sb t loc H p v s Hp Hs).
    - intros b t loc p v s H Hp Hs Hroom _. pose proof (pb_add_ok mf b sb t loc H p v s Hp Hs) as Hadd.
      destruct (loc !! (s :: p)) as [y|] eqn:Ey.
      + rewrite Hadd. apply wpx_ret. auto.
      + rewrite (proj2 (N.eqb_neq (pb_size t) (pb_max t))) in Hadd.
        2:{ rewrite (ps_max _ _ _ _ (pr_shape _ _ _ _ _ H)). lia. }
        destruct Hadd as (x & t' & -> & Hx & Hr). apply wpx_ret. auto.
    - intros b t loc p v s y H Hp Hs Ey. pose proof (pb_add_ok mf b sb t loc H p v s Hp Hs) as Hadd.
      rewrite Ey in Hadd. exact Hadd.
    - intros b t loc H. unfold pb_needs_to_expand. rewrite (ps_max _ _ _ _ (pr_shape _ _ _ _ _ H)). reflexivity.
    - intros b t loc H Hb _. pose proof (ps_b _ _ _ _ (pr_shape _ _ _ _ _ H)) as Hb16.
      destruct (lim_sb (b + 1)) as [H1 H2]; [lia|lia|].
      destruct (pb_expand_ok mf b sb t loc H) as (nm & t' & loc' & E & Hr & Hd & Hs & mp & (Hn1 & Hn2) & Hm1 & Hm2);
        try lia.
      rewrite E, bind_ret. apply wpx_ret. exists loc', mp. cbn [fst snd nm_size nm_get].
      split; [exact Hr|]. split; [exact Hd|].
      split; [rewrite <- (ps_max _ _ _ _ (pr_shape _ _ _ _ _ Hr)); exact Hs|]. auto.
  Qed.

  Lemma node_limit_room b sz : 16 <= b <= bits_limit sb -> max_size_of (2 ^ b) mf <= sz ->
    sz + 1 < node_limit mf sb -> b + 1 <= bits_limit sb.
  Proof.
    intros Hb Hge Hr. destruct (N.eq_dec b (bits_limit sb)) as [E|]; [|lia].
    unfold node_limit in Hr. rewrite E in Hge. lia.
  Qed.

  Lemma pf_ok L T B0 dbg : T <= node_limit mf sb ->
    fkhash_ok (pf_ops dbg mf) (mkLim L T B0) mf sb dbg (fun b t loc => pf_rep dbg mf b sb t loc) (fun b t => pf_fresh mf b sb t).
  Proof.
    intros HT. split; cbn [tT t_kind t_default t_new t_size t_capa t_get_root t_add_root t_find_child
      t_add_child t_needs_to_expand t_expand pf_ops].
    - reflexivity.
    - exact HT.
    - reflexivity.
    - intros cb Hcb _. destruct (lim_sb (N.max 16 cb)); [lia|assumption|].
      apply pf_new_ok; assumption || lia.
    - intros b t (Hsh & Hz & _). split; [exact Hz|apply Hsh].
    - intros b t Hf. apply (pf_add_root_ok dbg mf b sb t Hf).
    - intros b t loc H. pose proof (fr_shape _ _ _ _ _ _ H) as Hsh.
      pose proof (fs_b _ _ _ _ Hsh). pose proof (fs_sb _ _ _ _ Hsh). unfold bits_limit. lia.
    - intros b t loc H. apply (fr_shape _ _ _ _ _ _ H).
    - intros b t loc H. apply (fr_size _ _ _ _ _ _ H).
    - intros b t loc H. rewrite <- (fs_max _ _ _ _ (fr_shape _ _ _ _ _ _ H)). apply (fr_le _ _ _ _ _ _ H).
    - intros b t loc H. exists 0. split; [apply (pf_root dbg mf b sb t loc H)|].
      apply (tr_root _ _ _ _ _ _ _ (fr_trep _ _ _ _ _ _ H)).
    - intros b t loc p q x H. eapply trep_loc_inj; apply H.
    - intros b t loc s p H [x Hx]. destruct (trep_parent _ _ _ _ _ _ _ (fr_trep _ _ _ _ _ _ H) s p x Hx) as [v Hv]. eauto.
    - intros b t loc p x H Hp. rewrite <- (fr_size _ _ _ _ _ _ H). apply (fr_ids _ _ _ _ _ _ H p x Hp).
    - intros b t loc p v s H Hp Hs. apply (pf_find_ok dbg mf b sb t loc H p v s Hp Hs).
    - intros b t loc p v s H Hp Hs Hbad Hroom.
      pose proof (fs_b _ _ _ _ (fr_shape _ _ _ _ _ _ H)) as Hb. pose proof (fs_sb _ _ _ _ (fr_shape _ _ _ _ _ _ H)) as Hsb.
      destruct (pf_add_ok dbg mf b sb t loc p v s H Hp Hs Hbad) as (r & x & t' & b' & E & Hb' & Hlt & Hm).
      { destruct (N.lt_ge_cases (pf_size t) (pf_max t)) as [|Hge]; [left; assumption|right].
        rewrite (fs_max _ _ _ _ (fr_shape _ _ _ _ _ _ H)), (fr_size _ _ _ _ _ _ H) in Hge.
        assert (b + 1 <= bits_limit sb) as Hl.
        { apply (node_limit_room b (N.of_nat (size loc))); [unfold bits_limit; lia|exact Hge|cbn [l_max] in Hroom; lia]. }
        unfold bits_limit in Hl. lia. }
      rewrite E. apply wpx_ret. exists b'. split.
      { destruct (N.lt_ge_cases (pf_size t) (pf_max t)) as [Hl|Hl]; [left; apply (proj1 Hlt), Hl|].
        rewrite (fs_max _ _ _ _ (fr_shape _ _ _ _ _ _ H)), (fr_size _ _ _ _ _ _ H) in Hl. lia. }
      rewrite <- (fr_size _ _ _ _ _ _ H). exact Hm.
    - intros b t loc p v s y H Hp Hs Hbad Hroom Ey.
      pose proof (fs_b _ _ _ _ (fr_shape _ _ _ _ _ _ H)) as Hb. pose proof (fs_sb _ _ _ _ (fr_shape _ _ _ _ _ _ H)) as Hsb.
      destruct (N.lt_ge_cases (pf_size t) (pf_max t)) as [Hlt|Hge].
      { pose proof (pf_add_room dbg mf b sb t loc H p v s Hp Hs Hlt Hbad) as Ha. rewrite Ey in Ha. rewrite Ha.
        apply wpx_ret. auto. }
      assert (Hge' : max_size_of (2 ^ b) mf <= N.of_nat (size loc)).
      { rewrite (fs_max _ _ _ _ (fr_shape _ _ _ _ _ _ H)), (fr_size _ _ _ _ _ _ H) in Hge. exact Hge. }
      destruct (pf_add_ok dbg mf b sb t loc p v s H Hp Hs Hbad) as (r & x & t' & b' & E & Hb' & [_ Hbb] & Hm).
      { right. assert (b + 1 <= bits_limit sb) as Hl.
        { apply (node_limit_room b (N.of_nat (size loc))); [unfold bits_limit; lia|exact Hge'|cbn [l_max] in Hroom; lia]. }
        unfold bits_limit in Hl. lia. }
      rewrite E. apply wpx_ret. rewrite Ey in Hm. destruct Hm as (-> & -> & Hr). rewrite (Hbb Hge) in Hr. auto.
  Qed.
End plain_ops.
End hash.
