(** The offset of the value in the block of the first key, for every instantiation (C47). *)
From Verif.Proofs Require Import NulP AlignP InstP.
Local Open Scope N_scope.

Definition i_offset (vs : nat) (i : inst) (k : list N) : N :=
  match i_l i with
  | None => N.of_nat (length k)
  | Some _ => let n := N.of_nat (length k) - 1 in vbytes (n + N.of_nat vs) + n
  end.
Definition pack_off {dbg vs i e B0 T} (K : ipack dbg vs i e B0 T) : Prop :=
  forall b t n r k v p, ip_srep _ _ _ _ _ _ K b t n {[ [] := r ]} {[ [] := (k, v) ]} ->
  ip_npt _ _ _ _ _ _ K n r p -> snd p = i_offset vs i k.

Lemma only_link (r : N) (k v : list N) m : link {[ [] := r ]} {[ [] := (k, v) ]} m -> m !! r = Some (k, v) /\ forall y, y <> r -> m !! y = None.
Proof.
  intros Hlk. split; [rewrite (lk_m _ _ _ Hlk [] r (lookup_singleton _ _)); apply lookup_singleton|].
  intros y Hy. destruct (m !! y) as [e0|] eqn:E; [|reflexivity]. destruct (lk_q _ _ _ Hlk y e0 E) as [q Hq].
  apply lookup_singleton_Some in Hq as [_ ->]. congruence.
Qed.
Lemma only_first cs vs c n (r : N) (k v : list N) m : cfn_rep cs vs c n m -> c = N.of_nat (size ({[ [] := r ]} : locmap)) ->
  m !! r = Some (k, v) -> r = 0.
Proof. intros R -> E. destruct (fr_good _ _ _ _ _ R r k v E) as (H & _). rewrite map_size_singleton in H. lia. Qed.

Lemma inst_pack_off dbg vs i e B0 T : valid_inst i -> (1 <= vs)%nat -> 16 <= B0 -> T <= node_limit (i_mf i) (8 + e) ->
  exists K : ipack dbg vs i e B0 T, pack_off K.
Proof.
  intros Hv Hvs HB HT. pose proof (proj1 Hv) as Hmf. pose proof (valid_dp i) as HP.
  destruct i as [[H mf|H P mf|H mf|H P mf] [c|]]; cbn [i_mf i_par i_t] in *; try pose proof (valid_th H (proj2 (proj2 Hv))) as HTO; try specialize (HP P Hv eq_refl).
  - refine (ex_intro _ (mkIPack dbg vs (mkInst (T_plain_bonsai H mf) (Some c)) e B0 T _ _ _ (bonsai_store_ok (pb_ops mf) (cbn_ops (cs_val c) vs) _ mf (8 + e) _ _ _ _ _ (pb_ok mf (8 + e) Hmf _ T B0 HT (sb_pos e))
      (cbn_ok (cs_val c) vs (chunk_width c)))) _).
    intros b t n r k v p (_ & _ & m & R & Hlk) Hp. destruct (only_link r k v m Hlk) as [E Hno]. apply (cbn_pt_off _ _ (chunk_width c) _ _ _ _ _ _ _ R E Hno Hp).
  - refine (ex_intro _ (mkIPack dbg vs (mkInst (T_plain_bonsai H mf) None) e B0 T _ _ _ (bonsai_store_ok (pb_ops mf) (pbn_ops vs) _ mf (8 + e) _ _ _ _ _ (pb_ok mf (8 + e) Hmf _ T B0 HT (sb_pos e)) (pbn_ok vs))) _).
    intros b t n r k v p (_ & _ & m & (_ & R & _) & Hlk) Hp. destruct (only_link r k v m Hlk) as [E _]. apply (ppt_off _ _ _ _ _ _ _ _ _ R E Hp).
  - refine (ex_intro _ (mkIPack dbg vs (mkInst (T_compact_bonsai H P mf) (Some c)) e B0 T _ _ _ (bonsai_store_ok (cb_ops P mf) (cbn_ops (cs_val c) vs) _ mf (8 + e) _ _ _ _ _ (cb_ok P HP mf (8 + e) Hmf B0 T HB HT)
      (cbn_ok (cs_val c) vs (chunk_width c)))) _).
    intros b t n r k v p (_ & _ & m & R & Hlk) Hp. destruct (only_link r k v m Hlk) as [E Hno]. apply (cbn_pt_off _ _ (chunk_width c) _ _ _ _ _ _ _ R E Hno Hp).
  - refine (ex_intro _ (mkIPack dbg vs (mkInst (T_compact_bonsai H P mf) None) e B0 T _ _ _ (bonsai_store_ok (cb_ops P mf) (pbn_ops vs) _ mf (8 + e) _ _ _ _ _ (cb_ok P HP mf (8 + e) Hmf B0 T HB HT) (pbn_ok vs))) _).
    intros b t n r k v p (_ & _ & m & (_ & R & _) & Hlk) Hp. destruct (only_link r k v m Hlk) as [E _]. apply (ppt_off _ _ _ _ _ _ _ _ _ R E Hp).
  - refine (ex_intro _ (mkIPack dbg vs (mkInst (T_plain_fkhash H mf) (Some c)) e B0 T _ _ _ (fkhash_store_ok (pf_ops dbg mf) (cfn_ops (cs_val c) vs) _ mf (8 + e) dbg _ _ _ _ _ Hmf (pf_ok mf (8 + e) Hmf _ T B0 dbg HT)
      (cfn_ok (cs_val c) vs (chunk_width c) Hvs))) _).
    intros b t n r k v p (_ & m & R & Hlk) Hp. destruct (only_link r k v m Hlk) as [E _]. apply (cfn_pt_off _ _ (chunk_width c) Hvs _ _ _ _ _ _ _ R E (only_first _ _ _ _ r k v m R eq_refl E) Hp).
  - refine (ex_intro _ (mkIPack dbg vs (mkInst (T_plain_fkhash H mf) None) e B0 T _ _ _ (fkhash_store_ok (pf_ops dbg mf) (pfn_ops vs) _ mf (8 + e) dbg _ _ _ _ _ Hmf (pf_ok mf (8 + e) Hmf _ T B0 dbg HT) (pfn_ok vs))) _).
    intros b t n r k v p (_ & m & (_ & R) & Hlk) Hp. destruct (only_link r k v m Hlk) as [E _]. apply (ppt_off _ _ _ _ _ _ _ _ _ R E Hp).
  - refine (ex_intro _ (mkIPack dbg vs (mkInst (T_compact_fkhash H P mf) (Some c)) e B0 T _ _ _ (fkhash_store_ok (cf_ops P mf) (cfn_ops (cs_val c) vs) _ mf (8 + e) false _ _ _ _ _ Hmf (cf_ok P HP mf (8 + e) Hmf B0 T HB HT)
      (cfn_ok (cs_val c) vs (chunk_width c) Hvs))) _).
    intros b t n r k v p (_ & m & R & Hlk) Hp. destruct (only_link r k v m Hlk) as [E _]. apply (cfn_pt_off _ _ (chunk_width c) Hvs _ _ _ _ _ _ _ R E (only_first _ _ _ _ r k v m R eq_refl E) Hp).
  - refine (ex_intro _ (mkIPack dbg vs (mkInst (T_compact_fkhash H P mf) None) e B0 T _ _ _ (fkhash_store_ok (cf_ops P mf) (pfn_ops vs) _ mf (8 + e) false _ _ _ _ _ Hmf (cf_ok P HP mf (8 + e) Hmf B0 T HB HT) (pfn_ok vs))) _).
    intros b t n r k v p (_ & m & (_ & R) & Hlk) Hp. destruct (only_link r k v m Hlk) as [E _]. apply (ppt_off _ _ _ _ _ _ _ _ _ R E Hp).
Qed.

Lemma i_first_off dbg vs i cb e k : valid_inst i -> i_supported vs i cb e [k] -> N.of_nat (length k) + N.of_nat vs < 2 ^ 64 -> valid_key k ->
  exists m0 m1 id, i_new dbg vs i cb (2 ^ e) = Ret m0 /\
    i_update dbg vs i m0 k = Ret (UPtr (Some (id, i_offset vs i k)), m1).
Proof.
  intros Hvi Hsup Hsm Hk. destruct (valid_okey k Hk) as [Hok Hb].
  destruct (i_supported_limit _ _ _ _ _ Hvi Hsup) as (He & Hcb & Hroom & _).
  destruct (inst_pack_off dbg vs i e (N.max 16 cb) (nodes_for e [k] + 2) Hvi (proj1 Hsup) ltac:(clear; lia) ltac:(clear -Hroom; lia)) as [K HK].
  pose proof (ip_ok _ _ _ _ _ _ K) as PK.
  destruct (map_new_ok _ _ _ _ _ _ _ _ _ _ PK He cb Hcb) as (m0 & Em0 & Hf); [reflexivity|]. exists m0.
  destruct (so_fresh _ _ _ _ _ _ _ _ _ _ PK _ _ _ (mf_store _ _ _ _ _ _ Hf)) as [Hsz _].
  destruct (so_first _ _ _ _ _ _ _ _ _ _ PK _ _ _ k (mf_store _ _ _ _ _ _ Hf)) as (p & t' & n' & r & E & Hs & Hp).
  { rewrite i_vs. exact Hsm. }
  pose proof (HK _ _ _ _ _ _ _ Hs Hp) as Hoff. destruct p as [id off]. cbn [snd] in Hoff. subst off.
  eexists _, id. split; [exact Em0|].
  unfold i_update, map_update, update_body. rewrite check_key_ok by exact Hok. rewrite bind_ret, Hsz, N.eqb_refl.
  rewrite (mf_ready _ _ _ _ _ _ Hf). cbn [negb]. rewrite bind_ret, E, bind_ret. reflexivity.
Qed.
