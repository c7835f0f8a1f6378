(** The offset of the value in the block of the first key. *)
From Verif.Proofs Require Export NulP.
From Verif.Props Require Export AlignSpec.
Local Open Scope N_scope.

Lemma vb_bytes n : N.of_nat (length (vb n)) = vbytes n.
Proof.
  unfold vbytes. induction n as [n IH] using vb_ind. rewrite vb_eq. destruct (N.ltb_spec 127 n) as [H|H].
  - change (length (N.lor (N.land n 127) 128 :: vb (shr n 7))) with (S (length (vb (shr n 7)))). rewrite Nat2N.inj_succ, IH by exact H.
    change (shr n 7) with (N.shiftr n 7). rewrite N.log2_shiftr.
    assert (7 <= N.log2 n) by (apply N.log2_le_pow2; lia). 
    replace (N.log2 n) with (N.log2 n - 7 + 1 * 7) at 2 by lia. rewrite N.div_add by discriminate. lia.
  - change (length [N.land n 127]) with 1%nat. rewrite N.div_small; [reflexivity|].
    destruct (N.eq_dec n 0) as [->|]; [reflexivity|]. apply N.log2_lt_pow2; [lia|]. change (2 ^ 7) with 128. lia.
Qed.
Lemma stored_len k : N.of_nat (length (stored_label k)) = N.of_nat (length k) - 1.
Proof. unfold stored_label. rewrite firstn_length. lia. Qed.
Lemma ents_none m base n : (forall i, i < N.of_nat n -> m !! (base + i) = None) -> ents m base n = [].
Proof.
  induction n as [|n IH]; intros H; [reflexivity|]. simpl. rewrite IH by (intros i Hi; apply H; lia).
  rewrite H by lia. reflexivity.
Qed.
Lemma ppt_off vs ptrs h by_ m x l v p : prep vs ptrs h by_ m -> m !! x = Some (l, v) -> ppt vs ptrs h x p ->
  snd p = N.of_nat (length l).
Proof.
  intros R E (Hx & Hp & blk & Hf & Hl). destruct (prep_look _ _ _ _ _ _ _ _ R E) as (id & _ & Hid & Hv & Hf').
  rewrite Hid in Hp. injection Hp as ->. rewrite Hf' in Hf. injection Hf as <-. rewrite app_length in Hl. lia.
Qed.
Lemma cbn_pt_off cs vs (Hcs : width_ok cs) P n m x l v p : cbn_rep cs vs P n m -> m !! x = Some (l, v) ->
  (forall y, y <> x -> m !! y = None) -> cbn_pt cs vs n x p ->
  snd p = vbytes (N.of_nat (length l) - 1 + N.of_nat vs) + (N.of_nat (length l) - 1).
Proof.
  intros R E Hno Hp. destruct (rep_entry cs vs Hcs P n m x l v R E) as (_ & id & Hid & _).
  apply (pt_iff cs vs Hcs P n m x l v id p R E Hid) in Hp. subst p. cbn [snd]. unfold voff.
  rewrite ents_none; [|intros i Hi; apply Hno]. { rewrite stored_len, vb_bytes. cbn [encs length concat map]. simpl length. lia. }
  rewrite N2Nat.id in Hi. assert (Hc : cs <> 0) by (destruct Hcs as [->|[->|[->| ->]]]; discriminate).
  pose proof (N.div_mod x cs Hc). lia.
Qed.
Lemma cfn_pt_off cs vs (Hcs : width_ok cs) (Hvs : (1 <= vs)%nat) c n m x l v p : cfn_rep cs vs c n m -> m !! x = Some (l, v) ->
  x = 0 -> cfn_pt cs vs n x p ->
  snd p = vbytes (N.of_nat (length l) - 1 + N.of_nat vs) + (N.of_nat (length l) - 1).
Proof.
  intros R E -> Hp. pose proof Hp as (id & _ & _ & _ & _ & Hid & _).
  apply (fpt_iff cs vs Hcs Hvs c n m 0 l v id p R E Hid) in Hp. subst p. cbn [snd]. unfold fvoff.
  assert (Hc : cs <> 0) by (destruct Hcs as [->|[->|[->| ->]]]; discriminate).
  rewrite (N.mod_0_l cs Hc). rewrite stored_len, vb_bytes. simpl length. lia.
Qed.
Lemma alias_off dbg vs a e B0 T b t n r k v p :
  (1 <= vs)%nat ->   pk_srep _ _ _ _ _ _ (alias_pack dbg vs a e B0 T) b t n {[ [] := r ]} {[ [] := (k, v) ]} ->
  pk_npt _ _ _ _ _ _ (alias_pack dbg vs a e B0 T) n r p -> snd p = value_offset a vs k.
Proof.
  intros Hvs Hs Hp.
  assert (HN : forall m, link {[ [] := r ]} {[ [] := (k, v) ]} m -> m !! r = Some (k, v) /\ forall y, y <> r -> m !! y = None).
  { intros m Hlk. split; [rewrite (lk_m _ _ _ Hlk [] r (lookup_singleton _ _)); apply lookup_singleton|].
    intros y Hy. destruct (m !! y) as [e0|] eqn:E; [|reflexivity]. destruct (lk_q _ _ _ Hlk y e0 E) as [q Hq].
    apply lookup_singleton_Some in Hq as [_ ->]. congruence. }
  assert (HF : forall cs c n m, cfn_rep cs vs c n m -> c = N.of_nat (size ({[ [] := r ]} : locmap)) -> m !! r = Some (k, v) -> r = 0).
  { intros cs c n0 m R -> E. destruct (fr_good _ _ _ _ _ R r k v E) as (H & _). rewrite map_size_singleton in H. lia. }
  destruct a as [|c|c| |c|c].
  - destruct Hs as (_ & _ & m & (_ & R & _) & Hlk). destruct (HN m Hlk) as [E _]. apply (ppt_off _ _ _ _ _ _ _ _ _ R E Hp).
  - destruct Hs as (_ & _ & m & R & Hlk). destruct (HN m Hlk) as [E Hno]. apply (cbn_pt_off _ _ (chunk_width c) _ _ _ _ _ _ _ R E Hno Hp).
  - destruct Hs as (_ & _ & m & R & Hlk). destruct (HN m Hlk) as [E Hno]. apply (cbn_pt_off _ _ (chunk_width c) _ _ _ _ _ _ _ R E Hno Hp).
  - destruct Hs as (_ & m & (_ & R) & Hlk). destruct (HN m Hlk) as [E _]. apply (ppt_off _ _ _ _ _ _ _ _ _ R E Hp).
  - destruct Hs as (_ & m & R & Hlk). destruct (HN m Hlk) as [E _].
    apply (cfn_pt_off _ _ (chunk_width c) Hvs _ _ _ _ _ _ _ R E (HF _ _ _ _ R eq_refl E) Hp).
  - destruct Hs as (_ & m & R & Hlk). destruct (HN m Hlk) as [E _].
    apply (cfn_pt_off _ _ (chunk_width c) Hvs _ _ _ _ _ _ _ R E (HF _ _ _ _ R eq_refl E) Hp).
Qed.
Lemma first_off dbg vs a cb e k : supported vs cb e [k] -> N.of_nat (length k) + N.of_nat vs < 2 ^ 64 -> valid_key k ->
  exists m0 m1 id, a_new dbg vs a cb (2 ^ e) = Ret m0 /\
    a_update dbg vs a m0 k = Ret (UPtr (Some (id, value_offset a vs k)), m1).
Proof.
  intros Hsup Hsm Hk. destruct (valid_okey k Hk) as [Hok Hb].
  pose proof (reach_pk dbg vs a cb e _ Hsup) as PK.
  destruct (new_inv dbg vs a cb e _ Hsup) as (m0 & Em0 & Hi). exists m0.
  destruct Hi as [(_ & _ & _ & _ & Hf)|[lab R]].
  2: { exfalso. destruct (so_root _ _ _ _ _ _ _ _ _ _ PK _ _ _ _ _ (mr_store _ _ _ _ _ _ _ _ _ _ _ R)) as (r & _ & H).
       rewrite lookup_empty in H. discriminate. }
  destruct (so_fresh _ _ _ _ _ _ _ _ _ _ PK _ _ _ (mf_store _ _ _ _ _ _ Hf)) as [Hsz _].
  destruct (so_first _ _ _ _ _ _ _ _ _ _ PK _ _ _ k (mf_store _ _ _ _ _ _ Hf)) as (p & t' & n' & r & E & Hs & Hp).
  { rewrite a_vs. exact Hsm. }
  pose proof (alias_off dbg vs a e _ _ _ _ _ _ _ _ _ (supported_vs _ _ _ _ Hsup) Hs Hp) as Hoff. destruct p as [id off]. cbn [snd] in Hoff. subst off.
  eexists _, id. split; [exact Em0|].
  unfold a_update, map_update, update_body. rewrite check_key_ok by exact Hok. rewrite bind_ret, Hsz, N.eqb_refl.
  rewrite (mf_ready _ _ _ _ _ _ Hf). cbn [negb]. rewrite bind_ret, E, bind_ret. reflexivity.
Qed.
