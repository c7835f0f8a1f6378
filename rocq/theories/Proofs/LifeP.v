(** Histories that keep pointers of keys that are settled (C11). *)
From Verif.Proofs Require Import PresentP.
From Verif.Props Require Import LifeSpec.
Local Open Scope N_scope.

Lemma newer_self k order : newer k (k :: order) = 0%nat.
Proof. simpl. rewrite decide_True; reflexivity. Qed.
Lemma newer_other k k' order : k <> k' -> newer k (k' :: order) = S (newer k order).
Proof. intros H. simpl. rewrite decide_False by exact H. reflexivity. Qed.

Section life.
  Context (dbg : bool) (TO : trie_ops) (NO : nlm_ops) (L : lims) (mf e : N) (B : bool) (fk : bool) (frz : N -> N -> Prop).
  Context (srep : N -> tT TO -> nT NO -> locmap -> labmap -> Prop) (sfresh : N -> tT TO -> nT NO -> Prop).
  Context (npt : nT NO -> N -> ptr -> Prop).
  Notation stable := (tok fk frz npt).
  Hypothesis HS : store_ok TO NO L mf (8 + e) B stable srep sfresh npt.
  Hypothesis He : e <= 39.
  Hypothesis Hmf : 1 <= mf <= 99.
  Context (lim : option nat).
  Hypothesis Hlim : forall j, lim = Some j -> (forall n x, frz n x) \/
    (fk = true /\ t_kind TO = Fkhash /\ forall n x, x + N.of_nat j < n -> frz n x).
  Notation vs := (n_vs NO).
  Notation map_st := (map_st TO NO).
  Notation mpt := (mpt TO NO e npt).
  Notation smpt := (MapP.mpt TO NO e stable).
  Notation minv := (minv TO NO e srep sfresh).

  (** Every key sits before at least as many nodes as there are newer keys. *)
  Definition ord_ok (m : map_st) (D : dmap) (M : dict) (loc : locmap) (order : list (list N)) : Prop :=
    fk = true -> t_kind TO = Fkhash -> forall k, is_Some (M !! k) ->
    exists x, smpt m D loc k (inl x) /\ x + N.of_nat (newer k order) < N.of_nat (size loc).
  Definition lhandles (m : map_st) (D : dmap) (loc : locmap) (hs : list (option ptr)) (ks : list handle) : Prop :=
    Forall2 (fun o h => match h with
      | Some (k, perm) => exists p, o = Some p /\ mpt m D loc k p /\ (perm = true -> smpt m D loc k (inr p))
      | None => True end) hs ks.
  Lemma lhandles_mono m D loc m' D' loc' hs ks :
    (forall k p, mpt m D loc k p -> mpt m' D' loc' k p) -> (forall k q, smpt m D loc k q -> smpt m' D' loc' k q) ->
    lhandles m D loc hs ks -> lhandles m' D' loc' hs ks.
  Proof.
    intros H1 H2 Hh. eapply Forall2_impl; [exact Hh|]. intros o [[k perm]|]; [|auto]. intros (p & E & Hp & Hq). exists p. auto.
  Qed.
  Lemma smpt_mpt m D loc k p : smpt m D loc k (inr p) -> mpt m D loc k p.
  Proof. intros (π & x & H1 & H2 & H3 & H4 & H5). exists π, x. auto. Qed.
  Lemma lhandles_drop m D loc m' D' loc' hs ks : (forall k q, smpt m D loc k q -> smpt m' D' loc' k q) ->
    lhandles m D loc hs ks -> lhandles m' D' loc' hs (map drop_temporary ks).
  Proof.
    intros H Hh. induction Hh as [|o h hs ks Ho _ IH]; constructor; [|exact IH].
    destruct h as [[k []]|]; simpl; auto. destruct Ho as (p & E & Hp & Hq). exists p. split; [exact E|].
    specialize (H _ _ (Hq eq_refl)). split; [apply smpt_mpt, H|auto].
  Qed.
  Lemma settled_ok m S D M b loc order k p : minv m S D M b loc -> ord_ok m D M loc order -> is_Some (M !! k) ->
    mpt m D loc k p -> settled lim order k = true -> smpt m D loc k (inr p).
  Proof.
    intros Hi Ho Hk (π & x & Hp & Ek & Hx & Hpt) Hs. exists π, x. split; [exact Hp|]. split; [exact Ek|]. split; [exact Hx|].
    split; [|exact Hpt]. unfold settled in Hs. destruct lim as [j|] eqn:El; [|discriminate].
    apply Nat.leb_le in Hs. destruct (Hlim j eq_refl) as [H|(H1 & H2 & H3)]; [apply H|].
    destruct Hi as [(-> & _)|[lab R]]; [rewrite lookup_empty in Hp; destruct Hp; discriminate|].
    destruct (so_fk _ _ _ _ _ _ _ _ _ _ HS H2 _ _ _ _ _ (mr_store _ _ _ _ _ _ _ _ _ _ _ R)) as [Hn _]. rewrite Hn.
    destruct (Ho H1 H2 k Hk) as (y & (ρ & x' & Hr & Ek' & Hx' & _ & ->) & Hlt).
    destruct Hp as [a Ha], Hr as [c Hc].
    rewrite <- (keyof_inj S D (mr_D _ _ _ _ _ _ _ _ _ _ _ R) π ρ a c Ha Hc ltac:(congruence)) in Hx'.
    rewrite Hx in Hx'. injection Hx' as <-. apply H3. clear -Hs Hlt. lia.
  Qed.
  Lemma ord_new m D M loc order k v m' S' D' M' b' loc' p :
    M !! k = None -> M' = <[k := v]> M -> ord_ok m D M loc order -> kept TO NO e stable m D loc m' D' loc' ->
    (size loc < size loc')%nat -> minv m' S' D' M' b' loc' -> mpt m' D' loc' k p -> ord_ok m' D' M' loc' (k :: order).
  Proof.
    intros HM -> Ho [_ Hk] Hsz Hi Hp H1 H2 k' Hk'. destruct (decide (k' = k)) as [->|Hne].
    - rewrite newer_self. destruct Hp as (π & x & Hp & Ek & Hx & _).
      destruct Hi as [(-> & _)|[lab R]]; [rewrite lookup_empty in Hp; destruct Hp; discriminate|].
      destruct (so_fk _ _ _ _ _ _ _ _ _ _ HS H2 _ _ _ _ _ (mr_store _ _ _ _ _ _ _ _ _ _ _ R)) as [_ Hlt].
      exists x. split; [exists π, x; simpl; auto|]. specialize (Hlt _ _ Hx). clear -Hlt. lia.
    - rewrite lookup_insert_ne in Hk' by congruence. rewrite (newer_other _ _ _ Hne).
      destruct (Ho H1 H2 k' Hk') as (x & Hx & Hlt). exists x. split; [apply Hk, Hx|]. clear -Hlt Hsz. lia.
  Qed.
  Lemma ord_mono m D M loc order m' D' M' : (forall k q, smpt m D loc k q -> smpt m' D' loc k q) ->
    (forall k, is_Some (M' !! k) -> is_Some (M !! k)) -> ord_ok m D M loc order -> ord_ok m' D' M' loc order.
  Proof. intros H HM Ho H1 H2 k Hk. destruct (Ho H1 H2 k (HM k Hk)) as (x & Hx & Hlt). eauto. Qed.
  Lemma same_gmpt {R} (pt : nT NO -> N -> R -> Prop) m m' D loc k p :
    same_map TO NO m m' -> MapP.mpt TO NO e pt m D loc k p -> MapP.mpt TO NO e pt m' D loc k p.
  Proof.
    intros (_ & _ & En & Ec & _) (π & x & H1 & H2 & H3 & H4). exists π, x. rewrite En, Ec. auto.
  Qed.

  Theorem lrun_ok ops : forall m hs S D M order ks b loc (A : gset N) r, minv m S D M b loc ->
    ord_ok m D M loc order -> lhandles m D loc hs ks ->
    Forall (hvalid_op vs) ops -> (B = true -> Forall (fun k => k <> [0]) (hupdated ops)) ->
    S ⊆ A -> alphabet (hupdated ops) ⊆ A -> (size A <= 254)%nat ->
    node_bound e (dom M ∪ list_to_set (hupdated ops)) + 1 < l_max L ->
    life_run vs lim (mkLife M order ks) ops = Some r ->
    wpx L (hapi_run dbg TO NO m hs ops) (fun '(xs, m', hs') => xs = fst r /\ m_size _ _ m' = N.of_nat (size (lf_dict (snd r)))).
  Proof.
    induction ops as [|o ops IH]; intros m hs S D M order ks b loc A r Hi Ho Hh Hv HB HSA HA HA4 Hroom Hr.
    - simpl in Hr. injection Hr as <-. apply wpx_ret. split; [reflexivity|]. cbn [snd lf_dict].
      apply (minv_size_small TO NO L mf e B stable srep sfresh npt HS He Hmf m S D M b loc Hi).
      revert Hroom. apply nb_room. clear. set_solver.
    - apply Forall_cons_1 in Hv as [Hv Hvs]. cbn [life_run] in Hr.
      destruct (life_step vs lim (mkLife M order ks) o) as [[x [M1 order1 ks1]]|] eqn:Eo; [|discriminate].
      destruct (life_run vs lim (mkLife M1 order1 ks1) ops) as [[xs s']|] eqn:Er; [|discriminate]. injection Hr as <-.
      cbn [hapi_run]. apply wpx_bind.
      assert (Hrest : forall m1 hs1 S1 D1 b1 loc1, minv m1 S1 D1 M1 b1 loc1 -> ord_ok m1 D1 M1 loc1 order1 ->
         lhandles m1 D1 loc1 hs1 ks1 ->
         S1 ⊆ A -> (B = true -> Forall (fun k => k <> [0]) (hupdated ops)) -> alphabet (hupdated ops) ⊆ A ->
         node_bound e (dom M1 ∪ list_to_set (hupdated ops)) + 1 < l_max L ->
         wpx L (let* r := hapi_run dbg TO NO m1 hs1 ops in let '(xs, m, hs) := r in Ret (x :: xs, m, hs))
           (fun '(xs', m', hs') => xs' = fst (x :: xs, s') /\ m_size _ _ m' = N.of_nat (size (lf_dict s')))).
      { intros m1 hs1 S1 D1 b1 loc1 Hi1 Ho1 Hh1 HS1 HB1 HA1 Hroom1. apply wpx_bind. eapply wpx_mono.
        { apply (IH m1 hs1 S1 D1 M1 order1 ks1 b1 loc1 A (xs, s')); eassumption. }
        intros [[ys m2] hs2] [-> Hz]. apply wpx_ret. split; [reflexivity|exact Hz]. }
      destruct o as [k|k|i|i w]; unfold hapi_step.
      + destruct Hv as [Hk Hsm]. change (hupdated (HUpdate k :: ops)) with (k :: hupdated ops) in *.
        assert (HkA : (list_to_set k : gset N) ⊆ A /\ alphabet (hupdated ops) ⊆ A).
        { unfold alphabet in *. simpl in HA. rewrite list_to_set_app_L in HA. set_solver. }
        destruct HkA as [HkA HAo].
        assert (HB1 : B = true -> k <> [0]) by (intros Hb; specialize (HB Hb); apply Forall_cons_1 in HB as [H _]; exact H).
        assert (HB2 : B = true -> Forall (fun k => k <> [0]) (hupdated ops))
          by (intros Hb; specialize (HB Hb); apply Forall_cons_1 in HB as [_ H]; exact H).
        assert (Hroom0 : node_bound e (dom M) + 1 < l_max L) by (revert Hroom; apply nb_room; clear; set_solver).
        unfold life_step in Eo. destruct (M !! k) as [v0|] eqn:EM.
        * injection Eo as <- <- <- <-.
          destruct (minv_present dbg TO NO L mf e B stable srep sfresh npt HS He m S D M b loc k v0 Hi Hk ltac:(unfold small in Hsm; lia) HB1 Hroom0 EM) as (p & Ef & Hp & Hup).
          apply wpx_bind. eapply wpx_mono; [exact Hup|].
          intros [r m1] (-> & Hsame & b1 & Hi1 & Hq). apply wpx_ret.
          assert (Ho1 : ord_ok m1 D M loc order).
          { revert Ho. apply ord_mono; [intros k' q; apply same_gmpt, Hsame|auto]. }
          apply (Hrest m1 (hs ++ [Some p]) S D b1 loc); auto.
          -- apply Forall2_app.
             { apply (lhandles_mono m D loc); [| |exact Hh]; intros k' q; apply same_gmpt, Hsame. }
             constructor; [|constructor]. exists p. split; [reflexivity|]. apply (same_gmpt _ m m1) in Hp; [|exact Hsame].
             split; [exact Hp|]. apply (settled_ok m1 S D M b1 loc order k p Hi1 Ho1 ltac:(eauto) Hp).
          -- revert Hroom. apply nb_room. rewrite list_to_set_cons. clear. set_solver.
        * injection Eo as <- <- <- <-. apply wpx_bind. eapply wpx_mono.
          { apply (update_alpha dbg TO NO L mf e B stable srep sfresh npt HS He Hmf m S D M b loc k A Hi Hk Hsm); auto. }
          intros [r m1] (p & S1 & D1 & b1 & loc1 & -> & Hb1 & HS1 & [Hkept Hgrow] & Hi1 & Hp1). apply wpx_ret.
          rewrite EM in Hi1. cbn [default from_option] in Hi1. rewrite zeros_replicate in Hi1.
          assert (Ho1 : ord_ok m1 D1 (<[k := replicate vs 0]> M) loc1 (k :: order)).
          { eapply ord_new; [exact EM|reflexivity|exact Ho|exact Hkept|exact (Hgrow EM)|exact Hi1|exact Hp1]. }
          apply (Hrest m1 (hs ++ [Some p]) S1 D1 b1 loc1); auto.
          -- apply Forall2_app; [exact (lhandles_drop m D loc m1 D1 loc1 hs ks (proj2 Hkept) Hh)|].
             constructor; [|constructor]. exists p. split; [reflexivity|]. split; [exact Hp1|].
             apply (settled_ok m1 S1 D1 _ b1 loc1 (k :: order) k p Hi1 Ho1); [rewrite lookup_insert; eauto|exact Hp1].
          -- revert Hroom. apply nb_room. rewrite dom_insert_L, list_to_set_cons. clear. set_solver.
      + destruct Hv as (Hk & Hlen). change (hupdated (HFind k :: ops)) with (hupdated ops) in *.
        destruct (valid_okey k Hk) as [Hok Hb].
        apply wpx_bind. eapply wpx_mono.
        { apply wp_wpx. apply (minv_find dbg TO NO L mf e B stable srep sfresh npt HS He m S D M b loc k Hi Hok Hb Hlen). }
        intros [p|] Hres.
        * destruct Hres as [[v Hv] Hp]. simpl in Eo. rewrite Hv in Eo. injection Eo as <- <- <- <-. apply wpx_ret.
          apply (Hrest m (hs ++ [Some p]) S D b loc); auto; try lia.
          apply Forall2_app; [exact Hh|]. constructor; [|constructor]. exists p. split; [reflexivity|]. split; [exact Hp|].
          apply (settled_ok m S D M b loc order k p Hi Ho ltac:(eauto) Hp).
        * simpl in Eo. rewrite Hres in Eo. injection Eo as <- <- <- <-. apply wpx_ret.
          apply (Hrest m (hs ++ [None]) S D b loc); auto; try lia.
          apply Forall2_app; [exact Hh|]. constructor; [exact I|constructor].
      + change (hupdated (HRead i :: ops)) with (hupdated ops) in *. simpl in Eo.
        destruct (ks !! i) as [[[k perm]|]|] eqn:Ek; try discriminate.
        destruct (Forall2_lookup_r _ _ _ i _ Hh Ek) as (o & Eh & p & -> & Hp & _).
        destruct (M !! k) as [v|] eqn:EM; [|discriminate]. injection Eo as <- <- <- <-.
        rewrite Eh. destruct (minv_read TO NO L mf e B stable srep sfresh npt HS m S D M b loc k p Hi Hp) as (v' & Hv1 & Erd).
        rewrite EM in Hv1. injection Hv1 as <-. unfold map_read. rewrite Erd, bind_ret. apply wpx_ret.
        apply (Hrest m hs S D b loc); auto; lia.
      + change (hupdated (HWrite i w :: ops)) with (hupdated ops) in *. simpl in Eo.
        destruct (ks !! i) as [[[k perm]|]|] eqn:Ek; try discriminate.
        destruct (Forall2_lookup_r _ _ _ i _ Hh Ek) as (o & Eh & p & -> & Hp & _).
        destruct (decide (length w = vs)) as [Hw|]; [|discriminate]. injection Eo as <- <- <- <-.
        rewrite Eh. destruct (minv_write TO NO L mf e B stable srep sfresh npt HS m S D M b loc k p w Hi Hp Hw)
          as (h & D2 & Ewr & Hi2 & Hpt2 & Hst2).
        unfold map_write. rewrite Ewr, !bind_ret. apply wpx_ret.
        destruct (minv_read TO NO L mf e B stable srep sfresh npt HS m S D M b loc k p Hi Hp) as (v' & Hv1 & _).
        apply (Hrest _ hs S D2 b loc); auto; try lia.
        * revert Ho. apply ord_mono; [exact Hst2|]. intros k' [z Hz]. destruct (decide (k' = k)) as [->|Hne]; [eauto|].
          rewrite lookup_insert_ne in Hz by congruence. eauto.
        * apply (lhandles_mono m D loc); [exact Hpt2|exact Hst2|exact Hh].
        * rewrite dom_insert_lookup_L by eauto. exact Hroom.
  Qed.
End life.

Lemma i_kind dbg i : is_fkhash i = true -> t_kind (i_trie dbg i) = Fkhash.
Proof. destruct i as [[] []]; try discriminate; reflexivity. Qed.
Lemma chunk_settles cs n x : 0 < cs -> x + cs < n -> x / cs < (n - 1) / cs.
Proof.
  intros Hc H. assert (x / cs + 1 <= (n - 1) / cs); [|lia].
  replace (x / cs + 1) with ((x + 1 * cs) / cs) by (rewrite N.div_add by lia; reflexivity).
  apply N.div_le_mono; lia.
Qed.
Lemma i_settles dbg i j : settles_after i = Some j -> (forall n x, i_frz i n x) \/
  (is_fkhash i = true /\ t_kind (i_trie dbg i) = Fkhash /\ forall n x, x + N.of_nat j < n -> i_frz i n x).
Proof.
  unfold settles_after. intros H. destruct (i_l i) as [c|] eqn:El.
  - destruct (is_fkhash i) eqn:Ef; [|discriminate]. injection H as <-. right. split; [reflexivity|].
    split; [apply i_kind, Ef|]. intros n x Hx. rewrite N2Nat.id in Hx.
    assert (0 < cs_val c) by (destruct c; reflexivity).
    unfold i_frz. rewrite El. unfold is_fkhash in Ef. destruct (i_t i); try discriminate; apply chunk_settles; assumption.
  - left. intros n x. unfold i_frz. rewrite El. destruct (i_t i); exact I.
Qed.
Lemma i_lrun_ok dbg vs i cb e ops r : valid_inst i -> i_supported vs i cb e (hupdated ops) ->
  Forall (hvalid_op vs) ops -> i_no_trap dbg i (hupdated ops) ->
  life_run vs (settles_after i) (mkLife ∅ [] []) ops = Some r ->
  exists m0, i_new dbg vs i cb (2 ^ e) = Ret m0 /\
    i_yields i cb e (hupdated ops) (i_hrun dbg vs i m0 ops) (fun '(seen, m, _) =>
      seen = fst r /\ i_size dbg vs i m = N.of_nat (size (lf_dict (snd r)))).
Proof.
  intros Hvi Hsup Hv Hnt Hr. destruct (i_supported_limit _ _ _ _ _ Hvi Hsup) as (He & Hcb & Hroom & _).
  pose proof (proj1 Hvi) as Hmf. destruct Hsup as (Hvs & Hcb' & Hn & HA).
  assert (HB : 16 <= N.max 16 cb) by lia.
  destruct (inst_pack dbg vs i e (N.max 16 cb) (nodes_for e (hupdated ops) + 2) Hvi Hvs HB ltac:(lia)) as [K _].
  pose proof (ip_ok _ _ _ _ _ _ K) as PK.
  destruct (map_new_ok _ _ _ _ _ _ _ _ _ _ PK He cb Hcb) as (m0 & E & Hf); [reflexivity|].
  exists m0. split; [exact E|]. apply (mfresh_minv _ _ e (ip_srep _ _ _ _ _ _ K) (ip_sfresh _ _ _ _ _ _ K)) in Hf.
  apply (wpx_i_yields vs); [exact Hvi|repeat split; assumption|].
  eapply wpx_mono.
  { apply (lrun_ok dbg _ _ _ _ e _ _ _ _ _ _ PK He Hmf (settles_after i) (i_settles dbg i) ops m0 [] {[ 0 ]} ∅ ∅ [] [] _ ∅ (alphabet (hupdated ops)) r Hf).
    - intros _ _ k [v Hk]. rewrite lookup_empty in Hk. discriminate.
    - constructor.
    - rewrite i_vs. exact Hv.
    - apply i_no_trap_forall, Hnt.
    - unfold alphabet. set_solver.
    - reflexivity.
    - exact HA.
    - cbn [i_lim l_max]. rewrite dom_empty_L, union_empty_l_L. unfold nodes_for. lia.
    - rewrite i_vs. exact Hr. }
  intros [[seen m1] hs] H. exact H.
Qed.
