(** update of a key that is present looks at what find looks at (C55). *)
From Verif.Model Require Import Visits.
From Verif.Proofs Require Import InstP OomP PresentP.
From Verif.Props Require Import PresentSpec.
Local Open Scope N_scope.

Section like_find_v.
  Context (dbg : bool) (TO : trie_ops) (NO : nlm_ops) (L : lims) (mf e : N) (B : bool) {Q : Type} (stable : nT NO -> N -> Q -> Prop).
  Context (srep : N -> tT TO -> nT NO -> locmap -> labmap -> Prop) (sfresh : N -> tT TO -> nT NO -> Prop).
  Context (npt : nT NO -> N -> ptr -> Prop).
  Hypothesis HS : store_ok TO NO L mf (8 + e) B stable srep sfresh npt.
  Hypothesis He : e <= 39.
  Notation map_st := (map_st TO NO).
  Notation quiet := (quiet TO mf).

  Lemma steps_like_v b t b1 t1 n loc lab p x mtch y m' s : srep b t n loc lab -> srep b1 t1 n loc lab ->
    loc !! p = Some x -> N.of_nat (size loc) + 1 < l_max L ->
    find_steps_v TO (2 ^ e) t x mtch = Ret (Some (y, m'), s) ->
    m' < 2 ^ e /\ (exists q, loc !! q = Some y) /\
    wpx L (update_steps_v TO NO (2 ^ e) t1 n x mtch) (fun '(y', m1, t2, n2, s2) => y' = y /\ m1 = m' /\ s2 = s /\ n2 = n /\
      exists b2, srep b2 t2 n loc lab /\ quiet loc b1 t1 b2 t2).
  Proof.
    intros Hs Hs1 Hp Hroom E. unfold find_steps_v in E.
    assert (Hstep : step_symb < 2 ^ (8 + e)).
    { apply (N.lt_le_trans _ (2 ^ 8)); [reflexivity|]. apply N.pow_le_mono_r; [discriminate|lia]. }
    assert (Hend : m' < 2 ^ e /\ exists q, loc !! q = Some y).
    { revert E. match goal with |- loop ?ff ?ss = Ret ?rr -> _ =>
        intros E; apply (loop_inv_ret ff (fun '(z, _, _) => exists q, loc !! q = Some z)
          (fun r => match fst r with Some (z, mm) => mm < 2 ^ e /\ exists q, loc !! q = Some z | None => True end) ss rr) in E; [exact E|eauto|] end.
      intros [[z mm] sc] [q Hq]. destruct (N.leb_spec (2 ^ e) mm) as [Hge|Hlt]; [|split; [exact Hlt|eauto]].
      rewrite (so_find _ _ _ _ _ _ _ _ _ _ HS _ _ _ _ _ _ _ _ Hs Hq Hstep), bind_ret.
      destruct (loc !! (step_symb :: q)) as [z2|] eqn:Ez; cbn [default from_option]; unfold id.
      - destruct (N.eqb z2 nil_id); [exact I|]. eauto.
      - rewrite N.eqb_refl. exact I. }
    destruct Hend as [H1 H2]. split; [exact H1|]. split; [exact H2|]. unfold update_steps_v.
    revert E. match goal with |- loop ?ff ?ss = Ret ?rr -> wpx _ (loop ?gg ?ss') ?QQ => intros E;
      refine (wpx_mono _ _ _ _ (loop_lock L ff gg
        (fun '(z, mm, sc) '(z', mm', t2, n2, sc') => z' = z /\ mm' = mm /\ sc' = sc /\ n2 = n /\ (exists q, loc !! q = Some z) /\
           exists b2, srep b2 t2 n loc lab /\ quiet loc b1 t1 b2 t2)
        (fun r => is_Some (fst r))
        (fun r '(z', mm', t2, n2, sc') => r = (Some (z', mm'), sc') /\ n2 = n /\ exists b2, srep b2 t2 n loc lab /\ quiet loc b1 t1 b2 t2)
        ss ss' rr _ _ E _) _) end.
    - do 4 (split; [reflexivity|]). split; [eauto|]. exists b1. split; [exact Hs1|apply (quiet_refl TO mf)].
    - intros [[z mm] sc] [[[[z' mm'] t2] n2] sc'] (-> & -> & -> & -> & [q Hq] & b2 & Hs2 & Hq2).
      destruct (N.leb_spec (2 ^ e) mm) as [Hge|Hlt].
      + rewrite (so_find _ _ _ _ _ _ _ _ _ _ HS _ _ _ _ _ _ _ _ Hs Hq Hstep), bind_ret.
        destruct (loc !! (step_symb :: q)) as [z2|] eqn:Ez; cbn [default from_option]; unfold id.
        * destruct (N.eqb z2 nil_id); [intros [? ?]; discriminate|].
          apply wpx_bind. eapply wpx_mono.
          { apply (so_step_old _ _ _ _ _ _ _ _ _ _ HS b2 t2 n loc lab q z z2 Hs2 Hq Hstep Hroom Ez). }
          intros [[y2 t3] n3] (-> & -> & b3 & Hs3 & Hq3). apply wpx_ret. do 4 (split; [reflexivity|]).
          split; [eauto|]. exists b3. split; [exact Hs3|eapply (quiet_trans TO mf e He); eassumption].
        * rewrite N.eqb_refl. intros [? ?]; discriminate.
      + intros _. apply wpx_ret. split; [reflexivity|]. eauto.
    - eauto.
    - intros [[[[z mm] t2] n2] sc'] (Er & -> & Hx). injection Er as -> -> ->. auto.
  Qed.

  Lemma update_like_find_v m S D M b loc lab k p v : mrep TO NO e srep m S D M b loc lab ->
    (B = true -> M !! [0] = None) -> node_bound e (dom M) + 1 < l_max L ->
    map_find_v dbg TO NO m k = Ret (Some p, v) ->
    wpx L (map_update_v dbg TO NO m k) (fun '(r, m', w) => r = UPtr (Some p) /\ w = v /\ same_map TO NO m m' /\
        exists b', mrep TO NO e srep m' S D M b' loc lab /\ quiet loc b (m_trie _ _ m) b' (m_trie _ _ m')).
  Proof.
    intros R HB Hroom. unfold map_find_v, map_update_v.
    destruct (check_key k) as [[]| | | |]; try discriminate. cbn [bind].
    pose proof (mr_store _ _ _ _ _ _ _ _ _ _ _ R) as Hs0. pose proof (mr_codes _ _ _ _ _ _ _ _ _ _ _ R) as HC.
    rewrite (mr_ready _ _ _ _ _ _ _ _ _ _ _ R). cbn [negb orb].
    rewrite (so_size _ _ _ _ _ _ _ _ _ _ HS _ _ _ _ _ Hs0).
    destruct (so_root _ _ _ _ _ _ _ _ _ _ HS _ _ _ _ _ Hs0) as (root & Er & Hroot).
    rewrite (proj2 (N.eqb_neq _ 0)).
    2:{ intros E. assert (size loc = 0%nat) as Ez by (clear -E; lia). apply map_size_empty_inv in Ez.
        rewrite Ez, lookup_empty in Hroot. discriminate. }
    rewrite Er, !bind_ret. pose proof (mrep_count _ _ _ _ _ _ _ _ _ _ _ R) as Hcnt.
    match goal with |- loop ?ff ?ss = Ret ?rr -> wpx _ (loop ?gg ?ss') ?QQ => intros E;
      refine (wpx_mono _ _ _ _ (loop_lock L ff gg
        (fun '(x, key, c) '(m1, x1, key1, c1) => x1 = x /\ key1 = key /\ c1 = c /\ (exists q, loc !! q = Some x) /\
           same_map TO NO m m1 /\ exists b1, mrep TO NO e srep m1 S D M b1 loc lab /\ quiet loc b (m_trie _ _ m) b1 (m_trie _ _ m1))
        (fun r => is_Some (fst r))
        (fun r '(r', m1, c1) => r' = UPtr (fst r) /\ c1 = snd r /\ same_map TO NO m m1 /\
           exists b1, mrep TO NO e srep m1 S D M b1 loc lab /\ quiet loc b (m_trie _ _ m) b1 (m_trie _ _ m1))
        ss ss' rr _ _ E _) _) end.
    - do 3 (split; [reflexivity|]). split; [eauto|]. split; [repeat split|]. exists b. split; [exact R|apply (quiet_refl TO mf)].
    - intros [[x key] vv] [[[m1 x1] key1] vv1] (-> & -> & -> & [q Hq] & Hsame & b1 & R1 & Hq1).
      pose proof Hsame as (Sr & Sl & Sn & Sc & Snc & Ssz). unfold find_body_v, update_body_v. rewrite Sn.
      pose proof (mr_store _ _ _ _ _ _ _ _ _ _ _ R1) as Hs1. rewrite Sn in Hs1.
      destruct key as [|c0 key0].
      { destruct (n_compare NO (m_nlm _ _ m) x []) as [[vp mt]| | | |]; try exact I. cbn [bind fst]. intros _. apply wpx_ret. do 2 (split; [reflexivity|]). eauto. }
      set (key := c0 :: key0) in *.
      destruct (n_compare NO (m_nlm _ _ m) x key) as [[[vp|] mt]| | | |]; try exact I; cbn [bind].
      { intros _. apply wpx_ret. do 2 (split; [reflexivity|]). eauto. }
      rewrite Sl, (mr_lam _ _ _ _ _ _ _ _ _ _ _ R).
      destruct (find_steps_v TO (2 ^ e) (m_trie _ _ m) x mt) as [[[[y m2]|] sc]| | | |] eqn:Es; try exact I; cbn [bind fst snd]; [|intros [? ?]; discriminate].
      destruct (steps_like_v b (m_trie _ _ m) b1 (m_trie _ _ m1) (m_nlm _ _ m) loc lab q x mt y m2 sc Hs0 Hs1 Hq ltac:(clear -Hcnt Hroom; lia) Es)
        as (Hm2 & [q2 Hq2'] & Hst).
      destruct (deref (advance key mt)) as [c| | | |] eqn:Ed; try exact I. cbn [bind]. rewrite Sc.
      destruct (N.lt_ge_cases c 256) as [Hc|Hc].
      2:{ unfold vget. rewrite (co_len _ _ _ HC), (proj2 (N.ltb_ge _ _) Hc). exact I. }
      rewrite vget_ok by (rewrite (co_len _ _ _ HC); exact Hc). rewrite bind_ret.
      rewrite (codes_ok_255 _ _ S c HC Hc). destruct (bool_decide_reflect (c ∈ S)) as [HcS|HcS]; cbn [negb]; [|intros [? ?]; discriminate].
      assert (Em2 : m2 = N.of_nat (N.to_nat m2) mod 2 ^ e) by (rewrite N2Nat.id, N.mod_small by exact Hm2; reflexivity).
      assert (Emk : make_symb dbg (m_codes _ _ m) c m2 = Ret (esym e (m_codes _ _ m) (N.to_nat m2) c)).
      { rewrite Em2 at 1. apply (make_symb_ok e _ _ S HC dbg (N.to_nat m2) c HcS He). }
      rewrite Emk, bind_ret. set (s := esym e (m_codes _ _ m) (N.to_nat m2) c) in *.
      assert (Hslt : s < 2 ^ (8 + e)) by apply (esym_lt e _ _ S HC _ c HcS He).
      rewrite (so_find _ _ _ _ _ _ _ _ _ _ HS _ _ _ _ _ _ _ _ Hs0 Hq2' Hslt), bind_ret.
      destruct (loc !! (s :: q2)) as [z|] eqn:Ez; cbn [default from_option]; unfold id.
      2:{ rewrite N.eqb_refl. intros [? ?]; discriminate. }
      destruct (N.eqb z nil_id); [intros [? ?]; discriminate|].
      apply wpx_bind. eapply wpx_mono; [exact Hst|].
      intros [[[[y' m3] t3] n3] sc3] (-> & -> & -> & -> & b3 & Hs3 & Hq3). rewrite bind_ret, (codes_ok_255 _ _ S c HC Hc), (bool_decide_eq_true_2 _ HcS). cbn [negb bind]. rewrite Emk, bind_ret. fold s.
      apply wpx_bind. eapply wpx_mono.
      { apply (so_leaf_old _ _ _ _ _ _ _ _ _ _ HS b3 t3 _ loc lab q2 y s (advance (advance key mt) 1) z Hs3 Hq2' Hslt); [|clear -Hcnt Hroom; lia|exact Ez].
        intros HBt Epath. rewrite Epath in Ez. destruct (no_nul_path TO NO e srep m S D M b loc lab R ltac:(eauto)) as [v9 Hv]. rewrite (HB HBt) in Hv. discriminate. }
      intros [[[o x4] t4] n4] (-> & -> & -> & b4 & Hs4 & Hq4). apply wpx_ret.
      do 3 (split; [reflexivity|]). split; [eauto|].
      split. { repeat split; cbn; auto. rewrite (mr_lam _ _ _ _ _ _ _ _ _ _ _ R). reflexivity. }
      exists b4. split.
      { destruct R1. split; cbn; auto; rewrite <- ?Sc; try assumption. }
      eapply (quiet_trans TO mf e He); [exact Hq1|]. eapply (quiet_trans TO mf e He); [exact Hq3|exact Hq4].
    - eauto.
    - intros [[r m'] w] (-> & -> & H1 & H2). auto.
  Qed.
End like_find_v.

Lemma i_update_as_find_v dbg vs i cb e ops m k p v : valid_inst i ->
  i_supported vs i cb e (updated ops) -> Forall (valid_op vs) ops -> i_no_trap dbg i (updated ops) ->
  i_reaches dbg vs i cb e ops m -> i_find_v dbg vs i m k = Ret (Some p, v) ->
  i_yields i cb e (updated ops) (i_update_v dbg vs i m k) (fun '(r, m', w) => r = UPtr (Some p) /\ w = v).
Proof.
  intros Hvi Hsup Hv Hnt Hr Hfind. destruct (i_supported_limit _ _ _ _ _ Hvi Hsup) as (He & _).
  destruct (i_reach_inv dbg vs i cb e ops m Hvi Hsup Hv Hnt Hr) as (K & S & D & b & loc & Hi & _).
  pose proof (ip_ok _ _ _ _ _ _ K) as PK.
  assert (Hdom : dom (final vs ops) = list_to_set (updated ops)) by apply dom_final.
  assert (HB0 : i_traps dbg i = true -> final vs ops !! [0] = None).
  { intros Ht. apply not_elem_of_dom. rewrite Hdom. intros H. apply elem_of_list_to_set, elem_of_list_In in H. apply (Hnt Ht H). }
  unfold i_find_v in Hfind. pose proof Hi as Hi0. destruct Hi0 as [(_ & _ & _ & _ & Hf)|[lab R]].
  { exfalso. unfold map_find_v in Hfind. destruct (check_key k) as [[]| | | |]; try discriminate Hfind. cbn [bind] in Hfind.
    destruct (so_fresh _ _ _ _ _ _ _ _ _ _ PK _ _ _ (mf_store _ _ _ _ _ _ Hf)) as [Hz _]. rewrite Hz, orb_true_r in Hfind.
    discriminate Hfind. }
  apply (wpx_i_yields vs); [exact Hvi|exact Hsup|].
  eapply wpx_mono.
  { apply (update_like_find_v dbg _ _ _ _ e _ _ _ _ _ PK He m S D _ b loc lab k p v R HB0); [|exact Hfind].
    cbn [i_lim l_max]. rewrite Hdom. unfold nodes_for. lia. }
  intros [[r m'] w] (-> & -> & _). auto.
Qed.
