(** update adds no more nodes than it counts lookups (C55). *)
From Verif.Model Require Import Visits.
From Verif.Proofs Require Import InstP OomP VisitsP InstStepP InstMoreP.
From Verif.Proofs Require StatsP.
Local Open Scope N_scope.
Notation wpx_of_ret := StatsP.wpx_of_ret.

Lemma body_same dbg (TO : trie_ops) (NO : nlm_ops) m x key v : update_body dbg TO NO (m, x, key) =
  let* r := update_body_v dbg TO NO (m, x, key, v) in
  Ret (match r with inl (m, x, key, _) => inl (m, x, key) | inr (r, m, _) => inr (r, m) end).
Proof.
  unfold update_body, update_body_v. destruct key as [|c0 key].
  { destruct (n_compare NO _ x []) as [[]| | | |]; reflexivity. }
  destruct (n_compare NO _ x (c0 :: key)) as [[[p|] mt]| | | |]; try reflexivity. cbn [bind]. cbv zeta.
  rewrite update_steps_same. destruct (update_steps_v TO NO _ _ _ x mt) as [[[[[y mt'] t] n] s]| | | |]; try reflexivity. cbn [bind fst].
  destruct (deref _) as [ch| | | |]; try reflexivity. cbn [bind].
  destruct (vget _ ch) as [code| | | |]; try reflexivity. cbn [bind].
  match goal with |- context [bind (if ?b then ?u else ?v) _] => destruct (if b then u else v) as [[[codes nc] th]| | | |]; try reflexivity end.
  cbn [bind]. destruct th; [reflexivity|].
  destruct (make_symb dbg codes ch mt') as [symb| | | |]; try reflexivity. cbn [bind].
  destruct (add_leaf TO NO y symb _ t n) as [[[[[p|] z] t2] n2]| | | |]; reflexivity.
Qed.
Lemma size_le_dom (loc loc' : locmap) q : dom loc' = {[ q ]} ∪ dom loc -> (size loc' <= size loc + 1)%nat.
Proof.
  intros H. rewrite <- !size_dom, H. rewrite size_union_alt, size_singleton.
  assert (size (dom loc ∖ {[ q ]}) <= size (dom loc))%nat by (apply subseteq_size; clear; set_solver). lia.
Qed.

Section grow.
  Context (dbg : bool) (TO : trie_ops) (NO : nlm_ops) (L : lims) (mf e : N) (B : bool) {Q : Type} (stable : nT NO -> N -> Q -> Prop).
  Context (srep : N -> tT TO -> nT NO -> locmap -> labmap -> Prop) (sfresh : N -> tT TO -> nT NO -> Prop).
  Context (npt : nT NO -> N -> ptr -> Prop).
  Hypothesis HS : store_ok TO NO L mf (8 + e) B stable srep sfresh npt.
  Hypothesis He : e <= 39.
  Hypothesis Hmf : 1 <= mf <= 99.
  Notation vs := (n_vs NO).
  Notation mrep := (mrep TO NO e srep).
  Notation minv := (minv TO NO e srep sfresh).
  Notation upd_inv := (upd_inv TO NO e stable srep).

  Lemma steps_grow (b : N) (t : tT TO) (n : nT NO) (loc : locmap) (lab : labmap) (p : list N) (x mtch : N) (F : gset (list N)) x' m' t' n' c' :
    srep b t n loc lab -> loc !! p = Some x -> mtch < 2 ^ 64 ->
    dom loc ⊆ F -> (forall i, N.of_nat i <= mtch / 2 ^ e -> replicate i 255 ++ p ∈ F) ->
    N.of_nat (size F) + 1 < l_max L ->
    update_steps_v TO NO (2 ^ e) t n x mtch = Ret (x', m', t', n', c') ->
    m' = mtch mod 2 ^ e /\ exists b' loc', b <= b' /\ srep b' t' n' loc' lab /\
        loc' !! (replicate (N.to_nat (mtch / 2 ^ e)) 255 ++ p) = Some x' /\
        (forall q, is_Some (loc' !! q) -> is_Some (loc !! q) \/
           exists i, N.of_nat i <= mtch / 2 ^ e /\ q = replicate i 255 ++ p) /\
        (forall q, is_Some (loc !! q) -> is_Some (loc' !! q)) /\ keeps NO stable n n' loc loc' /\ N.of_nat (size loc') <= N.of_nat (size loc) + c'.
  Proof.
    intros Hs Hp Hm HF1 HF2 Hroom E. unfold update_steps_v in E. pose proof (lam_pos e) as Hlam.
    apply (loop_ret _ (fun '(y, m, t', n', c') => m <= mtch /\ m mod 2 ^ e = mtch mod 2 ^ e /\
      m / 2 ^ e <= mtch / 2 ^ e /\
      exists b' loc', b <= b' /\ srep b' t' n' loc' lab /\
        loc' !! (replicate (N.to_nat (mtch / 2 ^ e - m / 2 ^ e)) 255 ++ p) = Some y /\
        (forall q, is_Some (loc' !! q) -> is_Some (loc !! q) \/
           exists i, N.of_nat i <= mtch / 2 ^ e /\ q = replicate i 255 ++ p) /\
        (forall q, is_Some (loc !! q) -> is_Some (loc' !! q)) /\ keeps NO stable n n' loc loc' /\ N.of_nat (size loc') <= N.of_nat (size loc) + c')
      (fun '(x', m', t', n', c') => m' = mtch mod 2 ^ e /\ exists b' loc', b <= b' /\ srep b' t' n' loc' lab /\
        loc' !! (replicate (N.to_nat (mtch / 2 ^ e)) 255 ++ p) = Some x' /\
        (forall q, is_Some (loc' !! q) -> is_Some (loc !! q) \/
           exists i, N.of_nat i <= mtch / 2 ^ e /\ q = replicate i 255 ++ p) /\
        (forall q, is_Some (loc !! q) -> is_Some (loc' !! q)) /\ keeps NO stable n n' loc loc' /\ N.of_nat (size loc') <= N.of_nat (size loc) + c')) in E;
      [exact E| |].
    - split; [lia|]. split; [reflexivity|]. split; [lia|]. exists b, loc. split; [lia|]. split; [exact Hs|].
      rewrite N.sub_diag. split; [exact Hp|]. split; [auto|]. split; [auto|]. split; [apply keeps_refl|clear; lia].
    - clear E x' m' t' n' c'.
      intros [[[[y m] t'] n'] c1] (Hle & Hmod & Hdiv & b' & loc' & Hb & Hs' & Hy & Hnew & Hold & Hk & Hc1).
      assert (Hsz : N.of_nat (size loc') <= N.of_nat (size F)).
      { rewrite <- size_dom. apply of_nat_mono. apply subseteq_size. intros q Hq. apply elem_of_dom in Hq.
        apply Hnew in Hq as [Hq|(i & Hi & ->)]; [apply HF1, elem_of_dom, Hq|apply HF2, Hi]. }
      destruct (N.leb_spec (2 ^ e) m) as [Hge|Hlt].
      + destruct (div_sub_pow m (2 ^ e) ltac:(lia) Hge) as (E1 & E2 & E3).
        destruct (add_step TO NO y t' n') as [[[y2 t2] n2]| | | |] eqn:Est; try exact I. cbn [bind].
        pose proof (wpx_of_ret _ _ _ _ (so_step _ _ _ _ _ _ _ _ _ _ HS b' t' n' loc' lab _ y Hs' Hy (step_lt e He) ltac:(lia)) Est) as H.
        cbn beta iota in H. destruct H as (b2 & loc2 & Hb2 & Hs2 & Hy2 & Hd2 & Hk2).
        assert (Hc2 : N.of_nat (size loc2) <= N.of_nat (size loc) + (c1 + 1)).
        { pose proof (size_le_dom loc' loc2 _ Hd2) as H. clear -H Hc1. lia. }
        assert (Esub : sub64 m (2 ^ e) = m - 2 ^ e).
        { unfold sub64, UINT64_MAX. rewrite w64_mod. change (18446744073709551615 + 1) with (2 ^ 64).
          pose proof (lam_64 e He). replace (m + (2 ^ 64 - 2 ^ e)) with ((m - 2 ^ e) + 1 * 2 ^ 64) by lia.
          rewrite N.mod_add by discriminate. apply N.mod_small. lia. }
        rewrite Esub. split; [lia|]. split; [congruence|]. split; [lia|].
        exists b2, loc2. split; [lia|]. split; [exact Hs2|].
        assert (Epath : step_symb :: replicate (N.to_nat (mtch / 2 ^ e - m / 2 ^ e)) 255 ++ p =
                        replicate (N.to_nat (mtch / 2 ^ e - (m - 2 ^ e) / 2 ^ e)) 255 ++ p).
        { replace (N.to_nat (mtch / 2 ^ e - (m - 2 ^ e) / 2 ^ e))
            with (Datatypes.S (N.to_nat (mtch / 2 ^ e - m / 2 ^ e))) by lia. reflexivity. }
        rewrite Epath in *. split; [exact Hy2|]. split.
        { intros q Hq. apply elem_of_dom in Hq. rewrite Hd2 in Hq. apply elem_of_union in Hq as [Hq|Hq].
          - apply elem_of_singleton in Hq as ->. right. eexists. split; [|reflexivity]. lia.
          - apply Hnew. apply elem_of_dom, Hq. }
        split.
        { intros q Hq. apply elem_of_dom. rewrite Hd2. apply elem_of_union_r. apply elem_of_dom. apply Hold, Hq. }
        split; [eapply keeps_trans; eassumption|exact Hc2].
      + rewrite N.mod_small in Hmod by exact Hlt. split; [exact Hmod|].
        rewrite (N.div_small m) in * by exact Hlt. rewrite N.sub_0_r in *. exists b', loc'. auto 10.
  Qed.

  Definition grew (n0 : N) (v : visits) (m : map_st TO NO) : Prop := t_size TO (m_trie _ _ m) <= n0 + (v_edges v + v_steps v).

  Lemma body_grow m S D M b loc lab k m1 n0 x key vv r : dvalid S D -> dict_of D M -> bytes k -> small vs k -> (B = true -> k <> [0]) ->
    node_bound e (dom M) + 1 < l_max L -> ((size S < 255)%nat \/ forall c, c ∈ k -> c ∈ S) ->
    upd_inv m S D M b loc lab k (m1, x, key) -> grew n0 vv m1 ->
    update_body_v dbg TO NO (m1, x, key, vv) = Ret r ->
    match r with inl (m2, _, _, v2) => grew n0 v2 m2 | inr (_, m2, v2) => grew n0 v2 m2 end.
  Proof.
    intros HD [Hd1 Hd2] Hb Hsm HB Hroom HS255 Hinv Hcnt E. assert (Hlen : N.of_nat (length k) < 2 ^ 64) by (unfold small in Hsm; lia).
    destruct Hinv as (π & l & v & b1 & loc1 & Hb1 & R1 & _ & Hx & Hl & Hcmp & [pre Epre] & Hsp & _).
    unfold update_body_v in E.
    pose proof (mr_store _ _ _ _ _ _ _ _ _ _ _ R1) as Hs. pose proof (mr_codes _ _ _ _ _ _ _ _ _ _ _ R1) as HC.
    assert (Hlab : lab !! MapP.enc e (m_codes _ _ m1) π = Some (l, v)) by apply (mr_lab _ _ _ _ _ _ _ _ _ _ _ R1 π _ Hl).
    assert (Hlk : (length key <= length k)%nat) by (rewrite Epre, app_length; clear; lia).
    assert (Hbk : bytes key). { rewrite Epre in Hb. apply Forall_app in Hb as [_ H]. exact H. }
    destruct (so_compare _ _ _ _ _ _ _ _ _ _ HS _ _ _ _ _ _ x key l v Hs Hx Hlab Hcmp) as [Heq Hne].
        destruct key as [|c' key'].
    { apply bind_inv in E as (r0 & _ & E). injection E as <-. exact Hcnt. }
    set (key := c' :: key') in *. destruct (decide (key = l)) as [El|El].
    { destruct (Heq El) as (p & i & E' & Hp). rewrite E', bind_ret in E. injection E as <-. exact Hcnt. }
    rewrite (Hne El), bind_ret in E. cbv zeta in E.
    destruct (compat_split key l c' key' Hcmp eq_refl El) as (a & c0 & d & r0 & l' & Ek & Ell & Hcd & Ha & Hr).
    rewrite <- Ha in E. rewrite (advance_split a r0 c0 key Ek) in E.
    pose proof (mr_lam _ _ _ _ _ _ _ _ _ _ _ R1) as Hlam. rewrite Hlam in E.
    assert (Hlen3 : (length key = length a + 1 + length r0)%nat) by (rewrite Ek, app_length; simpl; clear; lia).
    assert (Hc256 : c0 < 256). { rewrite Ek in Hbk. apply Forall_app in Hbk as [_ Hbk]. apply Forall_cons_1 in Hbk as [H _]. exact H. }
    assert (HcK : c0 ∈ k). { rewrite Epre, Ek. apply elem_of_app. right. apply elem_of_app. right. left. }
    destruct (mrep_slots _ _ _ _ _ _ _ _ _ _ _ R1) as [HF1 HF2].
    assert (Hfit : forall i, N.of_nat i <= N.of_nat (length a) / 2 ^ e -> CountP.fits e D i π).
    { intros i. apply (fits_split e D π l v a d l' i Hl Ell). }
    apply bind_inv in E as ([[[[x2 m2] t2] n2] c2] & Est & E).
    unfold grew in Hcnt. rewrite (so_size _ _ _ _ _ _ _ _ _ _ HS _ _ _ _ _ Hs) in Hcnt.
    destruct (steps_grow b1 _ _ loc1 lab _ x (N.of_nat (length a)) (all_slots e (paths TO NO e m1) D) x2 m2 t2 n2 c2 Hs Hx)
      as (-> & b2 & loc2 & Hb2 & Hs2 & Hx2 & Hnew2 & Hold2 & Hk2' & Hc2); [| | | |exact Est|].
    { apply (MapP.nat_lt_64 e He k); [exact Hlen|clear -Hlen3 Hlk; lia]. }
    { exact HF1. }
    { intros i Hi. apply (all_slots_in e (paths TO NO e m1) D i π (Hfit i Hi)). }
    { clear -Hroom HF2; lia. }
    fold (esteps e (length a)) in Hx2.
    pose proof (mrep_steps TO NO e srep m1 S D M b1 loc1 lab π b2 loc2 t2 n2 R1 Hs2) as R2.
    specialize (R2 ltac:(intros q Hq; destruct (Hnew2 q Hq) as [H|(i & Hi & H)]; [left; exact H|right; exists i; split; [apply Hfit, Hi|exact H]])).
    assert (Hleaf : forall m3 S3 codes num, mrep m3 S3 D M b2 loc2 lab -> c0 ∈ S3 ->
      (forall ρ, is_Some (D !! ρ) -> MapP.enc e codes ρ = MapP.enc e (m_codes _ _ m1) ρ) ->
      codes = m_codes _ _ m3 ->
      (let* symb := make_symb dbg codes c0 (N.of_nat (length a) mod 2 ^ e) in
       let* r1 := add_leaf TO NO x2 symb (advance (c0 :: r0) 1) t2 n2 in
       let '(p, node_id, t, n) := r1 in
       match p with
       | Some p =>
           Ret (inr (UPtr (Some p), mkMap TO NO (m_ready _ _ m1) (2 ^ e) t n codes num (add64 (m_size _ _ m1) 1), mkVisits (v_labels vv + 1) (v_edges vv + 1) (v_steps vv + c2)))
       | None => Ret (inl (mkMap TO NO (m_ready _ _ m1) (2 ^ e) t n codes num (m_size _ _ m1), node_id, advance (c0 :: r0) 1, mkVisits (v_labels vv + 1) (v_edges vv + 1) (v_steps vv + c2)))
       end) = Ret r ->
      match r with inl (m2, _, _, v2) => grew n0 v2 m2 | inr (_, m2, v2) => grew n0 v2 m2 end).
    { clear E. intros m3 S3 codes num R3 HcS Henc -> E.
      pose proof (mr_codes _ _ _ _ _ _ _ _ _ _ _ R3) as HC3.
      rewrite (make_symb_ok e _ _ S3 HC3 dbg (length a) c0 HcS He), bind_ret in E. change (advance (c0 :: r0) 1) with r0 in E.
      assert (Ep : esym e (m_codes _ _ m3) (length a) c0 :: replicate (esteps e (length a)) 255 ++ MapP.enc e (m_codes _ _ m1) π =
        MapP.enc e (m_codes _ _ m3) ((length a, c0) :: π)).
      { simpl. rewrite (Henc π) by eauto. reflexivity. }
      apply bind_inv in E as ([[[o x4] t4] n4] & El4 & E).
      assert (Hroom2 : N.of_nat (size loc2) + 1 < l_max L).
      { pose proof (mrep_count _ _ _ _ _ _ _ _ _ _ _ R3) as Hc3. clear -Hroom Hc3; lia. }
      pose proof (fun H1 H2 H3 H4 => wpx_of_ret _ _ _ _ (so_leaf _ _ _ _ _ _ _ _ _ _ HS b2 t2 n2 loc2 lab _ x2
        (esym e (m_codes _ _ m3) (length a) c0) r0 Hs2 Hx2 H1 H2 H3 H4 Hroom2) El4) as H.
      destruct H as (b4 & loc4 & Hb4 & Hx4 & _ & Hm4).
      - apply (esym_lt e _ _ S3 HC3 _ c0 HcS He).
      - intros HBt E0. apply (HB HBt). rewrite Ep in E0. destruct π as [|[mm cc] π0].
        + simpl in E0. injection E0 as E1' E2. apply app_nil in E2 as [E2 _].
          assert (Ec : vnth (m_codes _ _ m3) c0 = 0). { unfold esym in E1'. clear -E1'; lia. }
          destruct (co_0 _ _ _ HC3) as [H0S H0c].
          assert (c0 = 0) as ->. { apply (co_inj _ _ _ HC3 c0 0); [exact HcS|exact H0S|]. rewrite Ec, H0c. reflexivity. }
          assert (Em0 : length a = 0%nat).
          { destruct (esteps e (length a)) as [|j] eqn:Est'; [|discriminate].
            unfold esteps in Est'. unfold esym in E1'.
            pose proof (N.div_mod (N.of_nat (length a)) (2 ^ e)) as Hdm. pose proof (lam_pos e).
            assert (N.of_nat (length a) mod 2 ^ e = 0) by (clear -E1'; lia).
            assert (N.of_nat (length a) / 2 ^ e = 0) by (clear -Est'; lia).
            rewrite H0, H1 in Hdm. specialize (Hdm ltac:(clear -H; lia)). clear -Hdm; lia. }
          destruct a; [|discriminate]. destruct Hr as [[_ ->]|[H _]]; [|congruence].
          simpl in Hsp. rewrite <- Hsp. exact Ek.
        + exfalso. apply (f_equal length) in E0. simpl in E0. rewrite app_length in E0. simpl in E0. clear -E0; lia.
      - destruct Hr as [[_ ->]|[_ H]]; [left; reflexivity|right; exact H].
      - unfold small in *. clear -Hsm Hlk Hlen3; lia.
      - rewrite Ep in Hm4. destruct (loc2 !! MapP.enc e (m_codes _ _ m3) ((length a, c0) :: π)) as [y|] eqn:Ey.
        + destruct Hm4 as (-> & Hs4 & Hd4). injection E as <-. unfold grew. cbn [m_trie v_edges v_steps].
          rewrite (so_size _ _ _ _ _ _ _ _ _ _ HS _ _ _ _ _ Hs4), <- size_dom, Hd4, size_dom. clear -Hc2 Hcnt; lia.
        + destruct Hm4 as (pt & -> & _ & Hd4 & Hs4). injection E as <-. unfold grew. cbn [m_trie v_edges v_steps].
          rewrite (so_size _ _ _ _ _ _ _ _ _ _ HS _ _ _ _ _ Hs4).
          pose proof (size_le_dom loc2 loc4 _ Hd4) as H4. clear -Hc2 Hcnt H4; lia. }
    cbn [deref] in E. rewrite bind_ret in E.
    rewrite vget_ok in E by (rewrite (co_len _ _ _ HC); exact Hc256). rewrite bind_ret in E.
    rewrite (codes_ok_255 _ _ S c0 HC Hc256) in E. destruct (bool_decide_reflect (c0 ∈ S)) as [HcS|HcS]; cbn [negb] in E.
    - rewrite bind_ret in E. apply (Hleaf _ S (m_codes _ _ m1) (m_num_codes _ _ m1) R2 HcS (fun _ _ => eq_refl) eq_refl). exact E.
    - rewrite vset_ok in E by (rewrite (co_len _ _ _ HC); exact Hc256). rewrite !bind_ret in E.
      assert (Hnum : m_num_codes _ _ m1 < 255).
      { destruct HS255 as [H|H]; [|destruct (HcS (H c0 HcK))]. pose proof (co_num _ _ _ HC) as Hn. rewrite Hn. clear -H; lia. }
      destruct (mrep_code TO NO L mf e B stable srep sfresh npt HS He _ S D M b2 loc2 lab c0 R2 Hc256 HcS Hnum) as [R3 _].
      destruct (N.eqb_spec (m_num_codes TO NO m1 + 1) 255) as [E255|E255].
      + injection E as <-. unfold grew. cbn [m_trie v_edges v_steps].
        rewrite (so_size _ _ _ _ _ _ _ _ _ _ HS _ _ _ _ _ Hs2). clear -Hc2 Hcnt; lia.
      + apply (Hleaf _ ({[ c0 ]} ∪ S) (vupd (m_codes _ _ m1) c0 (m_num_codes _ _ m1 mod 256)) (m_num_codes TO NO m1 + 1) R3); [clear; set_solver| |reflexivity|exact E].
        intros ρ Hρ. apply (MapP.enc_ext e _ S).
        { apply (dvalid_inS S D ρ HD Hρ). }
        intros dd Hdd. apply vnth_upd_ne. congruence.
  Qed.

  Lemma update_grow m S D M b loc k r m' w : minv m S D M b loc -> okey k -> bytes k -> small vs k -> (B = true -> k <> [0]) ->
    node_bound e (dom M) + 1 < l_max L -> ((size S < 255)%nat \/ forall c, c ∈ k -> c ∈ S) ->
    map_update_v dbg TO NO m k = Ret (r, m', w) ->
    t_size TO (m_trie _ _ m') <= N.max 1 (t_size TO (m_trie _ _ m) + (v_edges w + v_steps w)).
  Proof.
    intros Hi Hk Hb Hsm HB Hroom HS255 E. unfold map_update_v in E.
    apply bind_inv in E as ([] & _ & E).
    destruct Hi as [(-> & -> & -> & -> & Hf)|[lab R]].
    - destruct (so_fresh _ _ _ _ _ _ _ _ _ _ HS _ _ _ (mf_store _ _ _ _ _ _ Hf)) as [Hsz _].
      rewrite Hsz in *. rewrite N.eqb_refl in E.
      pose proof (mf_ready _ _ _ _ _ _ Hf) as Hrd. rewrite Hrd in E.
      cbn [negb] in E. rewrite bind_ret in E.
      destruct (so_first _ _ _ _ _ _ _ _ _ _ HS b _ _ k (mf_store _ _ _ _ _ _ Hf) Hsm) as (p & t' & n' & r1 & E1 & Hs & Hp).
      rewrite E1, bind_ret in E. injection E as _ <- <-. cbn [m_trie].
      rewrite (so_size _ _ _ _ _ _ _ _ _ _ HS _ _ _ _ _ Hs), map_size_singleton. clear; lia.
    - pose proof (mr_D _ _ _ _ _ _ _ _ _ _ _ R) as HD. pose proof (mr_dict _ _ _ _ _ _ _ _ _ _ _ R) as Hd.
      pose proof (mr_store _ _ _ _ _ _ _ _ _ _ _ R) as Hs0.
      destruct (mr_ne _ _ _ _ _ _ _ _ _ _ _ R) as [[l0 v0] Hl0].
      destruct (so_root _ _ _ _ _ _ _ _ _ _ HS _ _ _ _ _ Hs0) as (root & Er & Hroot).
      pose proof (so_size _ _ _ _ _ _ _ _ _ _ HS _ _ _ _ _ Hs0) as Hsz.
      set (n0 := t_size TO (m_trie _ _ m)) in *.
      rewrite (proj2 (N.eqb_neq n0 0)) in E.
      2:{ rewrite Hsz. intros E0. assert (size loc = 0%nat) as Ez by (clear -E0; lia). apply map_size_empty_inv in Ez.
          rewrite Ez, lookup_empty in Hroot. discriminate. }
      rewrite Er, bind_ret in E.
      cut (grew n0 w m'); [unfold grew; clear; lia|].
      apply (loop_ret _ (fun '(m1, x, key, v1) => upd_inv m S D M b loc lab k (m1, x, key) /\ grew n0 v1 m1)
        (fun '(_, m2, v2) => grew n0 v2 m2)) in E; [exact E| |].
      + split; [|unfold grew; cbn [v_edges v_steps]; fold n0; clear; lia].
        exists [], l0, v0, b, loc. split; [clear; lia|]. split; [exact R|]. split; [apply kept_refl|].
        split; [exact Hroot|]. split; [exact Hl0|]. split.
        { right. split; [exact Hk|]. apply (dv_root _ _ HD l0 v0 Hl0). }
        split; [exists []; reflexivity|]. split; [reflexivity|]. auto.
      + clear E. intros [[[m1 x] key] v1] [Hinv Hc1].
        destruct (update_body_v dbg TO NO (m1, x, key, v1)) as [y| | | |] eqn:Eb; try exact I.
        pose proof (body_grow _ S D M b loc lab k m1 n0 x key v1 y HD Hd Hb Hsm HB Hroom HS255 Hinv Hc1 Eb) as Hy.
        pose proof (body_same dbg TO NO m1 x key v1) as E1. rewrite Eb, bind_ret in E1.
        pose proof (wpx_of_ret _ _ _ _ (update_body_ok dbg TO NO L mf e B stable srep sfresh npt HS He _ S D M b loc lab k HD Hd Hb Hsm HB Hroom HS255 _ Hinv) E1) as Hn.
        destruct y as [[[[m2 x2] k2] v2]|[[r2 m2] v2]]; [|exact Hy]. cbn beta iota in Hn. split; [apply Hn|exact Hy].
  Qed.
End grow.

(** One more update, for every instantiation. *)
Lemma i_update_grow dbg vs i cb e ops m k r m' w : valid_inst i -> i_supported vs i cb e (updated ops ++ [k]) ->
  Forall (valid_op vs) ops -> i_no_trap dbg i (updated ops ++ [k]) -> i_reaches dbg vs i cb e ops m ->
  valid_key k -> N.of_nat (length k) + N.of_nat vs < 2 ^ 64 -> i_update_v dbg vs i m k = Ret (r, m', w) ->
  i_nodes dbg vs i m' <= N.max 1 (i_nodes dbg vs i m + (v_edges w + v_steps w)).
Proof.
  intros Hvi Hsup Hv Hnt (m0 & xs & Hnew & Hrun) Hk Hsm E0. set (ks := updated ops ++ [k]) in *.
  pose proof Hsup as (Hvs & Hcb' & Hn & HA). destruct (i_supported_limit _ _ _ _ _ Hvi Hsup) as (He & Hcb & Hroom & _).
  pose proof (proj1 Hvi) as Hmf. destruct (i_no_trap_app dbg i _ _ Hnt) as [Hnt1 Hnt2].
  destruct (inst_pack dbg vs i e (N.max 16 cb) (nodes_for e ks + 2) Hvi Hvs ltac:(clear; lia) ltac:(clear -Hroom; lia)) as [K _].
  pose proof (ip_ok _ _ _ _ _ _ K) as PK.
  destruct (map_new_ok _ _ _ _ _ _ _ _ _ _ PK He cb Hcb) as (m1 & E & Hf); [reflexivity|].
  assert (m1 = m0) as -> by (unfold i_new in Hnew; congruence).
  apply (mfresh_minv _ _ e (ip_srep _ _ _ _ _ _ K) (ip_sfresh _ _ _ _ _ _ K)) in Hf.
  destruct (alphabet_app (updated ops) [k]) as [Ha1 Ha2]. fold ks in Ha1, Ha2.
  pose proof (nodes_for_app e (updated ops) [k]) as Hle. fold ks in Hle.
  pose proof (run_ok dbg _ _ _ _ e _ _ _ _ _ PK He Hmf ops m0 {[ 0 ]} ∅ ∅ _ ∅ (alphabet (updated ops)) Hf) as Hok.
  rewrite i_vs in Hok. specialize (Hok Hv (i_no_trap_forall _ _ _ Hnt1) ltac:(unfold alphabet; set_solver) ltac:(reflexivity)).
  specialize (Hok ltac:(etransitivity; [apply subseteq_size, Ha1|exact HA])).
  cbn [i_lim l_max] in Hok. rewrite dom_empty_L, union_empty_l_L in Hok. specialize (Hok ltac:(unfold nodes_for in Hle |- *; clear -Hle; lia)).
  unfold i_run in Hrun. rewrite Hrun in Hok. destruct Hok as (_ & S & D & b & loc & Hb & Hi & HSA).
  change (snd (spec_run vs ∅ ops)) with (final vs ops) in Hi.
  destruct (valid_okey k Hk) as [Hok2 Hby].
  unfold i_nodes. unfold i_update_v in E0.
  refine (update_grow dbg _ _ _ _ e _ _ _ _ _ PK He Hmf m S D (final vs ops) b loc k r m' w Hi Hok2 Hby _ _ _ _ E0).
  - unfold small. rewrite i_vs. exact Hsm.
  - intros Htr ->. apply (Hnt2 Htr). left. reflexivity.
  - change (node_bound e (dom (final vs ops)) + 1 < l_max (i_lim i (N.max 16 cb) (nodes_for e ks + 2))).
    cbn [i_lim l_max]. rewrite dom_final. unfold nodes_for in Hle |- *. clear -Hle. lia.
  - left. assert (Hs : (size S <= 254)%nat).
    { etransitivity; [|exact HA]. apply subseteq_size. etransitivity; [exact HSA|exact Ha1]. }
    clear -Hs. lia.
Qed.
