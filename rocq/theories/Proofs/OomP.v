(** update with failing allocations: a failure in the hash table of the trie leaves the dictionary as it was. *)
From Verif.Model Require Export Oom.
From Verif.Proofs Require Export InstP.
Local Open Scope N_scope.

Section oom.
  Context (dbg : bool) (TO : trie_ops) (NO : nlm_ops) (L : lims) (mf e : N) (B : bool) {Q : Type} (stable : nT NO -> N -> Q -> Prop).
  Context (srep : N -> tT TO -> nT NO -> locmap -> labmap -> Prop) (sfresh : N -> tT TO -> nT NO -> Prop).
  Context (npt : nT NO -> N -> ptr -> Prop).
  Hypothesis HS : store_ok TO NO L mf (8 + e) B stable srep sfresh npt.
  Hypothesis He : e <= 39.
  Hypothesis Hmf : 1 <= mf <= 99.
  Context (grow : tT TO -> outcome (tT TO)) (label_fail : nT NO -> N -> list N -> outcome (nT NO)).
  Definition grow_ok : Prop := forall b t n loc lab, srep b t n loc lab -> N.of_nat (size loc) + 1 < l_max L ->
    wpx L (grow t) (fun t' => exists b', b <= b' /\ srep b' t' n loc lab).
  Hypothesis Hgrow : grow_ok.
  Notation vs := (n_vs NO).
  Notation map_st := (map_st TO NO).
  Notation mrep := (mrep TO NO e srep).
  Notation mpt := (mpt TO NO e npt).
  Notation minv := (minv TO NO e srep sfresh).
  Notation upd_inv := (upd_inv TO NO e stable srep).
  Notation kept := (kept TO NO e stable).
  Notation upd_post := (upd_post TO NO e stable srep npt).
  Notation fail_in := (fail_in dbg TO NO grow label_fail).
  Notation oom_body := (oom_body dbg TO NO grow label_fail).
  Notation update_oom := (update_oom dbg TO NO grow label_fail).
  Notation oom_step := (oom_step dbg TO NO grow label_fail).
  Notation oom_run := (oom_run dbg TO NO grow label_fail).

  Lemma grown_or_ok g b t n loc lab : srep b t n loc lab -> N.of_nat (size loc) + 1 < l_max L ->
    wpx L (grown_or TO grow g t) (fun t' => exists b', b <= b' /\ srep b' t' n loc lab).
  Proof.
    intros Hs Hr. destruct g; [apply (Hgrow b t n loc lab Hs Hr)|]. apply wpx_ret. exists b. split; [lia|exact Hs].
  Qed.

  Lemma steps_until_ok j : forall (b : N) (t : tT TO) (n : nT NO) (loc : locmap) (lab : labmap) (p : list N) (x mtch : N)
      (F : gset (list N)), srep b t n loc lab -> loc !! p = Some x -> mtch < 2 ^ 64 ->
    dom loc ⊆ F -> (forall i, N.of_nat i <= mtch / 2 ^ e -> replicate i 255 ++ p ∈ F) ->
    N.of_nat (size F) + 1 < l_max L ->
    wpx L (steps_until TO NO j (2 ^ e) t n x mtch) (fun r => match r with
      | None => True
      | Some (x', t', n') => exists b' loc', b <= b' /\ srep b' t' n' loc' lab /\ dom loc' ⊆ F /\
        (forall q, is_Some (loc' !! q) -> is_Some (loc !! q) \/
           exists i, N.of_nat i <= mtch / 2 ^ e /\ q = replicate i 255 ++ p) /\
        dom loc ⊆ dom loc' /\ keeps NO stable n n' loc loc'
      end).
  Proof.
    induction j as [|j IH]; intros b t n loc lab p x mtch F Hs Hp Hm HF1 HF2 Hroom.
    - cbn [steps_until]. destruct (2 ^ e <=? mtch); apply wpx_ret; [|exact I].
      exists b, loc. split; [lia|]. split; [exact Hs|]. split; [exact HF1|]. split; [auto|]. split; [reflexivity|apply keeps_refl].
    - cbn [steps_until]. destruct (N.leb_spec (2 ^ e) mtch) as [Hge|Hlt]; [|apply wpx_ret; exact I].
      pose proof (lam_pos e) as Hlam.
      destruct (div_sub_pow mtch (2 ^ e) ltac:(lia) Hge) as (E1 & E2 & E3).
      assert (Hsz : N.of_nat (size loc) <= N.of_nat (size F)).
      { rewrite <- size_dom. apply of_nat_mono. apply subseteq_size, HF1. }
      apply wpx_bind. eapply wpx_mono.
      { apply (so_step _ _ _ _ _ _ _ _ _ _ HS b t n loc lab p x Hs Hp (step_lt e He)). lia. }
      intros [[y2 t2] n2] (b2 & loc2 & Hb2 & Hs2 & Hy2 & Hd2 & Hk2).
      assert (Esub : sub64 mtch (2 ^ e) = mtch - 2 ^ e).
      { unfold sub64, UINT64_MAX. rewrite w64_mod. change (18446744073709551615 + 1) with (2 ^ 64).
        pose proof (lam_64 e He). replace (mtch + (2 ^ 64 - 2 ^ e)) with ((mtch - 2 ^ e) + 1 * 2 ^ 64) by lia.
        rewrite N.mod_add by discriminate. apply N.mod_small. lia. }
      rewrite Esub.
      assert (Hshift : forall i, replicate i 255 ++ step_symb :: p = replicate (S i) 255 ++ p).
      { intros i. change (step_symb :: p) with (255 :: p). rewrite <- replicate_snoc. reflexivity. }
      assert (Hin : forall i, N.of_nat i <= (mtch - 2 ^ e) / 2 ^ e -> N.of_nat (S i) <= mtch / 2 ^ e) by (intros; lia).
      eapply wpx_mono.
      { apply (IH b2 t2 n2 loc2 lab (step_symb :: p) y2 (mtch - 2 ^ e) F Hs2 Hy2); [lia| | |exact Hroom].
        - rewrite Hd2. apply union_subseteq. split; [|exact HF1]. apply singleton_subseteq_l.
          apply (HF2 1%nat). lia.
        - intros i Hi. rewrite Hshift. apply HF2, Hin, Hi. }
      intros [[[x' t'] n']|]; [|auto]. intros (b' & loc' & Hb' & Hs' & HF' & Hnew & Hdd & Hk').
      exists b', loc'. split; [lia|]. split; [exact Hs'|]. split; [exact HF'|]. split; [|split].
      + intros q Hq. apply Hnew in Hq as [Hq|(i & Hi & ->)].
        * apply elem_of_dom in Hq. rewrite Hd2 in Hq. apply elem_of_union in Hq as [Hq|Hq].
          -- apply elem_of_singleton in Hq as ->. right. exists 1%nat. split; [lia|reflexivity].
          -- left. apply elem_of_dom, Hq.
        * right. exists (S i). split; [apply Hin, Hi|apply Hshift].
      + etransitivity; [|exact Hdd]. rewrite Hd2. clear. set_solver.
      + eapply keeps_trans; eassumption.
  Qed.

  (** What a failed update leaves. *)
  Definition left_post (m : map_st) (S : gset N) (D : dmap) (M : gmap (list N) (list N)) (b : N) (loc : locmap)
      (lab : labmap) (k : list N) (m' : map_st) : Prop :=
    exists S' b' loc', b <= b' /\ S ⊆ S' /\ S' ⊆ S ∪ list_to_set k /\
      kept m D loc m' D loc' /\
      mrep m' S' D M b' loc' lab.

  Lemma fail_in_ok s m S D M b loc lab k : in_table s -> dvalid S D -> dict_of D M -> bytes k -> small vs k ->
    node_bound e (dom M) + 1 < l_max L -> ((size S < 255)%nat \/ forall c, c ∈ k -> c ∈ S) ->
    forall st, upd_inv m S D M b loc lab k st ->
    wpx L (fail_in s st) (fun r => match r with None => True | Some m' => left_post m S D M b loc lab k m' end).
  Proof.
    intros Hs0 HD [Hd1 Hd2] Hb Hsm Hroom HS255. assert (Hlen : N.of_nat (length k) < 2 ^ 64) by (unfold small in Hsm; lia).
    intros [[m1 x] key] (π & l & v & b1 & loc1 & Hb1 & R1 & Hpt1 & Hx & Hl & Hcmp & [pre Epre] & Hsp & Hreach).
    unfold fail_in, Oom.fail_in.
    pose proof (mr_store _ _ _ _ _ _ _ _ _ _ _ R1) as Hs. pose proof (mr_codes _ _ _ _ _ _ _ _ _ _ _ R1) as HC.
    assert (Hlab : lab !! MapP.enc e (m_codes _ _ m1) π = Some (l, v)) by apply (mr_lab _ _ _ _ _ _ _ _ _ _ _ R1 π _ Hl).
    assert (Hlk : (length key <= length k)%nat) by (rewrite Epre, app_length; clear; lia).
    assert (Hbk : bytes key). { rewrite Epre in Hb. apply Forall_app in Hb as [_ H]. exact H. }
    destruct (so_compare _ _ _ _ _ _ _ _ _ _ HS _ _ _ _ _ _ x key l v Hs Hx Hlab Hcmp) as [Heq Hne].
    destruct key as [|c' key']; [apply wpx_ret; exact I|]. set (key := c' :: key') in *.
    destruct (decide (key = l)) as [El|El].
    { destruct (Heq El) as (p & i & E & Hp). rewrite E, bind_ret. apply wpx_ret. exact I. }
    rewrite (Hne El), bind_ret.
    destruct (compat_split key l c' key' Hcmp eq_refl El) as (a & c & d & r & l' & Ek & Ell & Hcd & Ha & Hr).
    rewrite <- Ha. rewrite (advance_split a r c key Ek). rewrite (mr_lam _ _ _ _ _ _ _ _ _ _ _ R1).
    assert (Hlen3 : (length key = length a + 1 + length r)%nat) by (rewrite Ek, app_length; simpl; clear; lia).
    assert (Hc256 : c < 256). { rewrite Ek in Hbk. apply Forall_app in Hbk as [_ Hbk]. apply Forall_cons_1 in Hbk as [H _]. exact H. }
    assert (HcK : c ∈ k). { rewrite Epre, Ek. apply elem_of_app. right. apply elem_of_app. right. left. }
    destruct (mrep_slots _ _ _ _ _ _ _ _ _ _ _ R1) as [HF1 HF2].
    assert (Hfit : forall i, N.of_nat i <= N.of_nat (length a) / 2 ^ e -> CountP.fits e D i π).
    { intros i. apply (fits_split e D π l v a d l' i Hl Ell). }
    assert (HF3 : forall i, N.of_nat i <= N.of_nat (length a) / 2 ^ e ->
       replicate i 255 ++ MapP.enc e (m_codes _ _ m1) π ∈ all_slots e (paths TO NO e m1) D).
    { intros i Hi. apply (all_slots_in e (paths TO NO e m1) D i π (Hfit i Hi)). }
    (* the map left after a failure in [add_child] *)
    assert (Hleft : forall m3 S3 g b3 loc3 t3 n3, mrep m3 S3 D M b3 loc3 lab -> m_trie _ _ m3 = t3 -> m_nlm _ _ m3 = n3 ->
        b <= b3 -> S ⊆ S3 -> S3 ⊆ S ∪ list_to_set k ->
        kept m D loc m3 D loc3 ->
        wpx L (let* t := grown_or TO grow g t3 in Ret (Some (left_with TO NO m3 t n3)))
          (fun r => match r with None => True | Some m' => left_post m S D M b loc lab k m' end)).
    { intros m3 S3 g b3 loc3 t3 n3 R3 <- <- Hb3 HS3 HS3' Hpt3.
      apply wpx_bind. eapply wpx_mono.
      { apply (grown_or_ok g b3 _ (m_nlm _ _ m3) loc3 lab (mr_store _ _ _ _ _ _ _ _ _ _ _ R3)).
        pose proof (mrep_count _ _ _ _ _ _ _ _ _ _ _ R3). lia. }
      intros t4 (b4 & Hb4 & Hs4). apply wpx_ret. exists S3, b4, loc3. split; [lia|]. split; [exact HS3|]. split; [exact HS3'|].
      split.
      - eapply kept_trans; [exact Hpt3|].
        apply (mpt_keeps TO NO e stable m3 D loc3 t4 (m_nlm _ _ m3) loc3 _ _); [apply keeps_refl|reflexivity].
      - apply (mrep_steps TO NO e srep m3 S3 D M b3 loc3 lab π b4 loc3 t4 (m_nlm _ _ m3) R3 Hs4). auto. }
    assert (Hlen64 : N.of_nat (length a) < 2 ^ 64) by (apply (MapP.nat_lt_64 e He k); [exact Hlen|clear -Hlen3 Hlk; lia]).
    destruct s as [|i0 j g|i0 g|? ?|?|?]; try contradiction Hs0; [apply wpx_ret; exact I| |].
    - apply wpx_bind. eapply wpx_mono.
      { apply (steps_until_ok j _ _ _ _ _ _ x (N.of_nat (length a)) (all_slots e (paths TO NO e m1) D) Hs Hx Hlen64 HF1 HF3).
        clear -Hroom HF2; lia. }
      intros [[[x2 t2] n2]|]; [|intros _; apply wpx_ret; exact I].
      intros (b2 & loc2 & Hb2 & Hs2 & _ & Hnew2 & Hdd2 & Hk2).
      pose proof (mrep_steps TO NO e srep m1 S D M b1 loc1 lab π b2 loc2 t2 n2 R1 Hs2) as R2.
      specialize (R2 ltac:(intros q Hq; destruct (Hnew2 q Hq) as [H|(i & Hi & H)]; [left; exact H|right; exists i; split; [apply Hfit, Hi|exact H]])).
      apply (Hleft (left_with TO NO m1 t2 n2) S g b2 loc2 t2 n2 R2 eq_refl eq_refl); [lia|set_solver|set_solver|].
      eapply kept_trans; [exact Hpt1|]. apply (mpt_keeps TO NO e stable m1 D loc1 t2 n2 loc2 _ _ Hk2 Hdd2).
    - apply wpx_bind. eapply wpx_mono.
      { apply (update_steps_ok TO NO L mf e B stable srep sfresh npt HS He _ _ _ _ _ _ x (N.of_nat (length a))
          (all_slots e (paths TO NO e m1) D) Hs Hx Hlen64 HF1 HF3). clear -Hroom HF2; lia. }
      intros [[[x2 m2] t2] n2] (-> & b2 & loc2 & Hb2 & Hs2 & Hx2 & Hnew2 & Hold2 & Hk2').
      pose proof (mrep_steps TO NO e srep m1 S D M b1 loc1 lab π b2 loc2 t2 n2 R1 Hs2) as R2.
      specialize (R2 ltac:(intros q Hq; destruct (Hnew2 q Hq) as [H|(i & Hi & H)]; [left; exact H|right; exists i; split; [apply Hfit, Hi|exact H]])).
      assert (Hpt2 : kept m D loc (left_with TO NO m1 t2 n2) D loc2).
      { eapply kept_trans; [exact Hpt1|]. apply (mpt_keeps TO NO e stable m1 D loc1 t2 n2 loc2 _ _ Hk2').
        intros q Hq. apply elem_of_dom, Hold2, elem_of_dom, Hq. }
      cbn [deref]. rewrite bind_ret.
      rewrite vget_ok by (rewrite (co_len _ _ _ HC); exact Hc256). rewrite bind_ret.
      rewrite (codes_ok_255 _ _ S c HC Hc256).
      assert (Hck : {[ c ]} ∪ S ⊆ S ∪ list_to_set k).
      { assert (c ∈ (list_to_set k : gset N)) by (apply elem_of_list_to_set; exact HcK). clear -H; set_solver. }
      destruct (bool_decide_reflect (c ∈ S)) as [HcS|HcS]; cbn [negb].
      + rewrite bind_ret. cbv zeta.
        apply (Hleft (mkMap TO NO (m_ready _ _ m1) (2 ^ e) t2 n2 (m_codes _ _ m1) (m_num_codes _ _ m1) (m_size _ _ m1))
          S g b2 loc2 t2 n2); try reflexivity; try lia; try (clear; set_solver).
        * rewrite <- (mr_lam _ _ _ _ _ _ _ _ _ _ _ R1). exact R2.
        * rewrite <- (mr_lam _ _ _ _ _ _ _ _ _ _ _ R1). exact Hpt2.
      + rewrite vset_ok by (rewrite (co_len _ _ _ HC); exact Hc256). rewrite !bind_ret.
        assert (Hnum : m_num_codes _ _ m1 < 255).
        { destruct HS255 as [H|H]; [|destruct (HcS (H c HcK))]. rewrite (co_num _ _ _ HC). clear -H; lia. }
        destruct (mrep_code TO NO L mf e B stable srep sfresh npt HS He _ S D M b2 loc2 lab c R2 Hc256 HcS Hnum) as [R3 Hpt3].
        destruct (N.eqb_spec (m_num_codes TO NO m1 + 1) 255) as [E255|E255]; [apply wpx_ret; exact I|].
        cbv zeta.
        apply (Hleft (mkMap TO NO (m_ready _ _ m1) (2 ^ e) t2 n2 (vupd (m_codes TO NO m1) c (m_num_codes TO NO m1 mod 256))
            (m_num_codes _ _ m1 + 1) (m_size _ _ m1)) ({[ c ]} ∪ S) g b2 loc2 t2 n2);
          try reflexivity; try lia; try exact Hck; try (clear; set_solver).
        * rewrite <- (mr_lam _ _ _ _ _ _ _ _ _ _ _ R1). exact R3.
        * rewrite <- (mr_lam _ _ _ _ _ _ _ _ _ _ _ R1). eapply kept_trans; [exact Hpt2|split; [clear; lia|apply Hpt3]].
  Qed.

  (** An update of a map that holds keys. *)
  Lemma update_oom_ok f m S D M b loc lab k : match f with Some s => in_table s | None => True end ->
    mrep m S D M b loc lab -> okey k -> bytes k -> small vs k -> (B = true -> k <> [0]) ->
    node_bound e (dom M) + 1 < l_max L -> ((size S < 255)%nat \/ forall c, c ∈ k -> c ∈ S) ->
    wpx L (update_oom f m k) (fun '(r, m') => match r with
      | Fine r => upd_post m S D M b loc k r m'
      | NoMem => f <> None /\ left_post m S D M b loc lab k m' end).
  Proof.
    intros Hf R Hk Hb Hsm HB Hroom HS255. assert (Hlen : N.of_nat (length k) < 2 ^ 64) by (unfold small in Hsm; lia).
    pose proof (mr_D _ _ _ _ _ _ _ _ _ _ _ R) as HD. pose proof (mr_dict _ _ _ _ _ _ _ _ _ _ _ R) as Hd.
    pose proof (mr_store _ _ _ _ _ _ _ _ _ _ _ R) as Hs0.
    unfold update_oom, Oom.update_oom. rewrite (check_key_ok k Hk), bind_ret.
    rewrite (so_size _ _ _ _ _ _ _ _ _ _ HS _ _ _ _ _ Hs0).
    destruct (mr_ne _ _ _ _ _ _ _ _ _ _ _ R) as [[l0 v0] Hl0].
    destruct (so_root _ _ _ _ _ _ _ _ _ _ HS _ _ _ _ _ Hs0) as (root & Er & Hroot).
    rewrite (proj2 (N.eqb_neq _ 0)).
    2:{ intros E. assert (size loc = 0%nat) as Ez by (clear -E; lia). apply map_size_empty_inv in Ez.
        rewrite Ez, lookup_empty in Hroot. discriminate. }
    rewrite Er, bind_ret.
    apply wpx_loop with (mu := fun '(_, (_, _, key)) => N.of_nat (length key))
      (I := fun '(g, st) => (match g with Some (_, s) => in_table s /\ f <> None | None => True end) /\ upd_inv m S D M b loc lab k st).
    - split. { destruct f; [split; [exact Hf|discriminate]|exact I]. }
      exists [], l0, v0, b, loc. split; [clear; lia|]. split; [exact R|]. split; [apply kept_refl|].
      split; [exact Hroot|]. split; [exact Hl0|]. split.
      { right. split; [exact Hk|]. apply (dv_root _ _ HD l0 v0 Hl0). }
      split; [exists []; reflexivity|]. split; [reflexivity|]. auto.
    - exact Hlen.
    - intros [g st] [Hg Hst].
      assert (Hgo : forall g', (match g' with Some (_, s) => in_table s /\ f <> None | None => True end) ->
        wpx L (let* r := update_body dbg TO NO st in
               match r with inl st => Ret (inl (g', st)) | inr (r, m) => Ret (inr (Fine r, m)) end)
          (fun x : (option (nat * site) * (map_st * N * list N)) + (oom_result * map_st) => match x with
             | inl s' => (let '(g, st) := s' in (match g with Some (_, s) => in_table s /\ f <> None | None => True end) /\ upd_inv m S D M b loc lab k st) /\
                 (let '(_, (_, _, key)) := s' in N.of_nat (length key)) < (let '(_, (_, _, key)) := (g, st) in N.of_nat (length key))
             | inr r => let '(r, m') := r in match r with
                 | Fine r => upd_post m S D M b loc k r m'
                 | NoMem => f <> None /\ left_post m S D M b loc lab k m' end
             end)).
      { intros g' Hg'. apply wpx_bind. eapply wpx_mono.
        { apply (update_body_ok dbg TO NO L mf e B stable srep sfresh npt HS He m S D M b loc lab k HD Hd Hb Hsm HB Hroom HS255 st Hst). }
        intros [st'|[r m']] Hr; apply wpx_ret; [|exact Hr]. destruct Hr as [Hr1 Hr2]. split; [split; [exact Hg'|exact Hr1]|].
        destruct st' as [[? ?] ?], st as [[? ?] ?]. exact Hr2. }
      unfold oom_body, Oom.oom_body. destruct g as [[[|i] s]|].
      + destruct Hg as [Hg Hfn]. apply wpx_bind. eapply wpx_mono.
        { apply (fail_in_ok s m S D M b loc lab k Hg HD Hd Hb Hsm Hroom HS255 st Hst). }
        intros [m'|] Hr; [apply wpx_ret; auto|]. apply (Hgo None I).
      + apply (Hgo (Some (i, s))). exact Hg.
      + apply (Hgo None I).
  Qed.

  Lemma minv_update_oom f m S D M b loc k : match f with Some s => in_table s | None => True end ->
    minv m S D M b loc -> okey k -> bytes k -> small vs k -> (B = true -> k <> [0]) ->
    node_bound e (dom M) + 1 < l_max L -> ((size S < 255)%nat \/ forall c, c ∈ k -> c ∈ S) ->
    wpx L (update_oom f m k) (fun '(r, m') => match r with
      | Fine r => upost TO NO e stable srep sfresh npt m S D M b loc k r m'
      | NoMem => f <> None /\ exists S' b' loc', b <= b' /\ S ⊆ S' /\ S' ⊆ S ∪ list_to_set k /\
          kept m D loc m' D loc' /\ minv m' S' D M b' loc' end).
  Proof.
    intros Hf Hi Hk Hb Hsm HB Hroom HS255. pose proof Hi as [(-> & -> & -> & -> & Hfr)|[lab R]].
    - assert (E : update_oom f m k = let* r := map_update dbg TO NO m k in let '(r, m) := r in Ret (Fine r, m)).
      { unfold update_oom, Oom.update_oom. rewrite (check_key_ok k Hk), bind_ret.
        destruct (so_fresh _ _ _ _ _ _ _ _ _ _ HS _ _ _ (mf_store _ _ _ _ _ _ Hfr)) as [Hsz _]. rewrite Hsz, N.eqb_refl.
        destruct f as [[| | | | |[]]|]; try reflexivity; [|contradiction Hf].
        rewrite (mf_ready _ _ _ _ _ _ Hfr). reflexivity. }
      rewrite E. apply wpx_bind. eapply wpx_mono.
      { apply (minv_update dbg TO NO L mf e B stable srep sfresh npt HS He m {[ 0 ]} ∅ ∅ b ∅ k Hi Hk Hb Hsm HB Hroom HS255). }
      intros [r m'] Hr. apply wpx_ret. exact Hr.
    - eapply wpx_mono; [apply (update_oom_ok f m S D M b loc lab k Hf R Hk Hb Hsm HB Hroom HS255)|].
      intros [[r|] m'].
      + intros (S' & D' & b' & loc' & lab' & H1 & H2 & H3 & H5 & H6).
        exists S', D', b', loc'. split; [exact H1|]. split; [exact H2|]. split; [exact H3|].
        split; [exact H5|]. destruct r as [[p|]|x].
        * destruct H6 as (H6 & H7 & H8). split; [right; eauto|]. auto.
        * exact H6.
        * destruct H6 as (H6 & H7 & H8 & H9 & H10). split; [exact H6|]. split; [exact H7|]. split; [exact H8|].
          split; [right; eauto|exact H10].
      + intros (Hn & S' & b' & loc' & H1 & H2 & H3 & H4 & H5). split; [exact Hn|]. exists S', b', loc'.
        split; [exact H1|]. split; [exact H2|]. split; [exact H3|]. split; [exact H4|]. right. eauto.
  Qed.

  Lemma update_oom_254 f m S D M b loc k (A : gset N) : match f with Some s => in_table s | None => True end ->
    minv m S D M b loc -> valid_key k -> small vs k ->
    (B = true -> k <> [0]) -> node_bound e (dom M) + 1 < l_max L ->
    S ⊆ A -> list_to_set k ⊆ A -> (size A <= 254)%nat ->
    wpx L (update_oom f m k) (fun '(r, m') => exists S' D' b' loc', b <= b' /\ S' ⊆ A /\
      kept m D loc m' D' loc' /\
      match r with
      | Fine (UPtr (Some p)) => minv m' S' D' (<[k := default (replicate vs 0) (M !! k)]> M) b' loc' /\ mpt m' D' loc' k p
      | Fine _ => False
      | NoMem => f <> None /\ D' = D /\ minv m' S' D M b' loc'
      end).
  Proof.
    intros Hf Hi Hk Hsm HB Hroom HSA HkA HA. destruct (valid_okey k Hk) as [Hok Hb].
    assert (HSs : (size S <= size A)%nat) by (apply subseteq_size, HSA).
    eapply wpx_mono.
    { apply (minv_update_oom f m S D M b loc k Hf Hi Hok Hb Hsm HB Hroom). left. lia. }
    intros [[r|] m'].
    - intros (S' & D' & b' & loc' & H1 & H2 & H3 & H5 & H6).
      assert (HSA' : S' ⊆ A). { etransitivity; [exact H3|]. apply union_subseteq. auto. }
      assert (HSs' : (size S' <= size A)%nat) by (apply subseteq_size, HSA').
      exists S', D', b', loc'. split; [exact H1|]. split; [exact HSA'|]. split; [exact H5|].
      destruct r as [[p|]|x]; [|exact H6|destruct H6 as (_ & _ & _ & _ & _ & H6); lia].
      destruct H6 as (H6 & H7 & _). split; [|exact H7]. rewrite <- zeros_replicate. fold (zeros vs).
      destruct (M !! k) as [v|] eqn:EM; cbn [default from_option]; [|exact H6].
      unfold id. rewrite insert_id by exact EM. exact H6.
    - intros (Hn & S' & b' & loc' & H1 & H2 & H3 & H4 & H5). exists S', D, b', loc'.
      split; [exact H1|]. split; [etransitivity; [exact H3|]; apply union_subseteq; auto|]. auto.
  Qed.

  Lemma oom_step_ok m S D M b loc (A : gset N) o f : match f with Some s => in_table s | None => True end ->
    minv m S D M b loc ->
    valid_op vs o -> (B = true -> Forall (fun k => k <> [0]) (updated [o])) ->
    S ⊆ A -> alphabet (updated [o]) ⊆ A -> (size A <= 254)%nat ->
    node_bound e (dom M ∪ list_to_set (updated [o])) + 1 < l_max L ->
    wpx L (oom_step m (o, f)) (fun '((x, n), m') => exists S' D' M' b' loc',
      minv m' S' D' M' b' loc' /\ S' ⊆ A /\ dom M' ⊆ dom M ∪ list_to_set (updated [o]) /\
      ((exists y, x = Done y /\ spec_step vs M o = ((y, n), M')) \/
       (x = NoMemory /\ n = N.of_nat (size M) /\ M' = M /\ exists k w s, o = Update k w /\ f = Some s))).
  Proof.
    intros Hf Hi Hv HB HSA HA HA5 Hroom. destruct o as [k w|k].
    - destruct Hv as (Hk & Hsm & Hw). change (updated [Update k w]) with [k] in *.
      assert (HkA : (list_to_set k : gset N) ⊆ A). { unfold alphabet in HA. simpl in HA. rewrite app_nil_r in HA. set_solver. }
      unfold oom_step, Oom.oom_step. apply wpx_bind. eapply wpx_mono.
      { apply (update_oom_254 f m S D M b loc k A Hf Hi Hk Hsm); auto.
        - intros Hb. specialize (HB Hb). apply Forall_cons_1 in HB as [H _]. exact H.
        - revert Hroom. apply (nb_room L e). clear. set_solver. }
      intros [r m1] (S1 & D1 & b1 & loc1 & Hb1 & HS1 & _ & Hr). destruct r as [[[p|]|x]|]; try contradiction Hr.
      + destruct Hr as [Hi1 Hp1].
        destruct (minv_read TO NO L mf e B stable srep sfresh npt HS m1 S1 D1 _ b1 loc1 k p Hi1 Hp1) as (v & Hv1 & Er).
        rewrite lookup_insert in Hv1. injection Hv1 as <-. unfold map_read. rewrite Er, bind_ret.
        set (old := default (replicate vs 0) (M !! k)) in *.
        assert (Hm2 : exists m2 D2, match w with None => Ret m1 | Some w => map_write TO NO m1 p w end = Ret m2 /\
           minv m2 S1 D2 (<[k := default old w]> M) b1 loc1).
        { destruct w as [w|].
          - destruct (minv_write TO NO L mf e B stable srep sfresh npt HS m1 S1 D1 _ b1 loc1 k p w Hi1 Hp1 Hw)
              as (h & D2 & Eh & Hi2 & _).
            unfold map_write. rewrite Eh, bind_ret. eexists _, D2. split; [reflexivity|].
            rewrite insert_insert in Hi2. exact Hi2.
          - exists m1, D1. split; [reflexivity|exact Hi1]. }
        destruct Hm2 as (m2 & D2 & -> & Hi2). rewrite bind_ret. apply wpx_ret.
        assert (Hu2 : dom (<[k := default old w]> M) ⊆ dom M ∪ list_to_set [k]).
        { rewrite dom_insert_L. clear. set_solver. }
        exists S1, D2, (<[k := default old w]> M), b1, loc1. split; [exact Hi2|]. split; [exact HS1|].
        split; [exact Hu2|]. left. exists (Saw old). split; [reflexivity|].
        unfold spec_step. fold old. f_equal. f_equal. symmetry.
        apply (minv_size_small TO NO L mf e B stable srep sfresh npt HS He Hmf m2 _ _ _ _ _ Hi2).
        revert Hroom. apply (nb_room L e), Hu2.
      + destruct Hr as (Hn & -> & Hi1). apply wpx_ret.
        assert (Hu2 : dom M ⊆ dom M ∪ list_to_set [k]) by (clear; set_solver).
        exists S1, D, M, b1, loc1. split; [exact Hi1|]. split; [exact HS1|]. split; [exact Hu2|].
        right. split; [reflexivity|]. split.
        { apply (minv_size_small TO NO L mf e B stable srep sfresh npt HS He Hmf m1 _ _ _ _ _ Hi1).
          revert Hroom. apply (nb_room L e), Hu2. }
        split; [reflexivity|]. destruct f as [s|]; [eauto|congruence].
    - destruct Hv as (Hk & Hlen). change (updated [Find k]) with (@nil (list N)) in *.
      assert (Hu : dom M ⊆ dom M ∪ list_to_set []) by (clear; set_solver).
      destruct (valid_okey k Hk) as [Hok Hb]. unfold oom_step, Oom.oom_step. apply wpx_bind. eapply wpx_mono.
      { apply wp_wpx. apply (minv_find dbg TO NO L mf e B stable srep sfresh npt HS He m S D M b loc k Hi Hok Hb Hlen). }
      assert (Esz : m_size _ _ m = N.of_nat (size M)).
      { apply (minv_size_small TO NO L mf e B stable srep sfresh npt HS He Hmf m _ _ _ _ _ Hi).
        revert Hroom. apply (nb_room L e), Hu. }
      intros [p|] Hr.
      + destruct Hr as [_ Hp].
        destruct (minv_read TO NO L mf e B stable srep sfresh npt HS m S D M b loc k p Hi Hp) as (v & Hv1 & Er).
        unfold map_read. rewrite Er, bind_ret. apply wpx_ret. exists S, D, M, b, loc. split; [exact Hi|].
        split; [exact HSA|]. split; [exact Hu|]. left. eexists. split; [reflexivity|].
        unfold spec_step. rewrite Hv1, Esz. reflexivity.
      + apply wpx_ret. exists S, D, M, b, loc. split; [exact Hi|].
        split; [exact HSA|]. split; [exact Hu|]. left. eexists. split; [reflexivity|].
        unfold spec_step. rewrite Hr, Esz. reflexivity.
  Qed.

  Theorem oom_run_ok ops : forall m S D M b loc (A : gset N), minv m S D M b loc ->
    Forall (fun '(o, f) => valid_op vs o /\ match f with Some s => in_table s | None => True end) ops ->
    (B = true -> Forall (fun k => k <> [0]) (updated (map fst ops))) ->
    S ⊆ A -> alphabet (updated (map fst ops)) ⊆ A -> (size A <= 254)%nat ->
    node_bound e (dom M ∪ list_to_set (updated (map fst ops))) + 1 < l_max L ->
    wpx L (oom_run m ops) (fun '(xs, m') => exists S' D' M' b' loc',
      minv m' S' D' M' b' loc' /\ oom_shows vs M ops xs M').
  Proof.
    induction ops as [|[o f] ops IH]; intros m S D M b loc A Hi Hv HB HSA HA HA4 Hroom.
    - apply wpx_ret. exists S, D, M, b, loc. split; [exact Hi|constructor].
    - apply Forall_cons_1 in Hv as [[Hv Hf] Hvs]. cbn [map fst] in *.
      assert (Eu : updated (o :: map fst ops) = updated [o] ++ updated (map fst ops)).
      { unfold updated. cbn [flat_map]. rewrite app_nil_r. reflexivity. }
      rewrite Eu in *. assert (HAo : alphabet (updated [o]) ⊆ A /\ alphabet (updated (map fst ops)) ⊆ A).
      { unfold alphabet in *. rewrite concat_app, list_to_set_app_L in HA. set_solver. }
      destruct HAo as [HA1 HA2]. rewrite list_to_set_app_L in Hroom.
      cbn [Oom.oom_run]. apply wpx_bind. eapply wpx_mono.
      { apply (oom_step_ok m S D M b loc A o f Hf Hi Hv); auto.
        - intros Hb. specialize (HB Hb). apply Forall_app in HB as [H _]. exact H.
        - revert Hroom. apply (nb_room L e). clear. set_solver. }
      intros [[x n] m1] (S1 & D1 & M1 & b1 & loc1 & Hi1 & HS1 & Hd1 & Hx).
      apply wpx_bind. eapply wpx_mono.
      { apply (IH m1 S1 D1 M1 b1 loc1 A Hi1 Hvs); auto.
        - intros Hb. specialize (HB Hb). apply Forall_app in HB as [_ H]. exact H.
        - revert Hroom. apply (nb_room L e). clear -Hd1. set_solver. }
      intros [xs m2] (S2 & D2 & M2 & b2 & loc2 & Hi2 & Hx2). apply wpx_ret.
      exists S2, D2, M2, b2, loc2. split; [exact Hi2|].
      destruct Hx as [(y & -> & Ey)|(-> & -> & -> & k & w & s & -> & ->)].
      + eapply oom_done; eassumption.
      + apply oom_failed. exact Hx2.
  Qed.

  (** *** Kept pointers *)
  Notation handles := (handles TO NO e npt).
  Notation keep_run := (keep_run dbg TO NO grow label_fail).
  Lemma hstep_ok o m hs S D M ks b loc (A : gset N) x M1 ks1 : pts_stable stable npt -> minv m S D M b loc ->
    handles m D loc hs ks ->
    hvalid_op vs o -> (B = true -> Forall (fun k => k <> [0]) (hupdated [o])) ->
    S ⊆ A -> alphabet (hupdated [o]) ⊆ A -> (size A <= 254)%nat ->
    node_bound e (dom M ∪ list_to_set (hupdated [o])) + 1 < l_max L ->
    hspec_step vs (M, ks) o = Some (x, (M1, ks1)) ->
    wpx L (hapi_step dbg TO NO m hs o) (fun '(x', m', hs') => x' = x /\
      exists S' D' b' loc', minv m' S' D' M1 b' loc' /\ S' ⊆ A /\ handles m' D' loc' hs' ks1 /\
        dom M1 ⊆ dom M ∪ list_to_set (hupdated [o])).
  Proof.
    intros Hst Hi Hh Hv HB HSA HA HA4 Hroom Eo.
    destruct o as [k|k|i|i w]; unfold hapi_step.
    - destruct Hv as [Hk Hsm]. change (hupdated [HUpdate k]) with [k] in *.
      assert (HkA : (list_to_set k : gset N) ⊆ A).
      { unfold alphabet in *. simpl in HA. rewrite app_nil_r in HA. set_solver. }
      apply wpx_bind. eapply wpx_mono.
      { apply (update_alpha dbg TO NO L mf e B stable srep sfresh npt HS He Hmf m S D M b loc k A Hi Hk Hsm); auto.
        - intros Hb. specialize (HB Hb). apply Forall_cons_1 in HB as [H _]. exact H.
        - revert Hroom. apply (nb_room L e). clear. set_solver. }
      intros [r m1] (p & S1 & D1 & b1 & loc1 & -> & Hb1 & HS1 & Hst1 & Hi1 & Hp1). apply wpx_ret.
      simpl in Eo. injection Eo as <- <- <-. split; [reflexivity|]. exists S1, D1, b1, loc1.
      assert (Ez : default (zeros vs) (M !! k) = default (replicate vs 0) (M !! k)).
      { unfold zeros. f_equal. clear. induction vs as [|n IH]; simpl; congruence. }
      rewrite Ez in Hi1. split; [exact Hi1|]. split; [exact HS1|]. split.
      + apply Forall2_app; [|constructor; [exact Hp1|constructor]].
        apply (handles_mono TO NO e npt m D loc); [|exact Hh]. exact (kept_mpt TO NO e stable npt _ _ _ _ _ _ Hst (proj1 Hst1)).
      + rewrite dom_insert_L. clear. set_solver.
    - destruct Hv as (Hk & Hlen). change (hupdated [HFind k]) with (@nil (list N)) in *.
      destruct (valid_okey k Hk) as [Hok Hb].
      assert (Hu : dom M ⊆ dom M ∪ list_to_set []) by (clear; set_solver).
      apply wpx_bind. eapply wpx_mono.
      { apply wp_wpx. apply (minv_find dbg TO NO L mf e B stable srep sfresh npt HS He m S D M b loc k Hi Hok Hb Hlen). }
      intros [p|] Hres.
      + destruct Hres as [[v Hv] Hp]. simpl in Eo. rewrite Hv in Eo. injection Eo as <- <- <-. apply wpx_ret.
        split; [reflexivity|]. exists S, D, b, loc. split; [exact Hi|]. split; [exact HSA|]. split; [|exact Hu].
        apply Forall2_app; [exact Hh|]. constructor; [exact Hp|constructor].
      + simpl in Eo. rewrite Hres in Eo. injection Eo as <- <- <-. apply wpx_ret.
        split; [reflexivity|]. exists S, D, b, loc. split; [exact Hi|]. split; [exact HSA|]. split; [|exact Hu].
        apply Forall2_app; [exact Hh|]. constructor; [exact I|constructor].
    - change (hupdated [HRead i]) with (@nil (list N)) in *. simpl in Eo.
      assert (Hu : dom M ⊆ dom M ∪ list_to_set []) by (clear; set_solver).
      destruct (ks !! i) as [[k|]|] eqn:Ek; try discriminate.
      destruct (Forall2_lookup_r _ _ _ i _ Hh Ek) as (o & Eh & Ho). destruct o as [p|]; [|destruct Ho].
      destruct (M !! k) as [v|] eqn:EM; [|discriminate]. injection Eo as <- <- <-.
      rewrite Eh. destruct (minv_read TO NO L mf e B stable srep sfresh npt HS m S D M b loc k p Hi Ho) as (v' & Hv1 & Erd).
      rewrite EM in Hv1. injection Hv1 as <-. unfold map_read. rewrite Erd, bind_ret. apply wpx_ret.
      split; [reflexivity|]. exists S, D, b, loc. auto.
    - change (hupdated [HWrite i w]) with (@nil (list N)) in *. simpl in Eo.
      destruct (ks !! i) as [[k|]|] eqn:Ek; try discriminate.
      destruct (Forall2_lookup_r _ _ _ i _ Hh Ek) as (o & Eh & Ho). destruct o as [p|]; [|destruct Ho].
      destruct (decide (length w = vs)) as [Hw|]; [|discriminate]. injection Eo as <- <- <-.
      rewrite Eh. destruct (minv_write TO NO L mf e B stable srep sfresh npt HS m S D M b loc k p w Hi Ho Hw)
        as (h & D2 & Ewr & Hi2 & Hpt2 & _).
      unfold map_write. rewrite Ewr, !bind_ret. apply wpx_ret.
      destruct (minv_read TO NO L mf e B stable srep sfresh npt HS m S D M b loc k p Hi Ho) as (v' & Hv1 & _).
      split; [reflexivity|]. exists S, D2, b, loc. split; [exact Hi2|]. split; [exact HSA|]. split.
      + apply (handles_mono TO NO e npt m D loc); [exact Hpt2|exact Hh].
      + rewrite dom_insert_lookup_L by eauto. clear. set_solver.
  Qed.

  Theorem keep_run_ok ops : pts_stable stable npt -> forall m hs S D M ks b loc (A : gset N), minv m S D M b loc ->
    handles m D loc hs ks ->
    Forall (kvalid vs) ops -> (B = true -> Forall (fun k => k <> [0]) (kupdated ops)) ->
    S ⊆ A -> alphabet (kupdated ops) ⊆ A -> (size A <= 254)%nat ->
    node_bound e (dom M ∪ list_to_set (kupdated ops)) + 1 < l_max L ->
    (forall fails, kspec_run vs fails (M, ks) ops <> None) ->
    wpx L (keep_run m hs ops) (fun '(xs, m') => exists fails s', kspec_run vs fails (M, ks) ops = Some (xs, s')).
  Proof.
    intros Hst. induction ops as [|o ops IH]; intros m hs S D M ks b loc A Hi Hh Hv HB HSA HA HA4 Hroom Hr.
    - apply wpx_ret. exists [], (M, ks). reflexivity.
    - apply Forall_cons_1 in Hv as [Hv Hvs].
      assert (Eu : kupdated (o :: ops) = kupdated [o] ++ kupdated ops).
      { unfold kupdated. cbn [flat_map]. rewrite app_nil_r. reflexivity. }
      rewrite Eu in *. assert (HAo : alphabet (kupdated [o]) ⊆ A /\ alphabet (kupdated ops) ⊆ A).
      { unfold alphabet in *. rewrite concat_app, list_to_set_app_L in HA. set_solver. }
      destruct HAo as [HA1 HA2]. rewrite list_to_set_app_L in Hroom.
      assert (HB2 : B = true -> Forall (fun k => k <> [0]) (kupdated ops)).
      { intros Hb. specialize (HB Hb). apply Forall_app in HB as [_ H]. exact H. }
      assert (HB1 : B = true -> Forall (fun k => k <> [0]) (kupdated [o])).
      { intros Hb. specialize (HB Hb). apply Forall_app in HB as [H _]. exact H. }
      cbn [Oom.keep_run]. apply wpx_bind. destruct o as [o|k s]; unfold keep_step.
      + assert (Eo1 : kupdated [Keep o] = hupdated [o]) by (destruct o; reflexivity). rewrite Eo1 in *.
        destruct (hspec_step vs (M, ks) o) as [[x [M1 ks1]]|] eqn:Eo.
        2:{ exfalso. apply (Hr []). cbn [kspec_run]. rewrite Eo. reflexivity. }
        apply wpx_bind. eapply wpx_mono.
        { apply (hstep_ok o m hs S D M ks b loc A x M1 ks1 Hst Hi Hh Hv); auto.
          revert Hroom. apply (nb_room L e). clear. set_solver. }
        intros [[x' m1] hs1] (-> & S1 & D1 & b1 & loc1 & Hi1 & HS1 & Hh1 & Hd1). apply wpx_ret. apply wpx_bind.
        eapply wpx_mono.
        { apply (IH m1 hs1 S1 D1 M1 ks1 b1 loc1 A Hi1 Hh1 Hvs); auto.
          - revert Hroom. apply (nb_room L e). clear -Hd1. set_solver.
          - intros fs Hf. apply (Hr fs). cbn [kspec_run]. rewrite Eo, Hf. reflexivity. }
        intros [xs m2] (fs & s' & E). apply wpx_ret. exists fs, s'. cbn [kspec_run]. rewrite Eo, E. reflexivity.
      + destruct Hv as [[Hk Hsm] Hf]. change (kupdated [Try k s]) with [k] in *.
        assert (HkA : (list_to_set k : gset N) ⊆ A). { unfold alphabet in HA1. simpl in HA1. rewrite app_nil_r in HA1. set_solver. }
        apply wpx_bind. eapply wpx_mono.
        { apply (update_oom_254 (Some s) m S D M b loc k A Hf Hi Hk Hsm); auto.
          - intros Hb. specialize (HB1 Hb). apply Forall_cons_1 in HB1 as [H _]. exact H.
          - revert Hroom. apply (nb_room L e). clear. set_solver. }
        intros [r m1] (S1 & D1 & b1 & loc1 & Hb1 & HS1 & Hpt & Hr1). destruct r as [[[p|]|x]|]; try contradiction Hr1.
        * destruct Hr1 as [Hi1 _]. apply wpx_ret. apply wpx_bind. eapply wpx_mono.
          { apply (IH m1 hs S1 D1 _ ks b1 loc1 A Hi1); auto.
            - apply (handles_mono TO NO e npt m D loc); [exact (kept_mpt TO NO e stable npt _ _ _ _ _ _ Hst Hpt)|exact Hh].
            - revert Hroom. apply (nb_room L e). rewrite dom_insert_L. clear. set_solver.
            - intros fs Hf'. apply (Hr (false :: fs)). cbn [kspec_run]. rewrite Hf'. reflexivity. }
          intros [xs m2] (fs & s' & E). apply wpx_ret. exists (false :: fs), s'. cbn [kspec_run]. rewrite E. reflexivity.
        * destruct Hr1 as (_ & -> & Hi1). apply wpx_ret. apply wpx_bind. eapply wpx_mono.
          { apply (IH m1 hs S1 D _ ks b1 loc1 A Hi1); auto.
            - apply (handles_mono TO NO e npt m D loc); [exact (kept_mpt TO NO e stable npt _ _ _ _ _ _ Hst Hpt)|exact Hh].
            - revert Hroom. apply (nb_room L e). clear. set_solver.
            - intros fs Hf'. apply (Hr (true :: fs)). cbn [kspec_run]. rewrite Hf'. reflexivity. }
          intros [xs m2] (fs & s' & E). apply wpx_ret. exists (true :: fs), s'. cbn [kspec_run]. rewrite E. reflexivity.
  Qed.
End oom.

(** ** The doubling of the FK tries keeps nodes and labels. *)
Lemma fk_grow_ok (TO : trie_ops) (NO : nlm_ops) (L : lims) (mf : N) (rep : N -> tT TO -> locmap -> Prop)
    (nrep : N -> nT NO -> gmap N (list N * list N) -> Prop) (grow : tT TO -> outcome (tT TO)) :
  (forall b t loc, rep b t loc -> N.of_nat (size loc) + 1 < l_max L -> wpx L (grow t) (fun t' => exists b',
     (b' = b \/ b' = b + 1 /\ max_size_of (2 ^ b) mf <= N.of_nat (size loc)) /\ rep b' t' loc)) ->
  grow_ok TO NO L (fsrep TO NO L mf rep nrep) grow.
Proof.
  intros H b t n loc lab ([Hr Hg] & m & Hn & Hl) Hroom. eapply wpx_mono; [apply (H b t loc Hr Hroom)|].
  intros t' (b' & Hb' & Hr'). exists b'. split; [lia|].
  split; [split; [exact Hr'|apply (tight_step L mf b b' loc Hb' Hg)]|eauto].
Qed.
Lemma ret_grow_ok (TO : trie_ops) (NO : nlm_ops) (L : lims) srep : grow_ok TO NO L srep (fun t => Ret t).
Proof. intros b t n loc lab Hs _. apply wpx_ret. exists b. split; [lia|exact Hs]. Qed.

Lemma pf_grow_ok (HF : plain_hasher) mf sb (L : Prop) T dbg : 1 <= mf <= 99 -> T <= node_limit mf sb ->
  forall b t loc, pf_rep dbg mf b sb t loc -> N.of_nat (size loc) + 1 < T ->
  wpx L (if pf_max t <=? pf_size t then pf_expand dbg mf t else Ret t) (fun t' => exists b',
    (b' = b \/ b' = b + 1 /\ max_size_of (2 ^ b) mf <= N.of_nat (size loc)) /\ pf_rep dbg mf b' sb t' loc).
Proof.
  intros Hmf HT b t loc H Hroom. pose proof (fs_b _ _ _ _ (PlainFkP.fr_shape _ _ _ _ _ _ H)) as Hb.
  pose proof (fs_sb _ _ _ _ (PlainFkP.fr_shape _ _ _ _ _ _ H)) as Hsb.
  destruct (N.leb_spec (pf_max t) (pf_size t)) as [Hge|Hlt]; [|apply wpx_ret; exists b; auto].
  rewrite (fs_max _ _ _ _ (PlainFkP.fr_shape _ _ _ _ _ _ H)), (PlainFkP.fr_size _ _ _ _ _ _ H) in Hge.
  assert (b + 1 <= bits_limit sb) as Hl.
  { apply (node_limit_room mf sb Hmf b (N.of_nat (size loc))); [unfold bits_limit; lia|exact Hge|lia]. }
  unfold bits_limit in Hl.
  destruct (pf_expand_ok dbg mf b sb t loc H ltac:(lia) ltac:(lia)) as (t' & E & Hr & _). rewrite E. apply wpx_ret.
  exists (b + 1). auto.
Qed.
Lemma cf_grow_ok (HTH : trie_hashers) (HO : th_ok HTH) P (HP : dp_ok P) mf sb B0 T : 1 <= mf <= 99 -> 16 <= B0 ->
  T <= node_limit mf sb ->
  forall b t loc, B0 <= b /\ cf_rep P mf b sb t loc -> N.of_nat (size loc) + 1 < T ->
  wpx (saturates P B0 T /\ dp_cmf P < mf) (if cf_max t <=? cf_size t then cf_expand P mf t else Ret t) (fun t' => exists b',
    (b' = b \/ b' = b + 1 /\ max_size_of (2 ^ b) mf <= N.of_nat (size loc)) /\ (B0 <= b' /\ cf_rep P mf b' sb t' loc)).
Proof.
  intros Hmf HB0 HT b t loc [Hb0 H] Hroom. destruct (cf_rep_b P mf sb b t loc H) as [Hb Hsb].
  destruct (N.leb_spec (cf_max t) (cf_size t)) as [Hge|Hlt]; [|apply wpx_ret; exists b; auto].
  assert (cf_size t = N.of_nat (size loc) /\ cf_max t = max_size_of (2 ^ b) mf) as [Hsz Hmax].
  { destruct H as (mc & ms & H). split; [apply (yr_size _ _ _ _ _ _ _ _ H)|apply (ys_max _ _ _ _ _ _ _ (yr_shape _ _ _ _ _ _ _ _ H))]. }
  assert (Hle : cf_size t <= cf_max t) by (destruct H as (mc & ms & H); apply (yr_le _ _ _ _ _ _ _ _ H)).
  assert (Hge' := Hge). rewrite Hmax, Hsz in Hge'.
  assert (b + 1 <= bits_limit sb) as Hl.
  { apply (node_limit_room mf sb Hmf b (N.of_nat (size loc))); [unfold bits_limit; lia|exact Hge'|lia]. }
  unfold bits_limit in Hl.
  eapply wpx_limit; [|eapply wpx_mono; [apply (cf_expand_ok P HP mf b sb t loc H); lia|]].
  - apply (sat_mono P HP mf Hmf B0 T (b + 1) (cf_size t)); [lia|lia|lia|].
    etransitivity; [exact Hle|]. rewrite Hmax. apply ms_ok2_facts; lia.
  - intros t' [Hr _]. exists (b + 1). split; [right; auto|]. split; [lia|exact Hr].
Qed.

(** As [inst_pack] (InstP.v), with the doubling. *)
Lemma inst_pack_grow dbg vs i e B0 T : valid_inst i -> (1 <= vs)%nat -> 16 <= B0 -> T <= node_limit (i_mf i) (8 + e) ->
  exists K : ipack dbg vs i e B0 T, grow_ok _ _ (i_lim i B0 T) (ip_srep _ _ _ _ _ _ K) (i_grow dbg i).
Proof.
  intros Hv Hvs HB HT. pose proof (proj1 Hv) as Hmf. pose proof (valid_dp i) as HP.
  destruct i as [[H mf|H P mf|H mf|H P mf] [c|]]; cbn [i_mf i_par i_t] in *; try pose proof (valid_th H (proj2 (proj2 Hv))) as HTO.
  - refine (ex_intro _ (mkIPack dbg vs (mkInst (T_plain_bonsai H mf) (Some c)) e B0 T _ _ _ (bonsai_store_ok (pb_ops mf) (cbn_ops (cs_val c) vs) _ mf (8 + e) _ _ _ _ _ (pb_ok mf (8 + e) Hmf _ T B0 HT (sb_pos e))
      (cbn_ok (cs_val c) vs (chunk_width c)))) (ret_grow_ok _ _ _ _)).
  - refine (ex_intro _ (mkIPack dbg vs (mkInst (T_plain_bonsai H mf) None) e B0 T _ _ _ (bonsai_store_ok (pb_ops mf) (pbn_ops vs) _ mf (8 + e) _ _ _ _ _ (pb_ok mf (8 + e) Hmf _ T B0 HT (sb_pos e)) (pbn_ok vs))) (ret_grow_ok _ _ _ _)).
  - specialize (HP P Hv eq_refl). refine (ex_intro _ (mkIPack dbg vs (mkInst (T_compact_bonsai H P mf) (Some c)) e B0 T _ _ _ (bonsai_store_ok (cb_ops P mf) (cbn_ops (cs_val c) vs) _ mf (8 + e) _ _ _ _ _ (cb_ok P HP mf (8 + e) Hmf B0 T HB HT)
      (cbn_ok (cs_val c) vs (chunk_width c)))) (ret_grow_ok _ _ _ _)).
  - specialize (HP P Hv eq_refl). refine (ex_intro _ (mkIPack dbg vs (mkInst (T_compact_bonsai H P mf) None) e B0 T _ _ _ (bonsai_store_ok (cb_ops P mf) (pbn_ops vs) _ mf (8 + e) _ _ _ _ _ (cb_ok P HP mf (8 + e) Hmf B0 T HB HT) (pbn_ok vs))) (ret_grow_ok _ _ _ _)).
  - refine (ex_intro _ (mkIPack dbg vs (mkInst (T_plain_fkhash H mf) (Some c)) e B0 T _ _ _ (fkhash_store_ok (pf_ops dbg mf) (cfn_ops (cs_val c) vs) _ mf (8 + e) dbg _ _ _ _ _ Hmf (pf_ok mf (8 + e) Hmf _ T B0 dbg HT)
      (cfn_ok (cs_val c) vs (chunk_width c) Hvs))) _); cbn [ip_srep]; apply (fk_grow_ok (pf_ops dbg mf) (cfn_ops (cs_val c) vs) _ mf (fun b t loc => pf_rep dbg mf b (8 + e) t loc)); intros b t loc Hr Hroom; exact (pf_grow_ok H mf (8 + e) _ T dbg Hmf HT b t loc Hr Hroom).
  - refine (ex_intro _ (mkIPack dbg vs (mkInst (T_plain_fkhash H mf) None) e B0 T _ _ _ (fkhash_store_ok (pf_ops dbg mf) (pfn_ops vs) _ mf (8 + e) dbg _ _ _ _ _ Hmf (pf_ok mf (8 + e) Hmf _ T B0 dbg HT) (pfn_ok vs)))
      _); cbn [ip_srep]; apply (fk_grow_ok (pf_ops dbg mf) (pfn_ops vs) _ mf (fun b t loc => pf_rep dbg mf b (8 + e) t loc)); intros b t loc Hr Hroom; exact (pf_grow_ok H mf (8 + e) _ T dbg Hmf HT b t loc Hr Hroom).
  - specialize (HP P Hv eq_refl). refine (ex_intro _ (mkIPack dbg vs (mkInst (T_compact_fkhash H P mf) (Some c)) e B0 T _ _ _ (fkhash_store_ok (cf_ops P mf) (cfn_ops (cs_val c) vs) _ mf (8 + e) false _ _ _ _ _ Hmf (cf_ok P HP mf (8 + e) Hmf B0 T HB HT)
      (cfn_ok (cs_val c) vs (chunk_width c) Hvs))) _); cbn [ip_srep]; apply (fk_grow_ok (cf_ops P mf) (cfn_ops (cs_val c) vs) _ mf (fun b t loc => B0 <= b /\ cf_rep P mf b (8 + e) t loc)); intros b t loc Hr Hroom; exact (cf_grow_ok H HTO P HP mf (8 + e) B0 T Hmf HB HT b t loc Hr Hroom).
  - specialize (HP P Hv eq_refl). refine (ex_intro _ (mkIPack dbg vs (mkInst (T_compact_fkhash H P mf) None) e B0 T _ _ _ (fkhash_store_ok (cf_ops P mf) (pfn_ops vs) _ mf (8 + e) false _ _ _ _ _ Hmf (cf_ok P HP mf (8 + e) Hmf B0 T HB HT) (pfn_ok vs)))
      _); cbn [ip_srep]; apply (fk_grow_ok (cf_ops P mf) (pfn_ops vs) _ mf (fun b t loc => B0 <= b /\ cf_rep P mf b (8 + e) t loc)); intros b t loc Hr Hroom; exact (cf_grow_ok H HTO P HP mf (8 + e) B0 T Hmf HB HT b t loc Hr Hroom).
Qed.

Lemma i_oom_run_ok dbg vs i cb e ops : valid_inst i -> i_supported vs i cb e (updated (map fst ops)) ->
  Forall (fun '(o, f) => valid_op vs o /\ match f with Some s => in_table s | None => True end) ops ->
  i_no_trap dbg i (updated (map fst ops)) ->
  exists m0, i_new dbg vs i cb (2 ^ e) = Ret m0 /\
    i_yields i cb e (updated (map fst ops)) (i_oom_run dbg vs i m0 ops) (fun '(seen, _) => exists d, oom_shows vs ∅ ops seen d).
Proof.
  intros Hvi Hsup Hv Hnt. destruct (i_supported_limit _ _ _ _ _ Hvi Hsup) as (He & Hcb & Hroom & _).
  pose proof (proj1 Hvi) as Hmf. pose proof Hsup as (Hvs & Hcb' & Hn & HA).
  assert (HB : 16 <= N.max 16 cb) by lia.
  destruct (inst_pack_grow dbg vs i e (N.max 16 cb) (nodes_for e (updated (map fst ops)) + 2) Hvi Hvs HB ltac:(lia)) as [K HG].
  pose proof (ip_ok _ _ _ _ _ _ K) as PK.
  destruct (map_new_ok _ _ _ _ _ _ _ _ _ _ PK He cb Hcb) as (m0 & E & Hf); [reflexivity|].
  exists m0. split; [exact E|]. pose proof (mfresh_minv _ _ e (ip_srep _ _ _ _ _ _ K) (ip_sfresh _ _ _ _ _ _ K) _ _ Hf) as Hf0. clear Hf. rename Hf0 into Hf.
  apply (wpx_i_yields vs); [exact Hvi|exact Hsup|].
  eapply wpx_mono.
  { apply (oom_run_ok dbg _ _ _ _ e _ _ _ _ _ PK He Hmf (i_grow dbg i) (i_label_fail vs i) HG ops m0 {[ 0 ]} ∅ ∅ _ ∅ (alphabet (updated (map fst ops))) Hf).
    - rewrite i_vs. exact Hv.
    - apply i_no_trap_forall, Hnt.
    - unfold alphabet. set_solver.
    - reflexivity.
    - exact HA.
    - cbn [i_lim l_max]. rewrite dom_empty_L, union_empty_l_L. unfold nodes_for. lia. }
  intros [xs m'] (S' & D' & M' & b' & loc' & _ & Hx). rewrite i_vs in Hx. eauto.
Qed.

Lemma i_keep_run_ok dbg vs i cb e ops : valid_inst i -> i_stable i = true -> i_supported vs i cb e (kupdated ops) ->
  Forall (kvalid vs) ops -> i_no_trap dbg i (kupdated ops) ->
  (forall fails, kspec_run vs fails (∅, []) ops <> None) ->
  exists m0, i_new dbg vs i cb (2 ^ e) = Ret m0 /\
    i_yields i cb e (kupdated ops) (i_keep_run dbg vs i m0 ops)
      (fun '(seen, _) => exists fails s, kspec_run vs fails (∅, []) ops = Some (seen, s)).
Proof.
  intros Hvi Hst Hsup Hv Hnt Hr. destruct (i_supported_limit _ _ _ _ _ Hvi Hsup) as (He & Hcb & Hroom & _).
  pose proof (proj1 Hvi) as Hmf. pose proof Hsup as (Hvs & Hcb' & Hn & HA).
  assert (HB : 16 <= N.max 16 cb) by lia.
  destruct (inst_pack_grow dbg vs i e (N.max 16 cb) (nodes_for e (kupdated ops) + 2) Hvi Hvs HB ltac:(lia)) as [K HG].
  pose proof (ip_ok _ _ _ _ _ _ K) as PK.
  destruct (map_new_ok _ _ _ _ _ _ _ _ _ _ PK He cb Hcb) as (m0 & E & Hf); [reflexivity|].
  exists m0. split; [exact E|]. pose proof (mfresh_minv _ _ e (ip_srep _ _ _ _ _ _ K) (ip_sfresh _ _ _ _ _ _ K) _ _ Hf) as Hf0. clear Hf. rename Hf0 into Hf.
  apply (wpx_i_yields vs); [exact Hvi|exact Hsup|].
  eapply wpx_mono.
  { apply (keep_run_ok dbg _ _ _ _ e _ _ _ _ _ PK He Hmf (i_grow dbg i) (i_label_fail vs i) HG ops (i_stable_pts vs i _ Hst) m0 [] {[ 0 ]} ∅ ∅ [] _ ∅ (alphabet (kupdated ops)) Hf).
    - constructor.
    - rewrite i_vs. exact Hv.
    - apply i_no_trap_forall, Hnt.
    - unfold alphabet. set_solver.
    - reflexivity.
    - exact HA.
    - cbn [i_lim l_max]. rewrite dom_empty_L, union_empty_l_L. unfold nodes_for. lia.
    - rewrite i_vs. exact Hr. }
  intros [xs m'] H. rewrite i_vs in H. exact H.
Qed.

(** ** Without a failure: the program of Map.v. *)
Lemma loop_sim {S S' R R'} (f : S -> outcome (S + R)) (g : S' -> outcome (S' + R')) (a : S -> S') (b : R -> R') s :
  (forall s, g (a s) = let* r := f s in Ret (match r with inl s => inl (a s) | inr r => inr (b r) end)) ->
  loop g (a s) = let* r := loop f s in Ret (b r).
Proof.
  intros H. with_strategy transparent [loop] unfold loop. rewrite !ploop_nloop. generalize (Pos.to_nat fuel64). intros n.
  revert s. induction n as [|n IH]; intros s; [reflexivity|]. simpl nloop. rewrite H.
  destruct (f s) as [[s'|r]| | | |]; try reflexivity. cbn [bind]. apply IH.
Qed.
Lemma update_oom_none dbg TO NO grow lf (m : map_st TO NO) key :
  update_oom dbg TO NO grow lf None m key = let* r := map_update dbg TO NO m key in let '(r, m) := r in Ret (Fine r, m).
Proof.
  unfold update_oom, map_update. destruct (check_key key) as [[]| | | |]; try reflexivity. cbn [bind].
  destruct (t_size TO (m_trie _ _ m) =? 0).
  - unfold map_update. reflexivity.
  - destruct (t_get_root TO (m_trie _ _ m)) as [root| | | |]; try reflexivity. cbn [bind].
    rewrite (loop_sim (update_body dbg TO NO) (oom_body dbg TO NO grow lf) (fun st => (None, st)) (fun '(r, m) => (Fine r, m))).
    + destruct (loop _ _) as [[]| | | |]; reflexivity.
    + intros st. unfold oom_body. destruct (update_body dbg TO NO st) as [[st'|[]]| | | |]; reflexivity.
Qed.
Definition no_failure (ops : list op) : list oop := map (fun o => (o, None)) ops.
Lemma oom_run_none dbg TO NO grow lf ops : forall m : map_st TO NO,
  oom_run dbg TO NO grow lf m (no_failure ops) =
  let* r := api_run dbg TO NO m ops in let '(xs, m) := r in Ret (map (fun '(x, n) => (Done x, n)) xs, m).
Proof.
  induction ops as [|o ops IH]; intros m; [reflexivity|]. cbn [no_failure map oom_run api_run].
  assert (E : oom_step dbg TO NO grow lf m (o, None) =
    let* r := api_step dbg TO NO m o in let '((x, n), m) := r in Ret ((Done x, n), m)).
  { destruct o as [k w|k]; unfold oom_step, api_step.
    - rewrite update_oom_none. destruct (map_update dbg TO NO m k) as [[[[p|]|x] m1]| | | |]; try reflexivity. cbn [bind].
      destruct (map_read TO NO m1 p) as [v| | | |]; try reflexivity. cbn [bind].
      destruct w as [w|]; [|reflexivity]. destruct (map_write TO NO m1 p w) as [m2| | | |]; reflexivity.
    - destruct (map_find dbg TO NO m k) as [[p|]| | | |]; try reflexivity. cbn [bind].
      destruct (map_read TO NO m p) as [v| | | |]; reflexivity. }
  rewrite E. destruct (api_step dbg TO NO m o) as [[[x n] m1]| | | |]; try reflexivity. cbn [bind].
  fold (no_failure ops). rewrite IH. destruct (api_run dbg TO NO m1 ops) as [[xs m2]| | | |]; reflexivity.
Qed.

(** ** A failure for the label is counted. *)
Section counted.
  Context (dbg : bool) (TO : trie_ops) (NO : nlm_ops).
  Context (grow : tT TO -> outcome (tT TO)) (label_fail : nT NO -> N -> list N -> outcome (nT NO)).
  Lemma bind_inv {A B} (o : outcome A) (k : A -> outcome B) y : bind o k = Ret y -> exists x, o = Ret x /\ k x = Ret y.
  Proof. destruct o as [x| | | |]; try discriminate. intros H. exists x. auto. Qed.
  Lemma loop_ret {S R} (f : S -> outcome (S + R)) (I : S -> Prop) (Q : R -> Prop) s r :
    I s -> (forall s, I s -> match f s with Ret (inl s) => I s | Ret (inr r) => Q r | _ => True end) ->
    loop f s = Ret r -> Q r.
  Proof.
    intros HI Hf. with_strategy transparent [loop] unfold loop. rewrite ploop_nloop. generalize (Pos.to_nat fuel64). intros n.
    revert s HI. induction n as [|n IH]; intros s HI; [discriminate|]. simpl nloop. specialize (Hf s HI).
    destruct (f s) as [[s'|r']| | | |]; try discriminate; [apply IH, Hf|]. intros E. injection E as <-. exact Hf.
  Qed.
  Lemma body_size m x k st : update_body dbg TO NO (m, x, k) = Ret (inl st) -> m_size _ _ (fst (fst st)) = m_size _ _ m.
  Proof.
    unfold update_body. intros H. destruct k as [|c k]; [apply bind_inv in H as ([] & _ & H); discriminate|].
    apply bind_inv in H as ([[p|] mtch] & _ & H); [discriminate|].
    apply bind_inv in H as ([[[y mt] t] n] & _ & H). apply bind_inv in H as (c' & _ & H).
    apply bind_inv in H as (code & _ & H). apply bind_inv in H as ([[codes nc] th] & _ & H).
    destruct th; [discriminate|]. apply bind_inv in H as (symb & _ & H).
    apply bind_inv in H as ([[[p y'] t'] n'] & _ & H). destruct p; [discriminate|]. injection H as <-. reflexivity.
  Qed.
  Lemma fail_size j m x k m' : fail_in dbg TO NO grow label_fail (InLabel j) (m, x, k) = Ret (Some m') ->
    m_size _ _ m' = add64 (m_size _ _ m) 1.
  Proof.
    unfold fail_in. intros H. destruct k as [|c k]; [discriminate|].
    apply bind_inv in H as ([[p|] mtch] & _ & H); [discriminate|].
    apply bind_inv in H as ([[[y mt] t] n] & _ & H). apply bind_inv in H as (c' & _ & H).
    apply bind_inv in H as (code & _ & H). apply bind_inv in H as ([[codes nc] th] & _ & H).
    destruct th; [discriminate|]. apply bind_inv in H as (symb & _ & H).
    apply bind_inv in H as ([[added y'] t'] & _ & H). destruct added; [|discriminate]. cbn [negb] in H.
    apply bind_inv in H as ([[y2 t2] n2] & _ & H). apply bind_inv in H as (n3 & _ & H). injection H as <-. reflexivity.
  Qed.
  Lemma label_counted j (m : map_st TO NO) k m' : m_ready _ _ m = true ->
    update_oom dbg TO NO grow label_fail (Some (InLabel j)) m k = Ret (NoMem, m') ->
    m_size _ _ m' = add64 (m_size _ _ m) 1.
  Proof.
    intros Hr H. unfold update_oom in H. apply bind_inv in H as ([] & _ & H).
    destruct (t_size TO (m_trie _ _ m) =? 0).
    - destruct j as [|j].
      + rewrite Hr in H. cbn [negb] in H. rewrite bind_ret in H. apply bind_inv in H as (t & _ & H).
        apply bind_inv in H as (root & _ & H). apply bind_inv in H as (n & _ & H). injection H as <-. reflexivity.
      + apply bind_inv in H as ([r m1] & _ & H). discriminate.
    - apply bind_inv in H as (root & _ & H). cbn [site_iter] in H.
      eapply (loop_ret _ (fun '(f, (m1, _, _)) => m_size _ _ m1 = m_size _ _ m /\
          match f with Some (_, s) => s = InLabel j | None => True end)
        (fun '(r, m1) => r = NoMem -> m_size _ _ m1 = add64 (m_size _ _ m) 1)) in H; [apply H; reflexivity|auto|].
      clear H m' root k Hr. intros [f [[m1 x] k]] [Hs Hf].
      assert (Hgo : forall f' : option (nat * site), match f' with Some (_, s) => s = InLabel j | None => True end ->
        match (let* r := update_body dbg TO NO (m1, x, k) in
               match r with inl st => Ret (inl (f', st)) | inr (r, m) => Ret (inr (Fine r, m)) end)
        with
        | Ret (inl (f, (m1, _, _))) => m_size _ _ m1 = m_size _ _ m /\ match f with Some (_, s) => s = InLabel j | None => True end
        | Ret (inr (r, m1)) => r = NoMem -> m_size _ _ m1 = add64 (m_size _ _ m) 1
        | _ => True end).
      { intros f' Hf'. destruct (update_body dbg TO NO (m1, x, k)) as [[[[m2 x2] k2]|[r m2]]| | | |] eqn:E; cbn [bind]; try exact I.
        - apply body_size in E. cbn [fst] in E. rewrite E. auto.
        - discriminate. }
      unfold oom_body. destruct f as [[[|n] s]|]; [|apply Hgo, Hf|apply Hgo; exact I].
      subst s. destruct (fail_in _ _ _ _ _ _ _) as [[m2|]| | | |] eqn:E; cbn [bind]; try exact I.
      + intros _. apply fail_size in E. rewrite E, Hs. reflexivity.
      + apply Hgo. exact I.
  Qed.
End counted.
