(** update of a key that is present. *)
From Verif.Proofs Require Export NulP InstP.
From Verif.Props Require Export PresentSpec.
Local Open Scope N_scope.
Local Notation enc := MapP.enc.

Section present.
  Context (dbg : bool) (TO : trie_ops) (NO : nlm_ops) (L : lims) (mf e : N) (B : bool) {Q : Type} (stable : nT NO -> N -> Q -> Prop).
  Context (srep : N -> tT TO -> nT NO -> locmap -> labmap -> Prop) (sfresh : N -> tT TO -> nT NO -> Prop).
  Context (npt : nT NO -> N -> ptr -> Prop).
  Hypothesis HS : store_ok TO NO L mf (8 + e) B stable srep sfresh npt.
  Hypothesis He : e <= 39.
  Notation map_st := (map_st TO NO).
  Notation quiet := (quiet TO mf).

  Lemma quiet_refl loc b t : quiet loc b t b t.
  Proof. left. auto. Qed.
  Lemma quiet_trans loc b1 t1 b2 t2 b3 t3 : quiet loc b1 t1 b2 t2 -> quiet loc b2 t2 b3 t3 -> quiet loc b1 t1 b3 t3.
  Proof.
    intros [[-> ->]|(H1 & H2 & H3)] H; [exact H|]. right. split; [exact H1|]. split; [|exact H3].
    destruct H as [[_ ->]|(_ & H & _)]; lia.
  Qed.
  Lemma pow_pos : 0 < 2 ^ e.
  Proof. apply N.neq_0_lt_0, N.pow_nonzero. discriminate. Qed.

  (** The steps go down an existing chain. *)
  Lemma steps_old b t n loc lab p x mtch y : srep b t n loc lab -> loc !! p = Some x -> mtch < 2 ^ 64 ->
    N.of_nat (size loc) + 1 < l_max L ->
    loc !! (replicate (N.to_nat (mtch / 2 ^ e)) 255 ++ p) = Some y ->
    wpx L (update_steps TO NO (2 ^ e) t n x mtch) (fun '(x', m', t', n') => x' = y /\ m' = mtch mod 2 ^ e /\ n' = n /\
      exists b', srep b' t' n loc lab /\ quiet loc b t b' t').
  Proof.
    intros Hs Hp Hm Hroom Hy. unfold update_steps. pose proof pow_pos as Hlam.
    apply wpx_loop with (mu := fun '(_, m, _, _) => m) (I := fun '(z, m, t', n') => m <= mtch /\ m mod 2 ^ e = mtch mod 2 ^ e /\
      n' = n /\ (exists b', srep b' t' n loc lab /\ quiet loc b t b' t') /\
      exists q, loc !! q = Some z /\ replicate (N.to_nat (m / 2 ^ e)) 255 ++ q = replicate (N.to_nat (mtch / 2 ^ e)) 255 ++ p).
    - split; [lia|]. split; [reflexivity|]. split; [reflexivity|]. split; [exists b; split; [exact Hs|apply quiet_refl]|].
      exists p. auto.
    - exact Hm.
    - intros [[[z m] t'] n'] (Hle & Hmod & -> & (b' & Hs' & Hq') & q & Hq & Hg).
      destruct (N.leb_spec (2 ^ e) m) as [Hge|Hlt].
      + destruct (div_sub_pow m (2 ^ e) ltac:(lia) Hge) as (E1 & E2 & E3).
        assert (Epath : replicate (N.to_nat (m / 2 ^ e)) 255 ++ q = replicate (N.to_nat ((m - 2 ^ e) / 2 ^ e)) 255 ++ 255 :: q).
        { replace (N.to_nat (m / 2 ^ e)) with (N.to_nat ((m - 2 ^ e) / 2 ^ e) + 1)%nat by lia.
          rewrite replicate_add, <- app_assoc. reflexivity. }
        rewrite Epath in Hg.
        assert (Hz : is_Some (loc !! (step_symb :: q))).
        { assert (Hall : is_Some (loc !! (replicate (N.to_nat ((m - 2 ^ e) / 2 ^ e)) 255 ++ 255 :: q))) by (rewrite Hg; eauto).
          clear -Hall Hs HS. revert Hall. generalize (N.to_nat ((m - 2 ^ e) / 2 ^ e)) as j. induction j as [|j IH]; intros H; [exact H|].
          apply IH. apply (so_pref _ _ _ _ _ _ _ _ _ _ HS _ _ _ _ _ _ _ Hs H). }
        destruct Hz as [z2 Hz2].
        apply wpx_bind. eapply wpx_mono.
        { apply (so_step_old _ _ _ _ _ _ _ _ _ _ HS b' t' n loc lab q z z2 Hs' Hq); [|exact Hroom|exact Hz2].
          apply (N.lt_le_trans _ (2 ^ 8)); [reflexivity|]. apply N.pow_le_mono_r; [discriminate|lia]. }
        intros [[y2 t2] n2] (-> & -> & b2 & Hs2 & Hq2). apply wpx_ret.
        assert (Esub : sub64 m (2 ^ e) = m - 2 ^ e).
        { unfold sub64, UINT64_MAX. rewrite w64_mod. change (18446744073709551615 + 1) with (2 ^ 64).
          assert (2 ^ e < 2 ^ 64) by lia. replace (m + (2 ^ 64 - 2 ^ e)) with ((m - 2 ^ e) + 1 * 2 ^ 64) by lia.
          rewrite N.mod_add by discriminate. apply N.mod_small. lia. }
        rewrite Esub. split; [|lia]. split; [lia|]. split; [congruence|]. split; [reflexivity|].
        split; [exists b2; split; [exact Hs2|eapply quiet_trans; eassumption]|].
        exists (step_symb :: q). split; [exact Hz2|exact Hg].
      + apply wpx_ret. rewrite N.mod_small in Hmod by exact Hlt. rewrite (N.div_small m) in Hg by exact Hlt. simpl in Hg. subst q.
        split; [congruence|]. split; [exact Hmod|]. split; [reflexivity|]. eauto.
  Qed.

  (** update walks down to the key and returns the pointer of find. *)
  Definition same_map (m m' : map_st) : Prop :=
    m_ready _ _ m' = m_ready _ _ m /\ m_lambda _ _ m' = m_lambda _ _ m /\ m_nlm _ _ m' = m_nlm _ _ m /\
    m_codes _ _ m' = m_codes _ _ m /\ m_num_codes _ _ m' = m_num_codes _ _ m /\ m_size _ _ m' = m_size _ _ m.
  Lemma cmp_ext_nil n loc lab b t : srep b t n loc lab -> cmp_ext NO n loc lab [].
  Proof.
    intros Hs p x l v Hx Hl Ho. split.
    - intros k Hk Hl' Hne. rewrite app_nil_r.
      apply (so_compare _ _ _ _ _ _ _ _ _ _ HS _ _ _ _ _ _ _ k l v Hs Hx Hl); [right; auto|exact Hne].
    - intros i E. exfalso. rewrite app_nil_r in E.
      destruct (so_compare _ _ _ _ _ _ _ _ _ _ HS _ _ _ _ _ _ x l l v Hs Hx Hl) as [Heq _].
      { destruct Ho as [->|Ho]; [left; auto|right; auto]. }
      destruct (Heq eq_refl) as (pp & j & E2 & _). congruence.
  Qed.

  Lemma update_present m S D M b loc lab k v0 : mrep TO NO e srep m S D M b loc lab -> okey k -> bytes k ->
    N.of_nat (length k) < 2 ^ 64 -> (B = true -> k <> [0]) -> node_bound e (dom M) + 1 < l_max L -> M !! k = Some v0 ->
    exists p, map_find dbg TO NO m k = Ret (Some p) /\ mpt TO NO e npt m D loc k p /\
      wpx L (map_update dbg TO NO m k) (fun '(r, m') => r = UPtr (Some p) /\ same_map m m' /\
        exists b', mrep TO NO e srep m' S D M b' loc lab /\ quiet loc b (m_trie _ _ m) b' (m_trie _ _ m')).
  Proof.
    intros R Hk Hb Hlen HB Hroom EM.
    pose proof (mr_D _ _ _ _ _ _ _ _ _ _ _ R) as HD. destruct (mr_dict _ _ _ _ _ _ _ _ _ _ _ R) as [Hd1 Hd2].
    pose proof (mr_store _ _ _ _ _ _ _ _ _ _ _ R) as Hs0.
    pose proof (mr_codes _ _ _ _ _ _ _ _ _ _ _ R) as HC.
    pose proof (map_find_past dbg TO NO L mf e B stable srep sfresh npt HS He m S D M b loc lab k R Hk Hb) as Hfind.
    rewrite EM in Hfind. destruct Hfind as (ρ & y & lr & Hρ & Ekr & Hy & Hlaby & Hfind).
    specialize (Hfind [] ltac:(constructor) eq_refl). rewrite app_nil_r in Hfind.
    specialize (Hfind Hlen (cmp_ext_nil _ _ _ _ _ Hs0)). rewrite app_nil_r in Hfind.
    assert (Holr : compat lr lr).
    { pose proof (reach_keyof S D HD ρ lr v0 Hρ) as Hr. destruct ρ as [|[j c] ρ'].
      - right. split; apply (dv_root _ _ HD _ _ Hρ).
      - destruct (dv_node _ _ HD _ _ _ _ _ Hρ) as (_ & _ & Ho). unfold compat.
        destruct Ho as [[_ ->]|[_ Ho]]; [left; auto|right; auto]. }
    destruct (so_compare _ _ _ _ _ _ _ _ _ _ HS _ _ _ _ _ _ y lr lr v0 Hs0 Hy Hlaby Holr) as [Heqr _].
    destruct (Heqr eq_refl) as (p & i & Ep & Hpp). rewrite Ep, bind_ret in Hfind. exists p. split; [exact Hfind|].
    split. { exists ρ, y. split; [eauto|]. auto. }
    assert (Hreach0 : reach D [] k ρ) by (rewrite <- Ekr; apply (reach_keyof S D HD ρ lr v0 Hρ)).
    unfold map_update. rewrite (check_key_ok k Hk), bind_ret.
    rewrite (so_size _ _ _ _ _ _ _ _ _ _ HS _ _ _ _ _ Hs0).
    destruct (mr_ne _ _ _ _ _ _ _ _ _ _ _ R) as [[l0 w0] Hl0].
    destruct (so_root _ _ _ _ _ _ _ _ _ _ HS _ _ _ _ _ Hs0) as (root & Er & Hroot).
    rewrite (proj2 (N.eqb_neq _ 0)).
    2:{ intros E. assert (size loc = 0%nat) as Ez by (clear -E; lia). apply map_size_empty_inv in Ez.
        rewrite Ez, lookup_empty in Hroot. discriminate. }
    rewrite Er, bind_ret.
    pose proof (mrep_count _ _ _ _ _ _ _ _ _ _ _ R) as Hcnt.
    apply wpx_loop with (mu := fun '(_, _, key) => N.of_nat (length key))
      (I := fun '(m1, x, key) => exists π l v b1, same_map m m1 /\ mrep TO NO e srep m1 S D M b1 loc lab /\
        quiet loc b (m_trie _ _ m) b1 (m_trie _ _ m1) /\
        loc !! enc e (m_codes _ _ m) π = Some x /\ D !! π = Some (l, v) /\ compat key l /\
        (exists pre, k = pre ++ key) /\ spell D π ++ key = k /\ reach D π key ρ).
    - exists [], l0, w0, b. split; [repeat split|]. split; [exact R|]. split; [apply quiet_refl|].
      split; [exact Hroot|]. split; [exact Hl0|]. split.
      { right. split; [exact Hk|]. apply (dv_root _ _ HD l0 w0 Hl0). }
      split; [exists []; reflexivity|]. split; [reflexivity|]. exact Hreach0.
    - exact Hlen.
    - intros [[m1 x] key] (π & l & v & b1 & Hsame & R1 & Hq1 & Hx & Hl & Hcmp & [pre Epre] & Hsp & Hreach). unfold update_body.
      pose proof Hsame as (Sr & Sl & Sn & Sc & Snc & Ssz).
      pose proof (mr_store _ _ _ _ _ _ _ _ _ _ _ R1) as Hs.
      assert (Hlab : lab !! enc e (m_codes _ _ m) π = Some (l, v)) by apply (mr_lab _ _ _ _ _ _ _ _ _ _ _ R π _ Hl).
      assert (Hlk : (length key <= length k)%nat) by (rewrite Epre, app_length; clear; lia).
      assert (Hbk : bytes key). { rewrite Epre in Hb. apply Forall_app in Hb as [_ H]. exact H. }
      destruct (so_compare _ _ _ _ _ _ _ _ _ _ HS _ _ _ _ _ _ x key l v Hs Hx Hlab Hcmp) as [Heq Hne].
      assert (Hfound : key = l -> wpx L (let* r := n_compare NO (m_nlm _ _ m1) x key in Ret (UPtr (fst r), m1))
        (fun '(r, m') => r = UPtr (Some p) /\ same_map m m' /\
        exists b', mrep TO NO e srep m' S D M b' loc lab /\ quiet loc b (m_trie _ _ m) b' (m_trie _ _ m'))).
      { intros ->. assert (Ek : keyof D π = k). { unfold keyof. rewrite (label_some D π l v Hl). exact Hsp. }
        assert (π = ρ) as ->.
        { pose proof (reach_keyof S D HD π l v Hl) as H1. rewrite Ek in H1. apply (reach_det D [] k π ρ H1 Hreach0). }
        rewrite Hy in Hx. injection Hx as <-. rewrite Hρ in Hl. injection Hl as <- <-.
        rewrite Sn, Ep, bind_ret. apply wpx_ret. split; [reflexivity|]. split; [exact Hsame|]. eauto. }
      destruct key as [|c' key'].
      + destruct Hcmp as [[_ ->]|[Hc _]]; [|destruct (okey_nil Hc)]. specialize (Hfound eq_refl).
        destruct (n_compare NO (m_nlm _ _ m1) x []) as [[pp ii]| | | |]; exact Hfound.
      + set (key := c' :: key') in *. destruct (decide (key = l)) as [El|El].
        * specialize (Hfound El). destruct (Heq El) as (pp & ii & E & Hp). rewrite E, bind_ret in *. exact Hfound.
        * rewrite (Hne El), bind_ret.
          destruct (compat_split key l c' key' Hcmp eq_refl El) as (a & c & d & r & l' & Ek & Ell & Hcd & Ha & Hr).
          rewrite <- Ha. rewrite (advance_split a r c key Ek). rewrite (mr_lam _ _ _ _ _ _ _ _ _ _ _ R1).
          assert (Hlen3 : (length key = length a + 1 + length r)%nat) by (rewrite Ek, app_length; simpl; clear; lia).
          assert (Hc256 : c < 256). { rewrite Ek in Hbk. apply Forall_app in Hbk as [_ Hbk]. apply Forall_cons_1 in Hbk as [H _]. exact H. }
          assert (Hr2 : reach D ((length a, c) :: π) r ρ). { rewrite Ek in Hreach. eapply reach_next; eassumption. }
          assert (Hch : is_Some (D !! ((length a, c) :: π))). { apply (reach_some D _ r ρ Hr2). }
          assert (HcS : c ∈ S). { pose proof (dvalid_inS S D _ HD Hch) as [H _]%Forall_cons_1. exact H. }
          destruct (mrep_loc _ _ _ _ _ _ _ _ _ _ HS m S D M b loc lab _ R Hch) as [w Hw]. simpl in Hw.
          destruct (so_pref _ _ _ _ _ _ _ _ _ _ HS _ _ _ _ _ _ _ Hs0 (mk_is_Some _ _ Hw)) as [z Hz].
          apply wpx_bind. eapply wpx_mono.
          { apply (steps_old _ _ _ _ _ _ x (N.of_nat (length a)) z Hs Hx); [|clear -Hcnt Hroom; lia|exact Hz].
            apply (N.le_lt_trans _ (N.of_nat (length k))); [clear -Hlen3 Hlk; lia|exact Hlen]. }
          intros [[[x2 m2] t2] n2] (-> & -> & -> & b2 & Hs2 & Hq2).
          cbn [deref]. rewrite bind_ret, Sc. rewrite vget_ok by (rewrite (co_len _ _ _ HC); exact Hc256). rewrite bind_ret.
          rewrite (codes_ok_255 _ _ S c HC Hc256), (bool_decide_eq_true_2 _ HcS). cbn [negb]. rewrite bind_ret.
          rewrite (make_symb_ok e _ _ S HC dbg (length a) c HcS He), bind_ret.
          apply wpx_bind. eapply wpx_mono.
          { apply (so_leaf_old _ _ _ _ _ _ _ _ _ _ HS b2 t2 _ loc lab _ z (esym e (m_codes _ _ m) (length a) c) (advance (c :: r) 1) w Hs2 Hz).
            - apply (esym_lt e _ _ S HC _ c HcS He).
            - intros HBt E. apply (HB HBt). destruct π as [|[mm cc] π0].
              + simpl in E. injection E as E1 E2. apply app_nil in E2 as [E2 _].
                assert (Ec : vnth (m_codes _ _ m) c = 0). { unfold esym in E1. clear -E1; lia. }
                destruct (co_0 _ _ _ HC) as [H0S H0c].
                assert (c = 0) as ->. { apply (co_inj _ _ _ HC c 0); [exact HcS|exact H0S|]. rewrite Ec, H0c. reflexivity. }
                assert (Em0 : length a = 0%nat).
                { destruct (esteps e (length a)) as [|j] eqn:Est; [|discriminate].
                  unfold esteps in Est. unfold esym in E1.
                  pose proof (N.div_mod (N.of_nat (length a)) (2 ^ e)) as Hdm. pose proof pow_pos.
                  assert (N.of_nat (length a) mod 2 ^ e = 0) by (clear -E1; lia).
                  assert (N.of_nat (length a) / 2 ^ e = 0) by (clear -Est; lia).
                  rewrite H0, H1 in Hdm. specialize (Hdm ltac:(clear -H; lia)). clear -Hdm; lia. }
                destruct a; [|discriminate]. destruct Hr as [[_ ->]|[H _]]; [|congruence].
                simpl in Hsp. rewrite <- Hsp. exact Ek.
              + exfalso. apply (f_equal length) in E. simpl in E. rewrite app_length in E. simpl in E. clear -E; lia.
            - clear -Hcnt Hroom; lia.
            - exact Hw. }
          intros [[[o x4] t4] n4] (-> & -> & -> & b4 & Hs4 & Hq4). apply wpx_ret.
          split; [|change (advance (c :: r) 1) with r; clear -Hlen3; lia].
          destruct Hch as [[lc vc] Hch]. exists ((length a, c) :: π), lc, vc, b4.
          split. { repeat split; cbn; auto. rewrite (mr_lam _ _ _ _ _ _ _ _ _ _ _ R). reflexivity. }
          split. { destruct R1. split; cbn; auto; rewrite <- Sc; assumption. }
          split. { eapply quiet_trans; [exact Hq1|]. eapply quiet_trans; [exact Hq2|exact Hq4]. }
          split; [exact Hw|]. split; [exact Hch|]. change (advance (c :: r) 1) with r.
          split; [apply (compat_child S D π (length a) c lc vc r HD Hch Hr)|].
          split; [exists (pre ++ a ++ [c]); rewrite Epre, Ek, <- !app_assoc; reflexivity|]. split; [|exact Hr2].
          simpl spell. rewrite (label_some D π l v Hl), Ell, take_app. rewrite <- Hsp, Ek, <- !app_assoc. reflexivity.
  Qed.
End present.

(** ** update does what find does *)
Lemma loop_lock {S R S' R'} (L : Prop) (f : S -> outcome (S + R)) (g : S' -> outcome (S' + R')) (I : S -> S' -> Prop)
    (Good : R -> Prop) (Q : R -> R' -> Prop) s s' r :
  I s s' -> (forall s s', I s s' -> match f s with
    | Ret (inl s1) => wpx L (g s') (fun y => match y with inl s1' => I s1 s1' | inr _ => False end)
    | Ret (inr r) => Good r -> wpx L (g s') (fun y => match y with inl _ => False | inr r' => Q r r' end)
    | _ => True end) ->
  loop f s = Ret r -> Good r -> wpx L (loop g s') (Q r).
Proof.
  intros HI Hf. with_strategy transparent [loop] unfold loop. rewrite !ploop_nloop. generalize (Pos.to_nat fuel64). intros n.
  revert s s' HI. induction n as [|n IH]; intros s s' HI; [discriminate|]. simpl nloop. specialize (Hf s s' HI).
  destruct (f s) as [[s1|r1]| | | |]; try discriminate.
  - intros E HG. destruct (g s') as [[s1'|r1']| | | |]; simpl in Hf |- *; try contradiction; [|exact Hf]. apply (IH s1 s1' Hf E HG).
  - intros E HG. injection E as ->. specialize (Hf HG). destruct (g s') as [[s1'|r1']| | | |]; simpl in Hf |- *; try contradiction; exact Hf.
Qed.

Lemma loop_inv_ret {S R} (f : S -> outcome (S + R)) (I : S -> Prop) (Q : R -> Prop) s r :
  I s -> (forall s, I s -> match f s with Ret (inl s) => I s | Ret (inr r) => Q r | _ => True end) ->
  loop f s = Ret r -> Q r.
Proof.
  intros HI Hf. with_strategy transparent [loop] unfold loop. rewrite ploop_nloop. generalize (Pos.to_nat fuel64). intros n.
  revert s HI. induction n as [|n IH]; intros s HI; [discriminate|]. simpl nloop. specialize (Hf s HI).
  destruct (f s) as [[s'|r']| | | |]; try discriminate; [apply IH, Hf|]. intros E. injection E as <-. exact Hf.
Qed.

Section like_find.
  Context (dbg : bool) (TO : trie_ops) (NO : nlm_ops) (L : lims) (mf e : N) (B : bool) {Q : Type} (stable : nT NO -> N -> Q -> Prop).
  Context (srep : N -> tT TO -> nT NO -> locmap -> labmap -> Prop) (sfresh : N -> tT TO -> nT NO -> Prop).
  Context (npt : nT NO -> N -> ptr -> Prop).
  Hypothesis HS : store_ok TO NO L mf (8 + e) B stable srep sfresh npt.
  Hypothesis He : e <= 39.
  Notation map_st := (map_st TO NO).
  Notation quiet := (quiet TO mf).

  Lemma steps_like b t b1 t1 n loc lab p x mtch y m' : srep b t n loc lab -> srep b1 t1 n loc lab ->
    loc !! p = Some x -> N.of_nat (size loc) + 1 < l_max L ->
    find_steps TO (2 ^ e) t x mtch = Ret (Some (y, m')) ->
    m' < 2 ^ e /\ (exists q, loc !! q = Some y) /\
    wpx L (update_steps TO NO (2 ^ e) t1 n x mtch) (fun '(y', m1, t2, n2) => y' = y /\ m1 = m' /\ n2 = n /\
      exists b2, srep b2 t2 n loc lab /\ quiet loc b1 t1 b2 t2).
  Proof.
    intros Hs Hs1 Hp Hroom E. unfold find_steps in E.
    assert (Hstep : step_symb < 2 ^ (8 + e)).
    { apply (N.lt_le_trans _ (2 ^ 8)); [reflexivity|]. apply N.pow_le_mono_r; [discriminate|lia]. }
    assert (Hend : m' < 2 ^ e /\ exists q, loc !! q = Some y).
    { revert E. match goal with |- loop ?ff ?ss = Ret ?rr -> _ =>
        intros E; apply (loop_inv_ret ff (fun '(z, _) => exists q, loc !! q = Some z)
          (fun r => match r with Some (z, mm) => mm < 2 ^ e /\ exists q, loc !! q = Some z | None => True end) ss rr) in E; [exact E|eauto|] end.
      intros [z mm] [q Hq]. destruct (N.leb_spec (2 ^ e) mm) as [Hge|Hlt]; [|split; [exact Hlt|eauto]].
      rewrite (so_find _ _ _ _ _ _ _ _ _ _ HS _ _ _ _ _ _ _ _ Hs Hq Hstep), bind_ret.
      destruct (loc !! (step_symb :: q)) as [z2|] eqn:Ez; cbn [default from_option]; unfold id.
      - destruct (N.eqb z2 nil_id); [exact I|]. eauto.
      - rewrite N.eqb_refl. exact I. }
    destruct Hend as [H1 H2]. split; [exact H1|]. split; [exact H2|]. unfold update_steps.
    revert E. match goal with |- loop ?ff ?ss = Ret ?rr -> wpx _ (loop ?gg ?ss') ?QQ => intros E;
      refine (wpx_mono _ _ _ _ (loop_lock L ff gg
        (fun '(z, mm) '(z', mm', t2, n2) => z' = z /\ mm' = mm /\ n2 = n /\ (exists q, loc !! q = Some z) /\
           exists b2, srep b2 t2 n loc lab /\ quiet loc b1 t1 b2 t2)
        (fun r => is_Some r)
        (fun r '(z', mm', t2, n2) => r = Some (z', mm') /\ n2 = n /\ exists b2, srep b2 t2 n loc lab /\ quiet loc b1 t1 b2 t2)
        ss ss' rr _ _ E _) _) end.
    - split; [reflexivity|]. split; [reflexivity|]. split; [reflexivity|]. split; [eauto|]. exists b1. split; [exact Hs1|apply quiet_refl].
    - intros [z mm] [[[z' mm'] t2] n2] (-> & -> & -> & [q Hq] & b2 & Hs2 & Hq2).
      destruct (N.leb_spec (2 ^ e) mm) as [Hge|Hlt].
      + rewrite (so_find _ _ _ _ _ _ _ _ _ _ HS _ _ _ _ _ _ _ _ Hs Hq Hstep), bind_ret.
        destruct (loc !! (step_symb :: q)) as [z2|] eqn:Ez; cbn [default from_option]; unfold id.
        * destruct (N.eqb z2 nil_id); [intros [? ?]; discriminate|].
          apply wpx_bind. eapply wpx_mono.
          { apply (so_step_old _ _ _ _ _ _ _ _ _ _ HS b2 t2 n loc lab q z z2 Hs2 Hq Hstep Hroom Ez). }
          intros [[y2 t3] n3] (-> & -> & b3 & Hs3 & Hq3). apply wpx_ret. split; [reflexivity|]. split; [reflexivity|]. split; [reflexivity|].
          split; [eauto|]. exists b3. split; [exact Hs3|eapply quiet_trans; eassumption].
        * rewrite N.eqb_refl. intros [? ?]; discriminate.
      + intros _. apply wpx_ret. split; [reflexivity|]. eauto.
    - eauto.
    - intros [[[z mm] t2] n2] (Er & -> & Hx). injection Er as -> ->. auto.
  Qed.

  (** [0] is the path of the key of one NUL that is not the first key. *)
  Lemma no_nul_path m S D M b loc lab : mrep TO NO e srep m S D M b loc lab -> is_Some (loc !! [0]) -> is_Some (M !! [0]).
  Proof.
    intros R H. pose proof (mr_D _ _ _ _ _ _ _ _ _ _ _ R) as HD. destruct (mr_dict _ _ _ _ _ _ _ _ _ _ _ R) as [Hd1 _].
    pose proof (mr_codes _ _ _ _ _ _ _ _ _ _ _ R) as HC.
    destruct (mr_nodes _ _ _ _ _ _ _ _ _ _ _ R [0] H) as (j & π & E & Hf). apply fits_some in Hf as Hπ.
    destruct j as [|j]; [|discriminate E]. destruct π as [|[mm cc] π]; [discriminate E|]. simpl in E. injection E as E1 E2.
    symmetry in E2. apply app_nil in E2 as [E2 E3]. destruct π as [|[? ?] ?]; [|discriminate E3].
    destruct Hπ as [[l v] Hl]. destruct (dv_node _ _ HD _ _ _ _ _ Hl) as ((l' & v' & a & d & r & Hl' & Ell & Ha & Hcd) & HcS & Hc0).
    destruct (co_0 _ _ _ HC) as [H0S H0c].
    assert (cc = 0) as ->.
    { apply (co_inj _ _ _ HC cc 0); [exact HcS|exact H0S|]. rewrite H0c. unfold esym in E1. clear -E1; lia. }
    destruct (esteps e mm) as [|k] eqn:Est; [|discriminate E2].
    assert (Hm0 : mm = 0%nat).
    { unfold esteps in Est. unfold esym in E1. pose proof (N.div_mod (N.of_nat mm) (2 ^ e)) as Hdm. pose proof (pow_pos e) as Hpp.
      assert (H1 : N.of_nat mm mod 2 ^ e = 0) by (clear -E1; lia). assert (H2 : N.of_nat mm / 2 ^ e = 0) by (clear -Est; lia).
      rewrite H1, H2 in Hdm. specialize (Hdm ltac:(clear -Hpp; lia)). clear -Hdm; lia. }
    subst mm. destruct Hc0 as [[_ ->]|[Hc0 _]]; [|congruence].
    exists v. rewrite <- (Hd1 _ _ _ Hl). f_equal. unfold keyof. rewrite (label_some D _ _ _ Hl). simpl spell.
    rewrite (label_some D _ _ _ Hl'). destruct a; [reflexivity|discriminate].
  Qed.

  Lemma update_like_find m S D M b loc lab k p : mrep TO NO e srep m S D M b loc lab ->
    (B = true -> M !! [0] = None) -> node_bound e (dom M) + 1 < l_max L ->
    map_find dbg TO NO m k = Ret (Some p) ->
    wpx L (map_update dbg TO NO m k) (fun '(r, m') => r = UPtr (Some p) /\ same_map TO NO m m' /\
        exists b', mrep TO NO e srep m' S D M b' loc lab /\ quiet loc b (m_trie _ _ m) b' (m_trie _ _ m')).
  Proof.
    intros R HB Hroom. unfold map_find, map_update.
    destruct (check_key k) as [[]| | | |]; try discriminate. cbn [bind].
    pose proof (mr_store _ _ _ _ _ _ _ _ _ _ _ R) as Hs0. pose proof (mr_codes _ _ _ _ _ _ _ _ _ _ _ R) as HC.
    rewrite (mr_ready _ _ _ _ _ _ _ _ _ _ _ R). cbn [negb orb].
    rewrite (so_size _ _ _ _ _ _ _ _ _ _ HS _ _ _ _ _ Hs0).
    destruct (so_root _ _ _ _ _ _ _ _ _ _ HS _ _ _ _ _ Hs0) as (root & Er & Hroot).
    rewrite (proj2 (N.eqb_neq _ 0)).
    2:{ intros E. assert (size loc = 0%nat) as Ez by (clear -E; lia). apply map_size_empty_inv in Ez.
        rewrite Ez, lookup_empty in Hroot. discriminate. }
    rewrite Er, !bind_ret. pose proof (mrep_count _ _ _ _ _ _ _ _ _ _ _ R) as Hcnt.
    match goal with |- loop ?ff ?ss = Ret ?rr -> wpx _ (loop ?gg ?ss') ?QQ => intros E;
      refine (wpx_mono _ _ _ _ (loop_lock L ff gg
        (fun '(x, key) '(m1, x1, key1) => x1 = x /\ key1 = key /\ (exists q, loc !! q = Some x) /\
           same_map TO NO m m1 /\ exists b1, mrep TO NO e srep m1 S D M b1 loc lab /\ quiet loc b (m_trie _ _ m) b1 (m_trie _ _ m1))
        (fun r => is_Some r)
        (fun r '(r', m1) => r' = UPtr r /\ same_map TO NO m m1 /\
           exists b1, mrep TO NO e srep m1 S D M b1 loc lab /\ quiet loc b (m_trie _ _ m) b1 (m_trie _ _ m1))
        ss ss' rr _ _ E _) _) end.
    - split; [reflexivity|]. split; [reflexivity|]. split; [eauto|]. split; [repeat split|]. exists b. split; [exact R|apply quiet_refl].
    - intros [x key] [[m1 x1] key1] (-> & -> & [q Hq] & Hsame & b1 & R1 & Hq1).
      pose proof Hsame as (Sr & Sl & Sn & Sc & Snc & Ssz). unfold update_body. rewrite Sn.
      pose proof (mr_store _ _ _ _ _ _ _ _ _ _ _ R1) as Hs1. rewrite Sn in Hs1.
      destruct key as [|c0 key0].
      { destruct (n_compare NO (m_nlm _ _ m) x []) as [[vp mt]| | | |]; try exact I. cbn [bind fst]. intros _. apply wpx_ret. eauto. }
      set (key := c0 :: key0) in *.
      destruct (n_compare NO (m_nlm _ _ m) x key) as [[[vp|] mt]| | | |]; try exact I; cbn [bind].
      { intros _. apply wpx_ret. eauto. }
      rewrite Sl, (mr_lam _ _ _ _ _ _ _ _ _ _ _ R).
      destruct (find_steps TO (2 ^ e) (m_trie _ _ m) x mt) as [[[y m2]|]| | | |] eqn:Es; try exact I; cbn [bind]; [|intros [? ?]; discriminate].
      destruct (steps_like b (m_trie _ _ m) b1 (m_trie _ _ m1) (m_nlm _ _ m) loc lab q x mt y m2 Hs0 Hs1 Hq ltac:(clear -Hcnt Hroom; lia) Es)
        as (Hm2 & [q2 Hq2'] & Hst).
      destruct (deref (advance key mt)) as [c| | | |] eqn:Ed; try exact I. cbn [bind]. rewrite Sc.
      destruct (N.lt_ge_cases c 256) as [Hc|Hc].
      2:{ unfold vget. rewrite (co_len _ _ _ HC), (proj2 (N.ltb_ge _ _) Hc). exact I. }
      rewrite vget_ok by (rewrite (co_len _ _ _ HC); exact Hc). rewrite bind_ret.
      rewrite (codes_ok_255 _ _ S c HC Hc). destruct (bool_decide_reflect (c ∈ S)) as [HcS|HcS]; cbn [negb]; [|intros [? ?]; discriminate].
      assert (Em2 : m2 = N.of_nat (N.to_nat m2) mod 2 ^ e) by (rewrite N2Nat.id, N.mod_small by exact Hm2; reflexivity).
      assert (Emk : make_symb dbg (m_codes _ _ m) c m2 = Ret (esym e (m_codes _ _ m) (N.to_nat m2) c)).
      { rewrite Em2 at 1. apply (make_symb_ok e _ _ S HC dbg (N.to_nat m2) c HcS He). }
      rewrite Emk, bind_ret. set (s := esym e (m_codes _ _ m) (N.to_nat m2) c) in *.
      assert (Hslt : s < 2 ^ (8 + e)) by apply (esym_lt e _ _ S HC _ c HcS He).
      rewrite (so_find _ _ _ _ _ _ _ _ _ _ HS _ _ _ _ _ _ _ _ Hs0 Hq2' Hslt), bind_ret.
      destruct (loc !! (s :: q2)) as [z|] eqn:Ez; cbn [default from_option]; unfold id.
      2:{ rewrite N.eqb_refl. intros [? ?]; discriminate. }
      destruct (N.eqb z nil_id); [intros [? ?]; discriminate|].
      apply wpx_bind. eapply wpx_mono; [exact Hst|].
      intros [[[y' m3] t3] n3] (-> & -> & -> & b3 & Hs3 & Hq3). rewrite bind_ret, (codes_ok_255 _ _ S c HC Hc), (bool_decide_eq_true_2 _ HcS). cbn [negb bind]. rewrite Emk, bind_ret. fold s.
      apply wpx_bind. eapply wpx_mono.
      { apply (so_leaf_old _ _ _ _ _ _ _ _ _ _ HS b3 t3 _ loc lab q2 y s (advance (advance key mt) 1) z Hs3 Hq2' Hslt); [|clear -Hcnt Hroom; lia|exact Ez].
        intros HBt Epath. rewrite Epath in Ez. destruct (no_nul_path m S D M b loc lab R ltac:(eauto)) as [v Hv]. rewrite (HB HBt) in Hv. discriminate. }
      intros [[[o x4] t4] n4] (-> & -> & -> & b4 & Hs4 & Hq4). apply wpx_ret.
      split; [reflexivity|]. split; [reflexivity|]. split; [eauto|].
      split. { repeat split; cbn; auto. rewrite (mr_lam _ _ _ _ _ _ _ _ _ _ _ R). reflexivity. }
      exists b4. split.
      { destruct R1. split; cbn; auto; rewrite <- ?Sc; try assumption. }
      eapply (quiet_trans TO mf e He); [exact Hq1|]. eapply (quiet_trans TO mf e He); [exact Hq3|exact Hq4].
    - eauto.
    - intros [r m'] (-> & H1 & H2). auto.
  Qed.
End like_find.

(** ** Histories *)
Section present_hist.
  Context (dbg : bool) (TO : trie_ops) (NO : nlm_ops) (L : lims) (mf e : N) (B : bool) {Q : Type} (stable : nT NO -> N -> Q -> Prop).
  Context (srep : N -> tT TO -> nT NO -> locmap -> labmap -> Prop) (sfresh : N -> tT TO -> nT NO -> Prop).
  Context (npt : nT NO -> N -> ptr -> Prop).
  Hypothesis HS : store_ok TO NO L mf (8 + e) B stable srep sfresh npt.
  Hypothesis He : e <= 39.
  Hypothesis Hmf : 1 <= mf <= 99.
  Notation vs := (n_vs NO).
  Notation map_st := (map_st TO NO).
  Notation mpt := (mpt TO NO e npt).
  Notation minv := (minv TO NO e srep sfresh).
  Notation quiet := (quiet TO mf).

  Lemma minv_present m S D M b loc k v0 : minv m S D M b loc -> valid_key k -> N.of_nat (length k) < 2 ^ 64 ->
    (B = true -> k <> [0]) -> node_bound e (dom M) + 1 < l_max L -> M !! k = Some v0 ->
    exists p, map_find dbg TO NO m k = Ret (Some p) /\ mpt m D loc k p /\
      wpx L (map_update dbg TO NO m k) (fun '(r, m') => r = UPtr (Some p) /\ same_map TO NO m m' /\
        exists b', minv m' S D M b' loc /\ quiet loc b (m_trie _ _ m) b' (m_trie _ _ m')).
  Proof.
    intros [(-> & -> & -> & -> & Hf)|[lab R]] Hk Hlen HB Hroom HM; [rewrite lookup_empty in HM; discriminate|].
    destruct (valid_okey k Hk) as [Hok Hb].
    destruct (update_present dbg TO NO L mf e B stable srep sfresh npt HS He m S D M b loc lab k v0 R Hok Hb Hlen HB Hroom HM)
      as (p & H1 & H2 & H3).
    exists p. split; [exact H1|]. split; [exact H2|]. eapply wpx_mono; [exact H3|].
    intros [r m'] (Hr & Hsm & b' & R' & Hq). split; [exact Hr|]. split; [exact Hsm|]. exists b'. split; [right; eauto|exact Hq].
  Qed.
  Lemma same_mpt m m' D loc k p : same_map TO NO m m' -> mpt m D loc k p -> mpt m' D loc k p.
  Proof.
    intros (_ & _ & En & Ec & _) (π & x & H1 & H2 & H3 & H4). exists π, x. rewrite En, Ec. auto.
  Qed.

  Definition phandles (m : map_st) (D : dmap) (loc : locmap) (hs : list (option ptr)) (ks : list (option (list N))) : Prop :=
    Forall2 (fun o k => match k with Some k => exists p, o = Some p /\ mpt m D loc k p | None => True end) hs ks.
  Lemma phandles_mono m D loc m' D' loc' hs ks :
    (forall k p, mpt m D loc k p -> mpt m' D' loc' k p) -> phandles m D loc hs ks -> phandles m' D' loc' hs ks.
  Proof.
    intros H Hh. eapply Forall2_impl; [exact Hh|]. intros o [k|]; simpl; [|auto]. intros (p & E & Hp). eauto.
  Qed.
  Lemma phandles_none m D loc m' D' loc' hs ks :
    phandles m D loc hs ks -> phandles m' D' loc' hs (map (fun _ => None) ks).
  Proof. intros Hh. induction Hh; constructor; auto. Qed.

  Theorem prun_ok ops : forall m hs S D M ks b loc (A : gset N) r, minv m S D M b loc ->
    phandles m D loc hs ks ->
    Forall (hvalid_op vs) ops -> (B = true -> Forall (fun k => k <> [0]) (hupdated ops)) ->
    S ⊆ A -> alphabet (hupdated ops) ⊆ A -> (size A <= 254)%nat ->
    node_bound e (dom M ∪ list_to_set (hupdated ops)) + 1 < l_max L ->
    pspec_run vs (M, ks) ops = Some r ->
    wpx L (hapi_run dbg TO NO m hs ops) (fun '(xs, m', hs') => xs = fst r /\
      exists S' D' b' loc', b <= b' /\ minv m' S' D' (fst (snd r)) b' loc' /\ phandles m' D' loc' hs' (snd (snd r))).
  Proof.
    induction ops as [|o ops IH]; intros m hs S D M ks b loc A r Hi Hh Hv HB HSA HA HA4 Hroom Hr.
    - simpl in Hr. injection Hr as <-. apply wpx_ret. split; [reflexivity|]. exists S, D, b, loc. split; [reflexivity|]. auto.
    - apply Forall_cons_1 in Hv as [Hv Hvs]. cbn [pspec_run] in Hr.
      destruct (pspec_step vs (M, ks) o) as [[x [M1 ks1]]|] eqn:Eo; [|discriminate].
      destruct (pspec_run vs (M1, ks1) ops) as [[xs s']|] eqn:Er; [|discriminate]. injection Hr as <-.
      cbn [hapi_run]. apply wpx_bind.
      assert (Hrest : forall m1 hs1 S1 D1 b1 loc1, b <= b1 -> minv m1 S1 D1 M1 b1 loc1 -> phandles m1 D1 loc1 hs1 ks1 ->
         S1 ⊆ A -> (B = true -> Forall (fun k => k <> [0]) (hupdated ops)) -> alphabet (hupdated ops) ⊆ A ->
         node_bound e (dom M1 ∪ list_to_set (hupdated ops)) + 1 < l_max L ->
         wpx L (let* r := hapi_run dbg TO NO m1 hs1 ops in let '(xs, m, hs) := r in Ret (x :: xs, m, hs))
           (fun '(xs', m', hs') => xs' = fst (x :: xs, s') /\ exists S' D' b' loc', b <= b' /\
              minv m' S' D' (fst (snd (x :: xs, s'))) b' loc' /\ phandles m' D' loc' hs' (snd (snd (x :: xs, s'))))).
      { intros m1 hs1 S1 D1 b1 loc1 Hb1 Hi1 Hh1 HS1 HB1 HA1 Hroom1. apply wpx_bind. eapply wpx_mono.
        { apply (IH m1 hs1 S1 D1 M1 ks1 b1 loc1 A (xs, s')); eassumption. }
        intros [[ys m2] hs2] (-> & S2 & D2 & b2 & loc2 & Hb2 & Hi2 & Hh2). apply wpx_ret. split; [reflexivity|].
        exists S2, D2, b2, loc2. split; [lia|]. auto. }
      destruct o as [k|k|i|i w]; unfold hapi_step.
      + destruct Hv as [Hk Hsm]. change (hupdated (HUpdate k :: ops)) with (k :: hupdated ops) in *.
        assert (HkA : (list_to_set k : gset N) ⊆ A /\ alphabet (hupdated ops) ⊆ A).
        { unfold alphabet in *. simpl in HA. rewrite list_to_set_app_L in HA. set_solver. }
        destruct HkA as [HkA HAo].
        assert (HB1 : B = true -> k <> [0]) by (intros Hb; specialize (HB Hb); apply Forall_cons_1 in HB as [H _]; exact H).
        assert (HB2 : B = true -> Forall (fun k => k <> [0]) (hupdated ops))
          by (intros Hb; specialize (HB Hb); apply Forall_cons_1 in HB as [_ H]; exact H).
        assert (Hroom0 : node_bound e (dom M) + 1 < l_max L) by (revert Hroom; apply nb_room; clear; set_solver).
        unfold pspec_step in Eo. destruct (M !! k) as [v0|] eqn:EM.
        * injection Eo as <- <- <-.
          destruct (minv_present m S D M b loc k v0 Hi Hk ltac:(unfold small in Hsm; lia) HB1 Hroom0 EM) as (p & Ef & Hp & Hup).
          apply wpx_bind. eapply wpx_mono; [exact Hup|].
          intros [r m1] (-> & Hsame & b1 & Hi1 & Hq). apply wpx_ret.
          apply (Hrest m1 (hs ++ [Some p]) S D b1 loc); auto.
          -- destruct Hq as [[_ ->]|(_ & H & _)]; lia.
          -- apply Forall2_app.
             { apply (phandles_mono m D loc); [|exact Hh]. intros k' q. apply same_mpt, Hsame. }
             constructor; [|constructor]. exists p. split; [reflexivity|]. apply (same_mpt m); assumption.
          -- revert Hroom. apply nb_room. rewrite list_to_set_cons. clear. set_solver.
        * injection Eo as <- <- <-. apply wpx_bind. eapply wpx_mono.
          { apply (update_alpha dbg TO NO L mf e B stable srep sfresh npt HS He Hmf m S D M b loc k A Hi Hk Hsm); auto. }
          intros [r m1] (p & S1 & D1 & b1 & loc1 & -> & Hb1 & HS1 & _ & Hi1 & Hp1). apply wpx_ret.
          rewrite EM in Hi1. cbn [default from_option] in Hi1.
          apply (Hrest m1 (hs ++ [Some p]) S1 D1 b1 loc1); auto.
          -- rewrite <- zeros_replicate. exact Hi1.
          -- apply Forall2_app; [exact (phandles_none m D loc m1 D1 loc1 hs ks Hh)|]. constructor; [eauto|constructor].
          -- revert Hroom. apply nb_room. rewrite dom_insert_L, list_to_set_cons. clear. set_solver.
      + destruct Hv as (Hk & Hlen). change (hupdated (HFind k :: ops)) with (hupdated ops) in *.
        destruct (valid_okey k Hk) as [Hok Hb].
        apply wpx_bind. eapply wpx_mono.
        { apply wp_wpx. apply (minv_find dbg TO NO L mf e B stable srep sfresh npt HS He m S D M b loc k Hi Hok Hb Hlen). }
        intros [p|] Hres.
        * destruct Hres as [[v Hv] Hp]. simpl in Eo. rewrite Hv in Eo. injection Eo as <- <- <-. apply wpx_ret.
          apply (Hrest m (hs ++ [Some p]) S D b loc); auto; try lia.
          apply Forall2_app; [exact Hh|]. constructor; [eauto|constructor].
        * simpl in Eo. rewrite Hres in Eo. injection Eo as <- <- <-. apply wpx_ret.
          apply (Hrest m (hs ++ [None]) S D b loc); auto; try lia.
          apply Forall2_app; [exact Hh|]. constructor; [exact I|constructor].
      + change (hupdated (HRead i :: ops)) with (hupdated ops) in *. simpl in Eo.
        destruct (ks !! i) as [[k|]|] eqn:Ek; try discriminate.
        destruct (Forall2_lookup_r _ _ _ i _ Hh Ek) as (o & Eh & p & -> & Ho).
        destruct (M !! k) as [v|] eqn:EM; [|discriminate]. injection Eo as <- <- <-.
        rewrite Eh. destruct (minv_read TO NO L mf e B stable srep sfresh npt HS m S D M b loc k p Hi Ho) as (v' & Hv1 & Erd).
        rewrite EM in Hv1. injection Hv1 as <-. unfold map_read. rewrite Erd, bind_ret. apply wpx_ret.
        apply (Hrest m hs S D b loc); auto; lia.
      + change (hupdated (HWrite i w :: ops)) with (hupdated ops) in *. simpl in Eo.
        destruct (ks !! i) as [[k|]|] eqn:Ek; try discriminate.
        destruct (Forall2_lookup_r _ _ _ i _ Hh Ek) as (o & Eh & p & -> & Ho).
        destruct (decide (length w = vs)) as [Hw|]; [|discriminate]. injection Eo as <- <- <-.
        rewrite Eh. destruct (minv_write TO NO L mf e B stable srep sfresh npt HS m S D M b loc k p w Hi Ho Hw)
          as (h & D2 & Ewr & Hi2 & Hpt2 & _).
        unfold map_write. rewrite Ewr, !bind_ret. apply wpx_ret.
        destruct (minv_read TO NO L mf e B stable srep sfresh npt HS m S D M b loc k p Hi Ho) as (v' & Hv1 & _).
        apply (Hrest _ hs S D2 b loc); auto; try lia.
        * apply (phandles_mono m D loc); [exact Hpt2|exact Hh].
        * rewrite dom_insert_lookup_L by eauto. exact Hroom.
  Qed.
End present_hist.

(** ** Every instantiation *)
Section present_inst.
  Context (dbg : bool) (vs : nat) (i : inst) (cb e : N).
  Hypothesis Hvi : valid_inst i.

  Lemma i_prun_ok ops r : i_supported vs i cb e (hupdated ops) ->
    Forall (hvalid_op vs) ops -> i_no_trap dbg i (hupdated ops) -> pspec_run vs (∅, []) ops = Some r ->
    exists m0, i_new dbg vs i cb (2 ^ e) = Ret m0 /\
      i_yields i cb e (hupdated ops) (i_hrun dbg vs i m0 ops) (fun '(seen, _, _) => seen = fst r).
  Proof.
    intros Hsup Hv Hnt Hr. destruct (i_supported_limit _ _ _ _ _ Hvi Hsup) as (He & Hcb & Hroom & _).
    pose proof (proj1 Hvi) as Hmf. destruct Hsup as (Hvs & Hcb' & Hn & HA).
    assert (HB : 16 <= N.max 16 cb) by lia.
    destruct (inst_pack dbg vs i e (N.max 16 cb) (nodes_for e (hupdated ops) + 2) Hvi Hvs HB ltac:(lia)) as [K _].
    pose proof (ip_ok _ _ _ _ _ _ K) as PK.
    destruct (map_new_ok _ _ _ _ _ _ _ _ _ _ PK He cb Hcb) as (m0 & E & Hf); [reflexivity|].
    exists m0. split; [exact E|]. apply (mfresh_minv _ _ e (ip_srep _ _ _ _ _ _ K) (ip_sfresh _ _ _ _ _ _ K)) in Hf.
    apply (wpx_i_yields vs); [exact Hvi|repeat split; assumption|].
    eapply wpx_mono.
    { apply (prun_ok dbg _ _ _ _ e _ _ _ _ _ PK He Hmf ops m0 [] {[ 0 ]} ∅ ∅ [] _ ∅ (alphabet (hupdated ops)) r Hf).
      - constructor.
      - rewrite i_vs. exact Hv.
      - apply i_no_trap_forall, Hnt.
      - unfold alphabet. set_solver.
      - reflexivity.
      - exact HA.
      - cbn [i_lim l_max]. rewrite dom_empty_L, union_empty_l_L. unfold nodes_for. lia.
      - rewrite i_vs. exact Hr. }
    intros [[seen m1] hs] [-> _]. reflexivity.
  Qed.

  Lemma i_update_present ops m0 xs m k : i_supported vs i cb e (updated ops) ->
    Forall (valid_op vs) ops -> i_no_trap dbg i (updated ops) ->
    i_new dbg vs i cb (2 ^ e) = Ret m0 -> i_run dbg vs i m0 ops = Ret (xs, m) -> In k (updated ops) ->
    exists p, i_find dbg vs i m k = Ret (Some p) /\
      i_yields i cb e (updated ops) (i_update dbg vs i m k) (fun '(r, m') => r = UPtr (Some p) /\
        (m' = m \/
         (is_fkhash i = true /\ i_capa_size dbg vs i m < i_capa_size dbg vs i m' /\
          i_size dbg vs i m' = i_size dbg vs i m /\ i_nodes dbg vs i m' = i_nodes dbg vs i m /\
          i_labels dbg vs i m' = i_labels dbg vs i m))).
  Proof.
    intros Hsup Hv Hnt Hnew Hrun Hin. destruct (i_supported_limit _ _ _ _ _ Hvi Hsup) as (He & _).
    destruct (i_reach_inv dbg vs i cb e ops m Hvi Hsup Hv Hnt) as (K & S & D & b & loc & Hi & _); [exists m0, xs; auto|].
    pose proof (ip_ok _ _ _ _ _ _ K) as PK.
    assert (Hdom : dom (final vs ops) = list_to_set (updated ops)) by apply dom_final.
    assert (Hk : is_Some (final vs ops !! k)).
    { apply elem_of_dom. rewrite Hdom. apply elem_of_list_to_set, elem_of_list_In, Hin. }
    destruct Hk as [v0 Hk].
    assert (Hvk : valid_key k /\ N.of_nat (length k) < 2 ^ 64).
    { clear -Hv Hin. induction ops as [|o ops IH]; [destruct Hin|]. apply Forall_cons_1 in Hv as [Hv Hvs].
      unfold updated in Hin. cbn [flat_map] in Hin. apply in_app_or in Hin as [Hin|Hin]; [|apply IH; assumption].
      destruct o as [k' w|k']; [|destruct Hin]. destruct Hin as [<-|[]]. destruct Hv as (H1 & H2 & _). split; [exact H1|lia]. }
    destruct Hvk as [Hvk Hlen].
    assert (HBk : i_traps dbg i = true -> k <> [0]) by (intros Ht ->; apply (Hnt Ht Hin)).
    destruct (minv_present dbg _ _ _ _ e _ _ _ _ _ PK He m S D _ b loc k v0 Hi Hvk Hlen HBk) as (p & Ef & _ & Hup).
    { cbn [i_lim l_max]. rewrite Hdom. unfold nodes_for. lia. }
    { exact Hk. }
    exists p. split; [exact Ef|]. apply (wpx_i_yields vs); [exact Hvi|exact Hsup|].
    eapply wpx_mono; [exact Hup|]. intros [r m'] (-> & (E1 & E2 & E3 & E4 & E5 & E6) & b' & Hi' & Hq). split; [reflexivity|].
    destruct Hq as [[Et _]|(Hfk & Hlt & _)].
    - left. destruct m, m'. cbn in *. congruence.
    - right. split. { unfold is_fkhash. destruct i as [[] []]; cbn in Hfk |- *; congruence. }
      pose proof (minv_capa _ _ _ _ _ _ _ _ _ _ PK m _ _ _ _ _ Hi) as (Hr & Hc & Hs & _).
      pose proof (minv_capa _ _ _ _ _ _ _ _ _ _ PK m' _ _ _ _ _ Hi') as (Hr' & Hc' & Hs' & _).
      split; [|split; [exact E6|split; [unfold i_nodes; congruence|exact E3]]].
      unfold i_capa_size, map_capa_size. rewrite Hc, Hc'.
      pose proof (minv_bits _ _ _ _ _ _ _ _ _ _ PK m _ _ _ _ _ Hi) as Hb.
      pose proof (minv_bits _ _ _ _ _ _ _ _ _ _ PK m' _ _ _ _ _ Hi') as Hb'. unfold bits_limit in Hb, Hb'.
      rewrite !p2_size_ones by lia. apply pow2_lt, Hlt.
  Qed.
  (** The same for any byte range for which find returns a pointer. *)
  Lemma i_update_as_find ops m0 xs m k p : i_supported vs i cb e (updated ops) ->
    Forall (valid_op vs) ops -> i_no_trap dbg i (updated ops) ->
    i_new dbg vs i cb (2 ^ e) = Ret m0 -> i_run dbg vs i m0 ops = Ret (xs, m) -> i_find dbg vs i m k = Ret (Some p) ->
    i_yields i cb e (updated ops) (i_update dbg vs i m k) (fun '(r, m') => r = UPtr (Some p) /\
        (m' = m \/
         (is_fkhash i = true /\ i_capa_size dbg vs i m < i_capa_size dbg vs i m' /\
          i_size dbg vs i m' = i_size dbg vs i m /\ i_nodes dbg vs i m' = i_nodes dbg vs i m /\
          i_labels dbg vs i m' = i_labels dbg vs i m))).
  Proof.
    intros Hsup Hv Hnt Hnew Hrun Hfind. destruct (i_supported_limit _ _ _ _ _ Hvi Hsup) as (He & _).
    destruct (i_reach_inv dbg vs i cb e ops m Hvi Hsup Hv Hnt) as (K & S & D & b & loc & Hi & _); [exists m0, xs; auto|].
    pose proof (ip_ok _ _ _ _ _ _ K) as PK.
    assert (Hdom : dom (final vs ops) = list_to_set (updated ops)) by apply dom_final.
    assert (HB0 : i_traps dbg i = true -> final vs ops !! [0] = None).
    { intros Ht. apply not_elem_of_dom. rewrite Hdom. intros H. apply elem_of_list_to_set, elem_of_list_In in H. apply (Hnt Ht H). }
    unfold i_find in Hfind. pose proof Hi as Hi0. destruct Hi0 as [(_ & _ & _ & _ & Hf)|[lab R]].
    { exfalso. unfold map_find in Hfind. destruct (check_key k) as [[]| | | |]; try discriminate Hfind. cbn [bind] in Hfind.
      destruct (so_fresh _ _ _ _ _ _ _ _ _ _ PK _ _ _ (mf_store _ _ _ _ _ _ Hf)) as [Hz _]. rewrite Hz, orb_true_r in Hfind.
      discriminate Hfind. }
    apply (wpx_i_yields vs); [exact Hvi|exact Hsup|].
    eapply wpx_mono.
    { apply (update_like_find dbg _ _ _ _ e _ _ _ _ _ PK He m S D _ b loc lab k p R HB0); [|exact Hfind].
      cbn [i_lim l_max]. rewrite Hdom. unfold nodes_for. lia. }
    intros [r m'] (-> & (E1 & E2 & E3 & E4 & E5 & E6) & b' & R' & Hq). split; [reflexivity|].
    assert (Hi' : minv _ _ e (ip_srep _ _ _ _ _ _ K) (ip_sfresh _ _ _ _ _ _ K) m' S D (final vs ops) b' loc) by (right; eauto).
    destruct Hq as [[Et _]|(Hfk & Hlt & _)].
    - left. destruct m, m'. cbn in *. congruence.
    - right. split. { unfold is_fkhash. destruct i as [[] []]; cbn in Hfk |- *; congruence. }
      pose proof (minv_capa _ _ _ _ _ _ _ _ _ _ PK m _ _ _ _ _ Hi) as (Hr & Hc & Hs & _).
      pose proof (minv_capa _ _ _ _ _ _ _ _ _ _ PK m' _ _ _ _ _ Hi') as (Hr' & Hc' & Hs' & _).
      split; [|split; [exact E6|split; [unfold i_nodes; congruence|exact E3]]].
      unfold i_capa_size, map_capa_size. rewrite Hc, Hc'.
      pose proof (minv_bits _ _ _ _ _ _ _ _ _ _ PK m _ _ _ _ _ Hi) as Hb.
      pose proof (minv_bits _ _ _ _ _ _ _ _ _ _ PK m' _ _ _ _ _ Hi') as Hb'. unfold bits_limit in Hb, Hb'.
      rewrite !p2_size_ones by lia. apply pow2_lt, Hlt.
  Qed.
End present_inst.

(** ** The aliases, any byte range *)
Lemma nul_update dbg vs a cb e ops m k p :
  supported vs cb e (updated ops) -> Forall (valid_op vs) ops -> no_trap dbg a (updated ops) ->
  reaches dbg vs a cb e ops m -> a_find dbg vs a m k = Ret (Some p) ->
  yields a cb e (updated ops) (a_update dbg vs a m k) (fun '(r, m') => r = UPtr (Some p) /\
    a_size dbg vs a m' = a_size dbg vs a m /\ m_nlm _ _ m' = m_nlm _ _ m /\ a_nodes dbg vs a m' = a_nodes dbg vs a m /\
    forall k', valid_key k' -> N.of_nat (length k') < 2 ^ 64 -> find_value dbg vs a m' k' = find_value dbg vs a m k').
Proof.
  intros Hsup Hv Hnt Hr Hfind. destruct (supported_limit _ _ _ _ Hsup) as (He & Hcb & _).
  destruct (reach_inv dbg vs a cb e _ Hsup ops [] m (eq_sym (app_nil_r _)) Hv Hnt Hr) as (S & D & b & loc & Hi & _).
  pose proof (reach_pk dbg vs a cb e _ Hsup) as PK.
  assert (Hdom : dom (final vs ops) = list_to_set (updated ops)) by apply dom_final.
  assert (HB0 : traps dbg a = true -> final vs ops !! [0] = None).
  { intros Ht. apply not_elem_of_dom. rewrite Hdom. intros H. apply elem_of_list_to_set, elem_of_list_In in H. apply (Hnt Ht H). }
  unfold a_find in Hfind. pose proof Hi as Hi0. destruct Hi0 as [(_ & _ & _ & _ & Hf)|[lab R]].
  { exfalso. unfold map_find in Hfind. destruct (check_key k) as [[]| | | |]; try discriminate Hfind. cbn [bind] in Hfind.
    destruct (so_fresh _ _ _ _ _ _ _ _ _ _ PK _ _ _ (mf_store _ _ _ _ _ _ Hf)) as [Hz _]. rewrite Hz, orb_true_r in Hfind.
    discriminate Hfind. }
  apply wpx_yields; [destruct Hsup as (_ & H & _); lia|].
  eapply wpx_mono.
  { apply (update_like_find dbg _ _ _ _ e _ _ _ _ _ PK He m S D _ b loc lab k p R HB0); [|exact Hfind].
    cbn [alias_lim l_max]. rewrite Hdom. unfold nodes_for. lia. }
  intros [r m'] (-> & (E1 & E2 & E3 & E4 & E5 & E6) & b' & R' & Hq).
  assert (Hi' : alias_inv dbg vs a cb e (updated ops) m' S D (final vs ops) b' loc) by (right; eauto).
  split; [reflexivity|]. split; [exact E6|]. split; [exact E3|]. split.
  { pose proof (minv_capa _ _ _ _ _ _ _ _ _ _ PK m _ _ _ _ _ Hi) as (_ & _ & Hs & _).
    pose proof (minv_capa _ _ _ _ _ _ _ _ _ _ PK m' _ _ _ _ _ Hi') as (_ & _ & Hs' & _). unfold a_nodes. congruence. }
  intros k' Hk' Hl'. rewrite (inv_find dbg vs a cb e _ Hsup m S D _ b loc k' Hi Hk' Hl').
  apply (inv_find dbg vs a cb e _ Hsup m' S D _ b' loc k' Hi' Hk' Hl').
Qed.
