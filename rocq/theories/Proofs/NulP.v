(** find with a key that goes on after its first NUL byte. *)
From Verif.Proofs Require Export LimitP.
Local Open Scope N_scope.
Local Notation enc := MapP.enc.

(** Loops with outcomes other than a result. *)
Section loop_any.
  Context {S R : Type} (f : S -> outcome (S + R)).
  Definition stops (I : S -> Prop) (mu : S -> N) (Q : outcome R -> Prop) (s : S) : Prop :=
    match f s with
    | Ret (inl s') => I s' /\ mu s' < mu s
    | Ret (inr r) => Q (Ret r)
    | Throw e => Q (Throw e)
    | UB => Q UB
    | AssertFail => Q AssertFail
    | Diverge => Q Diverge
    end.
  Lemma loop_any (I : S -> Prop) (mu : S -> N) (Q : outcome R -> Prop) s :
    I s -> mu s < 2 ^ 64 -> (forall s, I s -> stops I mu Q s) -> Q (loop f s).
  Proof.
    intros HI Hmu Hf. with_strategy transparent [loop] unfold loop. rewrite ploop_nloop.
    assert (H : forall n s, I s -> (N.to_nat (mu s) < n)%nat ->
      Q (match nloop f n s with Ret (inr r) => Ret r | Ret (inl _) => Diverge | Throw e => Throw e
         | UB => UB | AssertFail => AssertFail | Diverge => Diverge end)).
    { clear s HI Hmu. induction n as [|n IH]; intros s HI Hn; [lia|]. specialize (Hf s HI). unfold stops in Hf. simpl.
      destruct (f s) as [[s'|r]| | | |]; try exact Hf. destruct Hf as [HI' Hlt]. apply IH; [exact HI'|lia]. }
    apply H; [exact HI|].
    unfold fuel64. change (2^64) with 18446744073709551616 in Hmu. rewrite <- positive_N_nat. lia.
  Qed.
End loop_any.

Section ext.
  Context (dbg : bool) (TO : trie_ops) (NO : nlm_ops) (L : lims) (mf e : N) (B : bool) {Q : Type} (stable : nT NO -> N -> Q -> Prop).
  Context (srep : N -> tT TO -> nT NO -> locmap -> labmap -> Prop) (sfresh : N -> tT TO -> nT NO -> Prop).
  Context (npt : nT NO -> N -> ptr -> Prop).
  Hypothesis HS : store_ok TO NO L mf (8 + e) B stable srep sfresh npt.
  Hypothesis He : e <= 39.

  (** What the comparisons show: up to the first NUL the rest [z] of the key does not matter; after a full
      match of the label a mismatch is reported at or after the end of the label. *)
  Definition cmp_ext (n : nT NO) (loc : locmap) (lab : labmap) (z : list N) : Prop :=
    forall p x l v, loc !! p = Some x -> lab !! p = Some (l, v) -> olab l ->
      (forall k, okey k -> okey l -> k <> l -> n_compare NO n x (k ++ z) = Ret (None, N.of_nat (lcp k l))) /\
      (forall i, n_compare NO n x (l ++ z) = Ret (None, i) -> exists j, i = N.of_nat j /\ (length l <= j < length (l ++ z))%nat).

  Lemma map_find_ext m S D M b loc lab k z : mrep TO NO e srep m S D M b loc lab -> okey k -> bytes k ->
    bytes z -> List.last (0 :: z) 1 = 0 -> N.of_nat (length (k ++ z)) < 2 ^ 64 ->
    cmp_ext (m_nlm _ _ m) loc lab z ->
    (M !! k = None /\ map_find dbg TO NO m (k ++ z) = Ret None) \/
    (exists π x l v, D !! π = Some (l, v) /\ keyof D π = k /\ loc !! enc e (m_codes _ _ m) π = Some x /\
      lab !! enc e (m_codes _ _ m) π = Some (l, v) /\ M !! k = Some v /\
      map_find dbg TO NO m (k ++ z) = let* r := n_compare NO (m_nlm _ _ m) x (l ++ z) in Ret (fst r)).
  Proof.
    intros R Hk Hb Hbz Hz Hlen Hce.
    pose proof (mr_store _ _ _ _ _ _ _ _ _ _ _ R) as Hs. pose proof (mr_codes _ _ _ _ _ _ _ _ _ _ _ R) as HC.
    pose proof (mr_D _ _ _ _ _ _ _ _ _ _ _ R) as HD. destruct (mr_dict _ _ _ _ _ _ _ _ _ _ _ R) as [Hd1 Hd2].
    destruct (okey_last k Hk) as [Hk1 Hk2].
    assert (Hkz : k ++ z <> []) by (intros H; apply app_eq_nil in H as [H _]; exact (Hk1 H)).
    assert (Hlast : List.last (k ++ z) 0 = 0).
    { destruct z as [|z0 z']; [rewrite app_nil_r; exact Hk2|].
      destruct (@exists_last _ (z0 :: z')) as (z1 & x & E); [discriminate|]. rewrite E in *. rewrite app_assoc, last_last.
      rewrite app_comm_cons, last_last in Hz. exact Hz. }
    unfold map_find, check_key. destruct (k ++ z) as [|c0 k0] eqn:Ekz; [congruence|]. rewrite <- Ekz in *.
    unfold throw_if at 1. rewrite bind_ret, Hlast. change (negb (0 =? 0)) with false. unfold throw_if. rewrite bind_ret.
    rewrite (mr_ready _ _ _ _ _ _ _ _ _ _ _ R). cbn [negb orb].
    rewrite (so_size _ _ _ _ _ _ _ _ _ _ HS _ _ _ _ _ Hs).
    destruct (mr_ne _ _ _ _ _ _ _ _ _ _ _ R) as [[l0 v0] Hl0].
    destruct (so_root _ _ _ _ _ _ _ _ _ _ HS _ _ _ _ _ Hs) as (root & Er & Hroot).
    rewrite (proj2 (N.eqb_neq _ 0)).
    2:{ intros E. assert (size loc = 0%nat) as E0 by (clear -E; lia). apply map_size_empty_inv in E0.
        rewrite E0, lookup_empty in Hroot. discriminate. }
    rewrite Er, bind_ret.
    set (W := fun o : outcome (option ptr) => (M !! k = None /\ o = Ret None) \/
      (exists π x l v, D !! π = Some (l, v) /\ keyof D π = k /\ loc !! enc e (m_codes _ _ m) π = Some x /\
        lab !! enc e (m_codes _ _ m) π = Some (l, v) /\ M !! k = Some v /\
        o = let* r := n_compare NO (m_nlm _ _ m) x (l ++ z) in Ret (fst r))).
    match goal with |- context [loop ?f ?s] => change (W (loop f s)) end.
    apply (loop_any _ (fun '(x, key) => exists κ π l v, key = κ ++ z /\
      loc !! enc e (m_codes _ _ m) π = Some x /\ D !! π = Some (l, v) /\ compat κ l /\ bytes κ /\
      spell D π ++ κ = k /\ (length κ <= length k)%nat /\ (forall ρ, reach D [] k ρ -> reach D π κ ρ))
      (fun '(_, key) => N.of_nat (length key))).
    - exists k, [], l0, v0. split; [reflexivity|]. split; [exact Hroot|]. split; [exact Hl0|]. split.
      { right. split; [exact Hk|]. apply (dv_root _ _ HD l0 v0 Hl0). }
      split; [exact Hb|]. split; [reflexivity|]. split; [clear; lia|]. auto.
    - exact Hlen.
    - clear Ekz c0 k0. intros [x key] (κ & π & l & v & -> & Hx & Hl & Hcmp & Hbk & Hsp & Hlk & Hreach). unfold stops.
      assert (Hlab : lab !! enc e (m_codes _ _ m) π = Some (l, v)) by apply (mr_lab _ _ _ _ _ _ _ _ _ _ _ R π _ Hl).
      assert (Hol : olab l) by (destruct Hcmp as [[_ ->]|[_ H]]; [left; reflexivity|right; exact H]).
      destruct (Hce _ x l v Hx Hlab Hol) as [Hne Hfull].
      assert (Hlz : N.of_nat (length (κ ++ z)) < 2 ^ 64).
      { eapply N.le_lt_trans; [|exact Hlen]. rewrite !app_length. clear -Hlk. lia. }
      assert (Hzb : forall j c, (length κ <= j)%nat -> (κ ++ z) !! j = Some c -> c < 256).
      { intros j c Hj Hjc. rewrite lookup_app_r in Hjc by exact Hj. eapply Forall_lookup_1 in Hjc; [|exact Hbz]. exact Hjc. }
      assert (HW : κ = l -> W (let* r := n_compare NO (m_nlm _ _ m) x (κ ++ z) in Ret (fst r))).
      { intros ->. right. exists π, x, l, v. assert (Ek : keyof D π = k) by (unfold keyof; rewrite (label_some D π l v Hl); exact Hsp).
        split; [exact Hl|]. split; [exact Ek|]. split; [exact Hx|]. split; [exact Hlab|]. split; [|reflexivity].
        rewrite <- Ek. apply (Hd1 π l v Hl). }
      destruct (κ ++ z) as [|c1 k1] eqn:Ekey.
      { destruct (app_eq_nil _ _ Ekey) as [E0 _]. assert (κ = l) as El.
        { destruct Hcmp as [[-> ->]|[Hc _]]; [reflexivity|]. rewrite E0 in Hc. destruct (okey_nil Hc). }
        specialize (HW El). destruct (n_compare NO (m_nlm _ _ m) x []) as [[p i]| | | |]; exact HW. }
      rewrite <- Ekey in *.
      destruct (decide (κ = l)) as [El|El].
      + specialize (HW El). subst κ.
        destruct (n_compare NO (m_nlm _ _ m) x (l ++ z)) as [[[p|] i]| | | |] eqn:Ecmp; try exact HW.
        rewrite bind_ret. rewrite bind_ret in HW. cbn [fst] in HW.
        destruct (Hfull i eq_refl) as (j & -> & Hj1 & Hj2).
        destruct (lookup_lt_is_Some_2 (l ++ z) j Hj2) as [c Hc].
        assert (Hadv : exists r, advance (l ++ z) (N.of_nat j) = c :: r).
        { unfold advance. rewrite Nat2N.id. exists (drop (Datatypes.S j) (l ++ z)). apply drop_S. exact Hc. }
        destruct Hadv as [r Hadv]. rewrite Hadv, (mr_lam _ _ _ _ _ _ _ _ _ _ _ R).
        rewrite (find_steps_ok _ _ _ _ _ _ _ _ _ _ HS He _ _ _ _ _ _ x _ Hs Hx) by (clear -Hlz Hj2; lia).
        rewrite bind_ret. fold (esteps e j).
        destruct (loc !! (replicate (esteps e j) 255 ++ enc e (m_codes _ _ m) π)) as [y|] eqn:Ey; [|exact HW].
        cbn [deref]. rewrite bind_ret. pose proof (Hzb j c Hj1 Hc) as Hc256.
        rewrite vget_ok by (rewrite (co_len _ _ _ HC); exact Hc256). rewrite bind_ret.
        rewrite (codes_ok_255 _ _ S c HC Hc256). destruct (bool_decide_reflect (c ∈ S)) as [HcS|HcS]; cbn [negb]; [|exact HW].
        rewrite (make_symb_ok e _ _ S HC dbg j c HcS He), bind_ret.
        rewrite (so_find _ _ _ _ _ _ _ _ _ _ HS _ _ _ _ _ _ y _ Hs Ey (esym_lt e _ _ S HC _ c HcS He)), bind_ret.
        destruct (loc !! (esym e (m_codes _ _ m) j c :: replicate (esteps e j) 255 ++ enc e (m_codes _ _ m) π)) as [w|] eqn:Ew;
            cbn [from_option]; unfold id.
        { exfalso. destruct (mrep_child _ _ _ _ m S D M b loc lab π j c R) as [[l1 v1] H1]; eauto.
          destruct (dv_node _ _ HD _ _ _ _ _ H1) as ((l2 & v2 & a & d & r2 & H2 & El2 & Ha & _) & _).
          rewrite Hl in H2. injection H2 as <- <-. rewrite El2, app_length in Hj1. simpl in Hj1. clear -Hj1 Ha. lia. }
        rewrite N.eqb_refl. exact HW.
      + destruct κ as [|c' κ'] eqn:Eκ.
        { destruct Hcmp as [[_ ->]|[Hc _]]; [congruence|destruct (okey_nil Hc)]. }
        rewrite <- Eκ in *.
        assert (Hok : okey κ /\ okey l) by (destruct Hcmp as [[-> _]|H]; [discriminate|exact H]).
        rewrite (Hne κ (proj1 Hok) (proj2 Hok) El), bind_ret.
        destruct (compat_split κ l c' κ' Hcmp Eκ El) as (a & c & d & r & l' & Ek & Ell & Hcd & Ha & Hr).
        rewrite <- Ha. assert (Ekz : κ ++ z = a ++ c :: (r ++ z)) by (rewrite Ek, <- app_assoc; reflexivity).
        rewrite (advance_split a (r ++ z) c (κ ++ z) Ekz). rewrite (mr_lam _ _ _ _ _ _ _ _ _ _ _ R).
        assert (Hla : (length a <= length (κ ++ z))%nat) by (rewrite Ekz, app_length; clear; lia).
        assert (Hlr : (length r < length κ)%nat) by (rewrite Ek, app_length; simpl; clear; lia).
        rewrite (find_steps_ok _ _ _ _ _ _ _ _ _ _ HS He _ _ _ _ _ _ x _ Hs Hx) by (clear -Hla Hlz; lia).
        rewrite bind_ret.
        assert (Hc256 : c < 256). { rewrite Ek in Hbk. apply Forall_app in Hbk as [_ Hbk]. apply Forall_cons_1 in Hbk as [H _]. exact H. }
        assert (Hstuck : ~ is_Some (D !! ((length a, c) :: π)) -> W (Ret None)).
        { intros Hn. left. split; [|reflexivity]. destruct (M !! k) as [w|] eqn:EM; [|reflexivity]. exfalso.
          destruct (Hd2 k w EM) as (ρ & lr & Hρ & Ekr). pose proof (reach_keyof S D HD ρ lr w Hρ) as Hrr. rewrite Ekr in Hrr.
          apply Hreach in Hrr. rewrite Ek in Hrr. apply Hn.
          apply (reach_some D _ r ρ). eapply reach_next; eassumption. }
        fold (esteps e (length a)).
        destruct (loc !! (replicate (esteps e (length a)) 255 ++ enc e (m_codes _ _ m) π)) as [y|] eqn:Ey.
        2:{ apply Hstuck. intros Hc. apply (mrep_loc _ _ _ _ _ _ _ _ _ _ HS m S D M b loc lab _ R) in Hc as [w Hw].
            simpl in Hw. destruct (so_pref _ _ _ _ _ _ _ _ _ _ HS _ _ _ _ _ _ _ Hs (mk_is_Some _ _ Hw)) as [y Hy]. congruence. }
        cbn [deref]. rewrite bind_ret. rewrite vget_ok by (rewrite (co_len _ _ _ HC); exact Hc256). rewrite bind_ret.
        rewrite (codes_ok_255 _ _ S c HC Hc256). destruct (bool_decide_reflect (c ∈ S)) as [HcS|HcS]; cbn [negb].
        2:{ apply Hstuck. intros Hc. pose proof (dvalid_inS S D _ HD Hc) as [Hin _]%Forall_cons_1.
            apply HcS, Hin. }
        rewrite (make_symb_ok e _ _ S HC dbg (length a) c HcS He), bind_ret.
        rewrite (so_find _ _ _ _ _ _ _ _ _ _ HS _ _ _ _ _ _ y _ Hs Ey (esym_lt e _ _ S HC _ c HcS He)), bind_ret.
        destruct (loc !! (esym e (m_codes _ _ m) (length a) c :: replicate (esteps e (length a)) 255 ++ enc e (m_codes _ _ m) π)) as [w|] eqn:Ew;
          cbn [from_option]; unfold id.
        2:{ rewrite N.eqb_refl. apply Hstuck. intros Hc.
            apply (mrep_loc _ _ _ _ _ _ _ _ _ _ HS m S D M b loc lab _ R) in Hc as [w Hw]. simpl in Hw. congruence. }
        rewrite (id_not_nil _ _ _ _ _ _ _ _ _ _ HS _ _ _ _ _ _ w Hs Ew).
        assert (Hch : is_Some (D !! ((length a, c) :: π))).
        { apply (mrep_child _ _ _ _ m S D M b loc lab π (length a) c R); eauto. }
        destruct Hch as [[lc vc] Hch]. change (advance (c :: r ++ z) 1) with (r ++ z).
        split; [|rewrite !app_length; clear -Hlr; lia].
        exists r, ((length a, c) :: π), lc, vc. split; [reflexivity|]. split; [exact Ew|]. split; [exact Hch|].
        split; [apply (compat_child S D π (length a) c lc vc r HD Hch Hr)|].
        split; [rewrite Ek in Hbk; apply Forall_app in Hbk as [_ Hbk]; apply Forall_cons_1 in Hbk as [_ H]; exact H|].
        split.
        { simpl spell. rewrite (label_some D π l v Hl), Ell, take_app. rewrite <- Hsp, Ek, <- !app_assoc. reflexivity. }
        split; [clear -Hlr Hlk; lia|].
        intros ρ Hρ. apply Hreach in Hρ. rewrite Ek in Hρ. eapply reach_next; eassumption.
  Qed.

  Lemma map_find_past m S D M b loc lab k : mrep TO NO e srep m S D M b loc lab -> okey k -> bytes k ->
    match M !! k with
    | None => forall z, bytes z -> List.last (0 :: z) 1 = 0 -> N.of_nat (length (k ++ z)) < 2 ^ 64 ->
        cmp_ext (m_nlm _ _ m) loc lab z -> map_find dbg TO NO m (k ++ z) = Ret None
    | Some v => exists π x l, D !! π = Some (l, v) /\ keyof D π = k /\ loc !! enc e (m_codes _ _ m) π = Some x /\
        lab !! enc e (m_codes _ _ m) π = Some (l, v) /\
        forall z, bytes z -> List.last (0 :: z) 1 = 0 -> N.of_nat (length (k ++ z)) < 2 ^ 64 ->
          cmp_ext (m_nlm _ _ m) loc lab z ->
          map_find dbg TO NO m (k ++ z) = let* r := n_compare NO (m_nlm _ _ m) x (l ++ z) in Ret (fst r)
    end.
  Proof.
    intros R Hk Hb. pose proof (mr_D _ _ _ _ _ _ _ _ _ _ _ R) as HD. destruct (mr_dict _ _ _ _ _ _ _ _ _ _ _ R) as [Hd1 Hd2].
    destruct (M !! k) as [v|] eqn:EM.
    - destruct (Hd2 k v EM) as (π & l & Hl & Ek).
      destruct (mrep_loc _ _ _ _ _ _ _ _ _ _ HS m S D M b loc lab π R) as [x Hx]; [eauto|].
      pose proof (mr_lab _ _ _ _ _ _ _ _ _ _ _ R π _ Hl) as Hlab.
      exists π, x, l. split; [exact Hl|]. split; [exact Ek|]. split; [exact Hx|]. split; [exact Hlab|].
      intros z Hbz Hz Hlen Hc. destruct (map_find_ext m S D M b loc lab k z R Hk Hb Hbz Hz Hlen Hc)
        as [[E _]|(π' & x' & l' & v' & Hl' & Ek' & Hx' & _ & _ & E)]; [congruence|].
      assert (π' = π) as ->.
      { pose proof (reach_keyof S D HD π l v Hl) as H1. pose proof (reach_keyof S D HD π' l' v' Hl') as H2.
        rewrite Ek in H1. rewrite Ek' in H2. apply (reach_det D [] k π' π H2 H1). }
      rewrite Hx in Hx'. injection Hx' as <-. rewrite Hl in Hl'. injection Hl' as <- <-. exact E.
    - intros z Hbz Hz Hlen Hc. destruct (map_find_ext m S D M b loc lab k z R Hk Hb Hbz Hz Hlen Hc)
        as [[_ E]|(π' & x' & l' & v' & _ & _ & _ & _ & E & _)]; [exact E|congruence].
  Qed.

  (** A key whose last edge is its terminator branches off a key that goes on at this place. *)
  Lemma empty_label_parent m S D M b loc lab π v s : mrep TO NO e srep m S D M b loc lab ->
    D !! π = Some ([], v) -> keyof D π = s ++ [0] -> exists k' w, M !! k' = Some w /\ k' <> s ++ [0] /\ s `prefix_of` k'.
  Proof.
    intros R Hl Ek. pose proof (mr_D _ _ _ _ _ _ _ _ _ _ _ R) as HD. destruct (mr_dict _ _ _ _ _ _ _ _ _ _ _ R) as [Hd1 _].
    destruct π as [|[j c] π].
    { destruct (okey_nil (dv_root _ _ HD _ _ Hl)). }
    destruct (dv_node _ _ HD _ _ _ _ _ Hl) as ((l' & v' & a & d & r & Hp & El & Ha & Hcd) & _ & _).
    unfold keyof in Ek. rewrite (label_some D _ _ _ Hl), app_nil_r in Ek. simpl spell in Ek.
    rewrite (label_some D π l' v' Hp), El, <- Ha, take_app, app_assoc in Ek. apply app_inj_tail in Ek as [Es E0].
    assert (Hk' : keyof D π = s ++ d :: r).
    { unfold keyof. rewrite (label_some D π l' v' Hp), El, <- Es, <- app_assoc. reflexivity. }
    exists (keyof D π), v'. split; [apply (Hd1 π l' v' Hp)|]. rewrite Hk'. split; [|exists (d :: r); reflexivity].
    intros H. apply app_inv_head in H. injection H as H _. congruence.
  Qed.
End ext.

(** ** Compact label stores *)
Definition past_nul (cmp : list N -> outcome (option ptr * N)) (l z : list N) : Prop := exists p,
  (exists i, cmp l = Ret (Some p, i)) /\
  (forall k, okey k -> okey l -> k <> l -> cmp (k ++ z) = Ret (None, N.of_nat (lcp k l))) /\
  (okey l -> exists i, cmp (l ++ z) = Ret (Some p, i)) /\
  (forall c z', l = [] -> z = c :: z' -> exists i, cmp z = Ret (if c =? 0 then Some p else None, i) /\ (c <> 0 -> i = 0)).
Lemma cbn_past cs vs (Hcs : width_ok cs) P n m x l v z : cbn_rep cs vs P n m -> m !! x = Some (l, v) -> olab l ->
  past_nul (cbn_compare cs vs n x) l z.
Proof.
  intros R E Hl. destruct (cbn_compare_entry cs vs Hcs P n m x l v R E) as (id & a & rest & Ha & Hla & Hb & Hv & _ & _ & _ & _ & Hc).
  destruct (entry_compare_ext false vs id a rest l v z Hv Ha Hla Hb Hl) as (H1 & H2 & H3 & H4).
  eexists. split; [rewrite Hc; exact H1|]. split; [intros k; rewrite Hc; apply H2|].
  split; [rewrite Hc; exact H3|]. rewrite Hc. exact H4.
Qed.
Lemma cfn_past cs vs (Hcs : width_ok cs) (Hvs : (1 <= vs)%nat) P n m x l v z : cfn_rep cs vs P n m -> m !! x = Some (l, v) -> olab l ->
  past_nul (cfn_compare cs vs n x) l z.
Proof.
  intros R E Hl. destruct (cfn_compare_entry cs vs Hcs Hvs P n m x l v R E) as (id & a & rest & Ha & Hla & Hb & Hv & _ & _ & _ & _ & Hc).
  destruct (entry_compare_ext true vs id a rest l v z Hv Ha Hla Hb Hl) as (H1 & H2 & H3 & H4).
  eexists. split; [rewrite Hc; exact H1|]. split; [intros k; rewrite Hc; apply H2|].
  split; [rewrite Hc; exact H3|]. rewrite Hc. exact H4.
Qed.
Lemma alias_past dbg vs a e B0 T b t n loc lab p x l v z : (1 <= vs)%nat -> compact_store a = true ->
  pk_srep _ _ _ _ _ _ (alias_pack dbg vs a e B0 T) b t n loc lab -> loc !! p = Some x -> lab !! p = Some (l, v) -> olab l ->
  past_nul (n_compare (a_nlm vs a) n x) l z.
Proof.
  intros Hvs Ha Hs Hx Hl Hol. destruct a as [|c|c| |c|c]; try discriminate Ha.
  - destruct Hs as (_ & _ & m & R & Hk). rewrite <- (lk_m _ _ _ Hk _ _ Hx) in Hl. apply (cbn_past _ _ (chunk_width c) _ _ _ _ _ _ z R Hl Hol).
  - destruct Hs as (_ & _ & m & R & Hk). rewrite <- (lk_m _ _ _ Hk _ _ Hx) in Hl. apply (cbn_past _ _ (chunk_width c) _ _ _ _ _ _ z R Hl Hol).
  - destruct Hs as (_ & m & R & Hk). rewrite <- (lk_m _ _ _ Hk _ _ Hx) in Hl. apply (cfn_past _ _ (chunk_width c) Hvs _ _ _ _ _ _ z R Hl Hol).
  - destruct Hs as (_ & m & R & Hk). rewrite <- (lk_m _ _ _ Hk _ _ Hx) in Hl. apply (cfn_past _ _ (chunk_width c) Hvs _ _ _ _ _ _ z R Hl Hol).
Qed.
Lemma past_cmp_ext dbg vs a e B0 T b t n loc lab z : (1 <= vs)%nat -> compact_store a = true ->
  pk_srep _ _ _ _ _ _ (alias_pack dbg vs a e B0 T) b t n loc lab -> cmp_ext (a_nlm vs a) n loc lab z.
Proof.
  intros Hvs Ha Hs p x l v Hx Hl Hol.
  destruct (alias_past dbg vs a e B0 T b t n loc lab p x l v z Hvs Ha Hs Hx Hl Hol) as (q & H1 & H2 & H3 & H4).
  split; [exact H2|]. intros i Hi. destruct Hol as [->|Hol].
  - destruct z as [|c z]; [destruct H1 as [j Hj]; simpl in Hi; congruence|].
    destruct (H4 c z eq_refl eq_refl) as (j & Hj & Hj'). simpl in Hi. rewrite Hi in Hj.
    destruct (N.eqb_spec c 0) as [E|E]; [discriminate|]. injection Hj as ->. exists 0%nat. rewrite (Hj' E). simpl. split; [reflexivity|lia].
  - destruct (H3 Hol) as [j Hj]. congruence.
Qed.

(** ** Plain label stores: after the label the key is compared with the value *)
Lemma plain_cmp_past l z v i : plain_cmp (l ++ z) (l ++ v) i = plain_cmp z v (i + N.of_nat (length l)).
Proof.
  revert i. induction l as [|c l IH]; intros i; simpl; [f_equal; lia|]. rewrite N.eqb_refl, IH. f_equal. lia.
Qed.
Lemma plain_cmp_index z v i r : plain_cmp z v i = Ret (false, r) -> exists j, r = i + N.of_nat j /\ (j < length z)%nat.
Proof.
  revert v i. induction z as [|c z IH]; intros v i; simpl; [discriminate|]. destruct v as [|d v]; [discriminate|].
  destruct (c =? d).
  - intros H. destruct (IH _ _ H) as (j & -> & Hj). exists (S j). split; lia.
  - intros [= <-]. exists 0%nat. split; lia.
Qed.
(** The three cases: the rest of the key is a prefix of the value, goes on after it, or differs from it. *)
Lemma plain_cmp_cases z v i :
  (z `prefix_of` v -> plain_cmp z v i = Ret (true, i + N.of_nat (length z))) /\
  (v `prefix_of` z -> v <> z -> plain_cmp z v i = UB) /\
  (~ z `prefix_of` v -> ~ v `prefix_of` z -> exists r, plain_cmp z v i = Ret (false, r)).
Proof.
  revert v i. induction z as [|c z IH]; intros v i.
  - split; [|split].
    + intros _. simpl. do 2 f_equal. lia.
    + intros [t Ht] Hne. symmetry in Ht. apply app_eq_nil in Ht as [-> _]. congruence.
    + intros H. destruct H. apply prefix_nil.
  - destruct v as [|d v].
    + split; [|split]; [intros H; apply prefix_nil_inv in H; discriminate|reflexivity|intros _ H; destruct H; apply prefix_nil].
    + simpl plain_cmp. destruct (IH v (i + 1)) as (H1 & H2 & H3). destruct (N.eqb_spec c d) as [->|Hne].
      * split; [|split].
        -- intros H. apply prefix_cons_inv_2 in H. rewrite (H1 H). simpl length. do 2 f_equal. lia.
        -- intros H Hne. apply prefix_cons_inv_2 in H. apply H2; [exact H|congruence].
        -- intros Ha Hb. apply H3; intros H; [apply Ha|apply Hb]; apply prefix_cons, H.
      * split; [|split].
        -- intros H. apply prefix_cons_inv_1 in H. congruence.
        -- intros H. apply prefix_cons_inv_1 in H. congruence.
        -- intros _ _. eauto.
Qed.
Lemma plain_past vs ptrs h by_ m x l v z : prep vs ptrs h by_ m -> m !! x = Some (l, v) ->
  (forall k, okey k -> okey l -> k <> l -> plain_compare ptrs h x (k ++ z) = Ret (None, N.of_nat (lcp k l))) /\
  exists id, hp_find h id = Some (l ++ v) /\ length v = vs /\
    (l ++ z = [] -> plain_compare ptrs h x (l ++ z) = Ret (Some (id, 0), 0)) /\
    (l ++ z <> [] -> plain_compare ptrs h x (l ++ z) =
      let* r := plain_cmp z v (N.of_nat (length l)) in if fst r then Ret (Some (id, snd r), snd r) else Ret (None, snd r)).
Proof.
  intros R H. destruct (prep_look _ _ _ _ _ _ _ _ R H) as (id & Hx & Hp & Hv & Hf).
  assert (Hdo : forall key, key <> [] -> plain_compare ptrs h x key = let* r := plain_cmp key (l ++ v) 0 in
     if fst r then Ret (Some (id, snd r), snd r) else Ret (None, snd r)).
  { intros key Hk. unfold plain_compare. rewrite assert_true by (apply N.ltb_lt; exact Hx). rewrite bind_ret.
    rewrite vget_ok by exact Hx. rewrite bind_ret, Hp. unfold hp_block. rewrite Hf, bind_ret.
    destruct key; [congruence|reflexivity]. }
  split.
  - intros k Hk Hl Hne. rewrite Hdo by (destruct k; [destruct (okey_nil Hk)|discriminate]).
    destruct (okey_diff k l Hk Hl Hne) as (a & c & d & k' & l' & Ek & El & Hcd & Ha).
    rewrite Ek at 1. rewrite El at 1. rewrite <- app_assoc. simpl ((c :: k') ++ z).
    rewrite plain_cmp_ne by exact Hcd. rewrite bind_ret. cbn [fst snd]. rewrite Ha, N.add_0_l. reflexivity.
  - exists id. split; [exact Hf|]. split; [exact Hv|]. split.
    + intros ->. unfold plain_compare. rewrite assert_true by (apply N.ltb_lt; exact Hx). rewrite bind_ret.
      rewrite vget_ok by exact Hx. rewrite bind_ret, Hp. unfold hp_block. rewrite Hf, bind_ret. reflexivity.
    + intros Hne. rewrite (Hdo _ Hne), plain_cmp_past, N.add_0_l. reflexivity.
Qed.
Lemma alias_plain_past dbg vs a e B0 T b t n loc lab p x l v z : compact_store a = false ->
  pk_srep _ _ _ _ _ _ (alias_pack dbg vs a e B0 T) b t n loc lab -> loc !! p = Some x -> lab !! p = Some (l, v) ->
  (forall k, okey k -> okey l -> k <> l -> n_compare (a_nlm vs a) n x (k ++ z) = Ret (None, N.of_nat (lcp k l))) /\
  exists id, hp_find (n_heap (a_nlm vs a) n) id = Some (l ++ v) /\ length v = vs /\
    (l ++ z = [] -> n_compare (a_nlm vs a) n x (l ++ z) = Ret (Some (id, 0), 0)) /\
    (l ++ z <> [] -> n_compare (a_nlm vs a) n x (l ++ z) =
      let* r := plain_cmp z v (N.of_nat (length l)) in if fst r then Ret (Some (id, snd r), snd r) else Ret (None, snd r)).
Proof.
  intros Ha Hs Hx Hl. destruct a as [|c|c| |c|c]; try discriminate Ha.
  - destruct Hs as (_ & _ & m & (_ & R & _) & Hk). rewrite <- (lk_m _ _ _ Hk _ _ Hx) in Hl. apply (plain_past _ _ _ _ _ _ _ _ z R Hl).
  - destruct Hs as (_ & m & (_ & R) & Hk). rewrite <- (lk_m _ _ _ Hk _ _ Hx) in Hl. apply (plain_past _ _ _ _ _ _ _ _ z R Hl).
Qed.
Lemma alias_cmp_ext dbg vs a e B0 T b t n loc lab z : (1 <= vs)%nat ->
  pk_srep _ _ _ _ _ _ (alias_pack dbg vs a e B0 T) b t n loc lab -> cmp_ext (a_nlm vs a) n loc lab z.
Proof.
  intros Hvs Hs. destruct (compact_store a) eqn:Ha; [eapply past_cmp_ext; eassumption|].
  intros p x l v Hx Hl _. destruct (alias_plain_past dbg vs a e B0 T b t n loc lab p x l v z Ha Hs Hx Hl) as (H1 & id & _ & _ & H3 & H4).
  split; [exact H1|]. intros i Hi. destruct (l ++ z) as [|c r] eqn:E; [rewrite H3 in Hi by reflexivity; discriminate|].
  rewrite H4 in Hi by discriminate. rewrite <- E. clear E c r H1 H3 H4.
  destruct (plain_cmp z v (N.of_nat (length l))) as [[[] j]| | | |] eqn:Ec; try discriminate Hi.
  rewrite bind_ret in Hi. cbn [fst snd] in Hi. injection Hi as ->.
  destruct (plain_cmp_index _ _ _ _ Ec) as (j & -> & Hj). exists (length l + j)%nat. rewrite app_length. lia.
Qed.

Section past.
  Context (dbg : bool) (vs : nat) (a : alias) (cb e : N) (ops : list op) (m : a_map dbg vs a).
  Hypothesis Hsup : supported vs cb e (updated ops).
  Hypothesis Hv : Forall (valid_op vs) ops.
  Hypothesis Hnt : no_trap dbg a (updated ops).
  Hypothesis Hr : reaches dbg vs a cb e ops m.

  (** One node decides for all keys that start with the valid key [k]. *)
  Lemma find_past k : valid_key k ->
    match value_after vs k None ops with
    | None => forall z, bytes z -> List.last (0 :: z) 1 = 0 -> N.of_nat (length (k ++ z)) < 2 ^ 64 ->
        a_find dbg vs a m (k ++ z) = Ret None
    | Some v => exists S D b loc lab π x l,
        mrep (a_trie dbg a) (a_nlm vs a) e (pk_srep _ _ _ _ _ _ (alias_at dbg vs a cb e (updated ops))) m S D (final vs ops) b loc lab /\
        D !! π = Some (l, v) /\ keyof D π = k /\ loc !! enc e (m_codes _ _ m) π = Some x /\
        lab !! enc e (m_codes _ _ m) π = Some (l, v) /\
        forall z, bytes z -> List.last (0 :: z) 1 = 0 -> N.of_nat (length (k ++ z)) < 2 ^ 64 ->
          a_find dbg vs a m (k ++ z) = let* r := n_compare (a_nlm vs a) (m_nlm _ _ m) x (l ++ z) in Ret (fst r)
    end.
  Proof.
    intros Hk. destruct (valid_okey k Hk) as [Hok Hb]. pose proof (supported_vs _ _ _ _ Hsup) as Hvs.
    destruct (supported_limit _ _ _ _ Hsup) as (He & _).
    destruct (reach_inv dbg vs a cb e _ Hsup ops [] m (eq_sym (app_nil_r _)) Hv Hnt Hr) as (S & D & b & loc & Hi & _ & _).
    pose proof (reach_pk dbg vs a cb e _ Hsup) as PK. rewrite <- final_value.
    destruct Hi as [(_ & HM & _ & _ & Hf)|[lab R]].
    - rewrite HM, lookup_empty. intros z Hbz Hz Hlen. unfold a_find, map_find.
      assert (Hck : check_key (k ++ z) = Ret tt).
      { destruct (okey_last k Hok) as [Hk1 Hk2]. assert (Hlast : List.last (k ++ z) 0 = 0).
        { destruct z as [|z0 z']; [rewrite app_nil_r; exact Hk2|].
          destruct (@exists_last _ (z0 :: z')) as (z1 & x & E); [discriminate|]. rewrite E in *. rewrite app_assoc, last_last.
          rewrite app_comm_cons, last_last in Hz. exact Hz. }
        unfold check_key. rewrite Hlast. destruct k; [congruence|reflexivity]. }
      rewrite Hck, bind_ret, (mf_ready _ _ _ _ _ _ Hf).
      destruct (so_fresh _ _ _ _ _ _ _ _ _ _ PK _ _ _ (mf_store _ _ _ _ _ _ Hf)) as [-> _]. reflexivity.
    - pose proof (map_find_past dbg _ _ _ _ _ _ _ _ _ _ PK He m S D (final vs ops) b loc lab k R Hok Hb) as H.
      pose proof (mr_store _ _ _ _ _ _ _ _ _ _ _ R) as Hs.
      destruct (final vs ops !! k) as [v|].
      + destruct H as (π & x & l & H1 & H2 & H3 & H4 & H5). exists S, D, b, loc, lab, π, x, l.
        split; [exact R|]. split; [exact H1|]. split; [exact H2|]. split; [exact H3|]. split; [exact H4|].
        intros z Hbz Hz Hlen. apply (H5 z Hbz Hz Hlen). eapply alias_cmp_ext; eassumption.
      + intros z Hbz Hz Hlen. apply (H z Hbz Hz Hlen). eapply alias_cmp_ext; eassumption.
  Qed.

  Lemma compact_find_past s z : compact_store a = true -> valid_key (s ++ [0]) -> bytes z -> List.last z 1 = 0 ->
    N.of_nat (length ((s ++ [0]) ++ z)) < 2 ^ 64 ->
    (a_find dbg vs a m ((s ++ [0]) ++ z) = a_find dbg vs a m (s ++ [0]) \/ a_find dbg vs a m ((s ++ [0]) ++ z) = Ret None) /\
    ((forall k', In k' (updated ops) -> s `prefix_of` k' -> k' = s ++ [0]) \/ List.hd 1 z = 0 ->
      a_find dbg vs a m ((s ++ [0]) ++ z) = a_find dbg vs a m (s ++ [0])).
  Proof.
    intros Ha Hk Hbz Hz Hlen. pose proof (find_past (s ++ [0]) Hk) as H. pose proof (supported_vs _ _ _ _ Hsup) as Hvs.
    assert (Hz' : List.last (0 :: z) 1 = 0) by (destruct z; [discriminate|exact Hz]).
    assert (Hlen0 : N.of_nat (length ((s ++ [0]) ++ [])) < 2 ^ 64).
    { eapply N.le_lt_trans; [|exact Hlen]. rewrite !app_length. simpl. lia. }
    destruct (value_after vs (s ++ [0]) None ops) as [v|] eqn:Ev.
    - destruct H as (S & D & b & loc & lab & π & x & l & R & H1 & H2 & H3 & H4 & H5).
      pose proof (H5 [] (Forall_nil_2 _) eq_refl Hlen0) as E0. rewrite !app_nil_r in E0. rewrite E0, (H5 z Hbz Hz' Hlen).
      assert (Hol : olab l).
      { pose proof (mr_D _ _ _ _ _ _ _ _ _ _ _ R) as HD. destruct π as [|[j c] π]; [right; apply (dv_root _ _ HD _ _ H1)|].
        destruct (dv_node _ _ HD _ _ _ _ _ H1) as (_ & _ & [[_ E]|[_ E]]); [left|right]; exact E. }
      destruct (alias_past dbg vs a e _ _ b _ _ loc lab _ x l v z Hvs Ha (mr_store _ _ _ _ _ _ _ _ _ _ _ R) H3 H4 Hol)
        as (p & [i0 F1] & _ & F3 & F4). rewrite F1, bind_ret. cbn [fst].
      destruct Hol as [El|Hol].
      + destruct z as [|c z'] eqn:Ez; [discriminate Hz|]. rewrite El. simpl ([] ++ c :: z').
        destruct (F4 c z' El eq_refl) as (i & Hi & _). rewrite Hi, bind_ret. cbn [fst].
        split; [destruct (c =? 0); auto|]. intros [Hno|Hc].
        * exfalso. rewrite El in H1. destruct (empty_label_parent _ _ _ _ m S D _ b loc lab π v s R H1 H2) as (k' & w & Hw & Hne & Hp).
          apply Hne. apply (Hno k'); [|exact Hp]. rewrite final_value in Hw.
          destruct (in_dec (List.list_eq_dec N.eq_dec) k' (updated ops)) as [Hin|Hn]; [exact Hin|].
          apply (value_after_none vs) in Hn. congruence.
        * simpl in Hc. rewrite Hc. reflexivity.
      + destruct (F3 Hol) as [i Hi]. rewrite Hi, bind_ret. cbn [fst]. auto.
    - pose proof (H [] (Forall_nil_2 _) eq_refl Hlen0) as E0. rewrite app_nil_r in E0. rewrite E0, (H z Hbz Hz' Hlen). auto.
  Qed.

  Lemma plain_find_past k z : compact_store a = false -> valid_key k -> bytes z -> List.last z 1 = 0 ->
    N.of_nat (length (k ++ z)) < 2 ^ 64 ->
    match value_after vs k None ops with
    | None => a_find dbg vs a m (k ++ z) = Ret None
    | Some v =>
        (z `prefix_of` v -> exists p, a_find dbg vs a m (k ++ z) = Ret (Some p) /\ a_read dbg vs a m p = UB) /\
        (v `prefix_of` z -> v <> z -> a_find dbg vs a m (k ++ z) = UB) /\
        (~ z `prefix_of` v -> ~ v `prefix_of` z -> a_find dbg vs a m (k ++ z) = Ret None)
    end.
  Proof.
    intros Ha Hk Hbz Hz Hlen. pose proof (find_past k Hk) as H.
    assert (Hz' : List.last (0 :: z) 1 = 0) by (destruct z; [discriminate|exact Hz]).
    destruct (value_after vs k None ops) as [v|] eqn:Ev; [|apply H; assumption].
    destruct H as (S & D & b & loc & lab & π & x & l & R & H1 & H2 & H3 & H4 & H5). rewrite (H5 z Hbz Hz' Hlen).
    destruct (alias_plain_past dbg vs a e _ _ b _ _ loc lab _ x l v z Ha (mr_store _ _ _ _ _ _ _ _ _ _ _ R) H3 H4)
      as (_ & id & Hf & Hvl & _ & Hc).
    assert (Hz0 : z <> []) by (intros ->; discriminate Hz).
    rewrite Hc by (intros E; apply app_eq_nil in E as [_ E]; exact (Hz0 E)). clear Hc H5.
    destruct (plain_cmp_cases z v (N.of_nat (length l))) as (C1 & C2 & C3). split; [|split].
    - intros Hp. rewrite (C1 Hp), !bind_ret. cbn [fst snd]. rewrite bind_ret. cbn [fst]. eexists. split; [reflexivity|].
      unfold a_read, map_read, hp_read, hp_block. cbn [fst snd]. rewrite Hf, bind_ret, a_vs. unfold slice.
      destruct (N.leb_spec (N.of_nat (length l) + N.of_nat (length z) + N.of_nat vs) (N.of_nat (length (l ++ v)))) as [Hle|_]; [|reflexivity].
      exfalso. rewrite app_length, Hvl in Hle. destruct z; [congruence|]. simpl in Hle. lia.
    - intros Hp Hne. rewrite (C2 Hp Hne). reflexivity.
    - intros Hp Hq. destruct (C3 Hp Hq) as [r ->]. reflexivity.
  Qed.
End past.

(** ** A key with an embedded NUL as the first key *)
Lemma entry_short chk vs id a rest k z v : length v = vs -> Forall fits a -> N.of_nat (length a) < 2 ^ 64 ->
  fits (body (k ++ z, v)) -> k <> [] -> z <> [] ->
  entry_compare chk vs id (encs a ++ EntriesP.enc (body (k ++ z, v)) ++ rest) (N.of_nat (length a)) k = UB.
Proof.
  intros Hv Ha Hla Hb Hk Hz. rewrite (entry_compare_do chk vs id a rest (k ++ z) v k Hv Ha Hla Hb Hk).
  assert (E : exists z', stored_label (k ++ z) = k ++ z').
  { destruct (exists_last Hz) as (z' & c & ->). exists z'. unfold stored_label. rewrite app_assoc, app_length.
    replace (length (k ++ z') + length [c] - 1)%nat with (length (k ++ z')) by (simpl; lia). apply firstn_app_exact || (rewrite firstn_app, Nat.sub_diag, firstn_all; apply app_nil_r). }
  destruct E as [z' ->]. rewrite <- app_assoc. rewrite label_cmp_short; [reflexivity|]. rewrite app_length. lia.
Qed.
Lemma alias_short dbg vs a e B0 T b t n loc lab p x k z v : (1 <= vs)%nat -> compact_store a = true ->
  pk_srep _ _ _ _ _ _ (alias_pack dbg vs a e B0 T) b t n loc lab -> loc !! p = Some x -> lab !! p = Some (k ++ z, v) ->
  k <> [] -> z <> [] -> n_compare (a_nlm vs a) n x k = UB.
Proof.
  intros Hvs Ha Hs Hx Hl Hk Hz.
  assert (HB : forall cs (Hcs : width_ok cs) P n m, cbn_rep cs vs P n m -> m !! x = Some (k ++ z, v) -> cbn_compare cs vs n x k = UB).
  { intros cs Hcs P n0 m R E. destruct (cbn_compare_entry cs vs Hcs P n0 m x _ v R E) as (id & l & rest & H1 & H2 & H3 & H4 & _ & _ & _ & _ & Hc).
    rewrite Hc. apply entry_short; assumption. }
  assert (HF : forall cs (Hcs : width_ok cs) P n m, cfn_rep cs vs P n m -> m !! x = Some (k ++ z, v) -> cfn_compare cs vs n x k = UB).
  { intros cs Hcs P n0 m R E. destruct (cfn_compare_entry cs vs Hcs Hvs P n0 m x _ v R E) as (id & l & rest & H1 & H2 & H3 & H4 & _ & _ & _ & _ & Hc).
    rewrite Hc. apply entry_short; assumption. }
  destruct a as [|c|c| |c|c]; try discriminate Ha.
  - destruct Hs as (_ & _ & m & R & Hlk). rewrite <- (lk_m _ _ _ Hlk _ _ Hx) in Hl. apply (HB _ (chunk_width c) _ _ _ R Hl).
  - destruct Hs as (_ & _ & m & R & Hlk). rewrite <- (lk_m _ _ _ Hlk _ _ Hx) in Hl. apply (HB _ (chunk_width c) _ _ _ R Hl).
  - destruct Hs as (_ & m & R & Hlk). rewrite <- (lk_m _ _ _ Hlk _ _ Hx) in Hl. apply (HF _ (chunk_width c) _ _ _ R Hl).
  - destruct Hs as (_ & m & R & Hlk). rewrite <- (lk_m _ _ _ Hlk _ _ Hx) in Hl. apply (HF _ (chunk_width c) _ _ _ R Hl).
Qed.
Lemma plain_prefix vs ptrs h by_ m x k z v : prep vs ptrs h by_ m -> m !! x = Some (k ++ z, v) -> k <> [] ->
  exists id, hp_find h id = Some (k ++ z ++ v) /\ plain_compare ptrs h x k = Ret (Some (id, N.of_nat (length k)), N.of_nat (length k)).
Proof.
  intros R H Hk. destruct (prep_look _ _ _ _ _ _ _ _ R H) as (id & Hx & Hp & Hv & Hf). exists id.
  rewrite <- app_assoc in Hf. split; [exact Hf|].
  unfold plain_compare. rewrite assert_true by (apply N.ltb_lt; exact Hx). rewrite bind_ret.
  rewrite vget_ok by exact Hx. rewrite bind_ret, Hp. unfold hp_block. rewrite Hf, bind_ret.
  assert (E : plain_cmp k (k ++ z ++ v) 0 = Ret (true, N.of_nat (length k))).
  { pose proof (plain_cmp_past k [] (z ++ v) 0) as H0. rewrite app_nil_r in H0. rewrite H0. reflexivity. }
  destruct k as [|c k]; [congruence|]. rewrite E. reflexivity.
Qed.
Lemma alias_plain_prefix dbg vs a e B0 T b t n loc lab p x k z v : compact_store a = false ->
  pk_srep _ _ _ _ _ _ (alias_pack dbg vs a e B0 T) b t n loc lab -> loc !! p = Some x -> lab !! p = Some (k ++ z, v) -> k <> [] ->
  exists id, hp_find (n_heap (a_nlm vs a) n) id = Some (k ++ z ++ v) /\
    n_compare (a_nlm vs a) n x k = Ret (Some (id, N.of_nat (length k)), N.of_nat (length k)).
Proof.
  intros Ha Hs Hx Hl Hk. destruct a as [|c|c| |c|c]; try discriminate Ha.
  - destruct Hs as (_ & _ & m & (_ & R & _) & Hlk). rewrite <- (lk_m _ _ _ Hlk _ _ Hx) in Hl. apply (plain_prefix _ _ _ _ _ _ _ _ _ R Hl Hk).
  - destruct Hs as (_ & m & (_ & R) & Hlk). rewrite <- (lk_m _ _ _ Hlk _ _ Hx) in Hl. apply (plain_prefix _ _ _ _ _ _ _ _ _ R Hl Hk).
Qed.
Lemma check_key_any k z : valid_key k -> List.last z 1 = 0 -> check_key (k ++ z) = Ret tt.
Proof.
  intros Hk Hz. destruct (valid_okey k Hk) as [Hok _]. destruct (okey_last k Hok) as [Hk1 _].
  assert (Hz0 : z <> []) by (intros ->; discriminate). destruct (exists_last Hz0) as (z' & c & ->). rewrite last_last in Hz. subst c.
  unfold check_key. rewrite app_assoc, last_last. destruct k; [congruence|reflexivity].
Qed.

Section root.
  Context (dbg : bool) (vs : nat) (a : alias) (m : a_map dbg vs a) (r : N) (key : list N).
  Hypotheses (Hck : check_key key = Ret tt) (Hne : key <> []) (Hrd : m_ready _ _ m = true)
    (Hsz : t_size _ (m_trie _ _ m) <> 0) (Er : t_get_root _ (m_trie _ _ m) = Ret r).
  Lemma root_ub : n_compare (a_nlm vs a) (m_nlm _ _ m) r key = UB -> a_find dbg vs a m key = UB /\ a_update dbg vs a m key = UB.
  Proof.
    intros Hc. split.
    - unfold a_find, map_find. rewrite Hck, bind_ret, Hrd, (proj2 (N.eqb_neq _ _) Hsz). cbn [negb orb]. rewrite Er, bind_ret.
      rewrite (loop_unroll_bad _ _ UB); [reflexivity| |discriminate]. cbn beta iota. destruct key; [congruence|]. rewrite Hc. reflexivity.
    - unfold a_update, map_update, update_body. rewrite Hck, bind_ret, (proj2 (N.eqb_neq _ _) Hsz), Er, bind_ret.
      rewrite (loop_unroll_bad _ _ UB); [reflexivity| |discriminate]. cbn beta iota. destruct key; [congruence|]. rewrite Hc. reflexivity.
  Qed.
  Lemma root_found p i : n_compare (a_nlm vs a) (m_nlm _ _ m) r key = Ret (Some p, i) ->
    a_find dbg vs a m key = Ret (Some p) /\ a_update dbg vs a m key = Ret (UPtr (Some p), m).
  Proof.
    intros Hc. split.
    - unfold a_find, map_find. rewrite Hck, bind_ret, Hrd, (proj2 (N.eqb_neq _ _) Hsz). cbn [negb orb]. rewrite Er, bind_ret.
      apply loop_unroll_exit. cbn beta iota. destruct key; [congruence|]. rewrite Hc. reflexivity.
    - unfold a_update, map_update, update_body. rewrite Hck, bind_ret, (proj2 (N.eqb_neq _ _) Hsz), Er, bind_ret.
      apply loop_unroll_exit. cbn beta iota. destruct key; [congruence|]. rewrite Hc. reflexivity.
  Qed.
End root.

Lemma nul_first dbg vs a cb e k z w : supported vs cb e [k ++ z] -> N.of_nat (length (k ++ z)) + N.of_nat vs < 2 ^ 64 ->
  valid_key k -> List.last z 1 = 0 -> length w = vs ->
  exists m0 m1 m2 p, a_new dbg vs a cb (2 ^ e) = Ret m0 /\
    a_update dbg vs a m0 (k ++ z) = Ret (UPtr (Some p), m1) /\ a_size dbg vs a m1 = 1 /\
    a_write dbg vs a m1 p w = Ret m2 /\
    if compact_store a then a_find dbg vs a m2 k = UB /\ a_update dbg vs a m2 k = UB
    else exists q, a_find dbg vs a m2 k = Ret (Some q) /\ a_update dbg vs a m2 k = Ret (UPtr (Some q), m2) /\
      a_read dbg vs a m2 q = Ret (firstn vs (z ++ w)).
Proof.
  intros Hsup Hsm Hk Hz Hw. pose proof (supported_vs _ _ _ _ Hsup) as Hvs.
  destruct (valid_okey k Hk) as [Hok Hb]. destruct (okey_last k Hok) as [Hk0 _].
  assert (Hz0 : z <> []) by (intros ->; discriminate).
  pose proof (reach_pk dbg vs a cb e _ Hsup) as PK.
  destruct (new_inv dbg vs a cb e _ Hsup) as (m0 & Em0 & Hi). exists m0.
  destruct Hi as [(_ & _ & _ & _ & Hf)|[lab R]].
  2: { exfalso. destruct (so_root _ _ _ _ _ _ _ _ _ _ PK _ _ _ _ _ (mr_store _ _ _ _ _ _ _ _ _ _ _ R)) as (r & _ & H).
       rewrite lookup_empty in H. discriminate. }
  destruct (so_fresh _ _ _ _ _ _ _ _ _ _ PK _ _ _ (mf_store _ _ _ _ _ _ Hf)) as [Hsz _].
  destruct (so_first _ _ _ _ _ _ _ _ _ _ PK _ _ _ (k ++ z) (mf_store _ _ _ _ _ _ Hf)) as (p & t' & n' & r & E & Hs & Hp).
  { rewrite a_vs. exact Hsm. }
  destruct (so_write _ _ _ _ _ _ _ _ _ _ PK _ _ _ _ _ _ r p (k ++ z) _ w Hs (lookup_singleton _ _) Hp (lookup_singleton _ _))
    as (h & Eh & Hs2 & _); [rewrite a_vs; exact Hw|].
  set (m1 := mkMap _ _ (m_ready _ _ m0) (m_lambda _ _ m0) t' n' (m_codes _ _ m0) (m_num_codes _ _ m0) (add64 (m_size _ _ m0) 1)).
  set (m2 := set_heap _ _ m1 h).
  exists m1, m2, p. split; [exact Em0|]. split; [|split; [|split]].
  - unfold a_update, map_update, update_body. rewrite check_key_any by assumption. rewrite bind_ret, Hsz, N.eqb_refl.
    rewrite (mf_ready _ _ _ _ _ _ Hf). cbn [negb]. rewrite bind_ret, E, bind_ret. unfold m1. rewrite (mf_ready _ _ _ _ _ _ Hf). reflexivity.
  - unfold a_size, map_size, m1. cbn [m_size]. rewrite (mf_size _ _ _ _ _ _ Hf). reflexivity.
  - unfold a_write, map_write, m1. cbn [m_nlm]. rewrite Eh, bind_ret. reflexivity.
  - rewrite insert_singleton in Hs2.
    assert (Hsz2 : t_size _ t' <> 0).
    { rewrite (so_size _ _ _ _ _ _ _ _ _ _ PK _ _ _ _ _ Hs), map_size_singleton. discriminate. }
    destruct (so_root _ _ _ _ _ _ _ _ _ _ PK _ _ _ _ _ Hs) as (r' & Er & Hr'). rewrite lookup_singleton in Hr'. injection Hr' as <-.
    destruct (compact_store a) eqn:Ha.
    + pose proof (alias_short dbg vs a e _ _ _ _ _ _ _ [] r k z w Hvs Ha Hs2 (lookup_singleton _ _) (lookup_singleton _ _) Hk0 Hz0) as Hc.
      apply (root_ub dbg vs a m2 r k (check_key_ok k Hok) Hk0 (mf_ready _ _ _ _ _ _ Hf) Hsz2 Er Hc).
    + destruct (alias_plain_prefix dbg vs a e _ _ _ _ _ _ _ [] r k z w Ha Hs2 (lookup_singleton _ _) (lookup_singleton _ _) Hk0) as (id & Hid & Hc).
      exists (id, N.of_nat (length k)). apply and_assoc. split.
      * eapply (root_found dbg vs a m2 r k (check_key_ok k Hok) Hk0 (mf_ready _ _ _ _ _ _ Hf) Hsz2 Er). exact Hc.
      * unfold a_read, map_read, m2, m1, set_heap. cbn [m_nlm]. unfold hp_read, hp_block. cbn [fst snd]. rewrite Hid, bind_ret, a_vs.
        unfold slice. rewrite (proj2 (N.leb_le _ _)) by (rewrite !app_length, Hw; lia).
        rewrite !Nat2N.id, skipn_app, skipn_all, Nat.sub_diag. reflexivity.
Qed.

(** ** Updating with an embedded NUL after the only key *)
Lemma nul_alone dbg vs a cb e ops m k z : supported vs cb e (updated ops) -> Forall (valid_op vs) ops -> no_trap dbg a (updated ops) ->
  reaches dbg vs a cb e ops m -> updated ops <> [] -> (forall k', In k' (updated ops) -> k' = k) ->
  List.last z 1 = 0 ->
  if compact_store a then exists p, a_find dbg vs a m k = Ret (Some p) /\ a_update dbg vs a m (k ++ z) = Ret (UPtr (Some p), m)
  else (forall v, value_after vs k None ops = Some v -> z `prefix_of` v ->
    exists p, a_find dbg vs a m (k ++ z) = Ret (Some p) /\ a_update dbg vs a m (k ++ z) = Ret (UPtr (Some p), m) /\ a_read dbg vs a m p = UB).
Proof.
  intros Hsup Hv Hnt Hr Hne Hall Hz. pose proof (supported_vs _ _ _ _ Hsup) as Hvs.
  destruct (reach_root dbg vs a cb e _ Hsup ops [] m (eq_sym (app_nil_r _)) Hv Hnt Hr Hne)
    as (S & D & b & loc & lab & l & v & root & R & _ & Hrd & Hsz & Er & Hroot & HD & Hlab & Hl & Hin).
  pose proof (Hall l Hin) as ->. pose proof (mr_store _ _ _ _ _ _ _ _ _ _ _ R) as Hs.
  destruct (okey_last k Hl) as [Hk0 Hk1]. assert (Hz0 : z <> []) by (intros ->; discriminate).
  assert (Hkz : k ++ z <> []) by (intros H; apply app_eq_nil in H as [H _]; exact (Hk0 H)).
  assert (Hck : check_key (k ++ z) = Ret tt).
  { destruct (exists_last Hz0) as (z' & c & ->). rewrite last_last in Hz. subst c.
    unfold check_key. rewrite app_assoc, last_last. destruct k; [congruence|reflexivity]. }
  destruct (compact_store a) eqn:Ha.
  - destruct (alias_past dbg vs a e _ _ b _ _ loc lab _ root k v z Hvs Ha Hs Hroot Hlab (or_intror Hl))
      as (p & [i0 F1] & _ & F3 & _). destruct (F3 Hl) as [i1 F2]. exists p. split.
    + apply (root_found dbg vs a m root k (check_key_ok k Hl) Hk0 Hrd Hsz Er p i0 F1).
    + apply (root_found dbg vs a m root (k ++ z) Hck Hkz Hrd Hsz Er p i1 F2).
  - intros v' Hv' Hp. assert (v' = v) as ->.
    { destruct (mr_dict _ _ _ _ _ _ _ _ _ _ _ R) as [Hd _]. specialize (Hd _ _ _ HD).
      assert (Ek : keyof D [] = k) by (unfold keyof, label; rewrite HD; reflexivity).
      rewrite Ek, final_value in Hd. congruence. }
    destruct (alias_plain_past dbg vs a e _ _ b _ _ loc lab _ root k v z Ha Hs Hroot Hlab) as (_ & id & Hf & Hvl & _ & Hc).
    destruct (plain_cmp_cases z v (N.of_nat (length k))) as (C1 & _ & _). specialize (Hc Hkz).
    rewrite (C1 Hp), bind_ret in Hc. cbn [fst snd] in Hc.
    eexists. apply and_assoc. split; [apply (root_found dbg vs a m root (k ++ z) Hck Hkz Hrd Hsz Er _ _ Hc)|].
    unfold a_read, map_read, hp_read, hp_block. cbn [fst snd]. rewrite Hf, bind_ret, a_vs. unfold slice.
    destruct (N.leb_spec (N.of_nat (length k) + N.of_nat (length z) + N.of_nat vs) (N.of_nat (length (k ++ v)))) as [Hle|_]; [|reflexivity].
    exfalso. rewrite app_length, Hvl in Hle. destruct z; [congruence|]. simpl in Hle. lia.
Qed.
