(** compact_fkhash_trie represents a finite tree with consecutive node ids. *)
From Verif.Proofs Require Export DspP.
From Verif.Model Require Export CompactFkhashTrie.
Local Open Scope N_scope.

Section hash.
Context {HT : trie_hashers} {HO : th_ok HT}.
Local Notation hfun := (@hfun th_trie).
Local Notation hinv := (@hinv th_trie).
Local Existing Instance th_map.

Lemma countb_upto p n m : n <= m -> countb p n <= countb p m.
Proof.
  intros Hle. pattern m. revert m Hle. apply N.right_induction.
  - intros x y ->. reflexivity.
  - lia.
  - intros k Hk IH. rewrite <- N.add_1_r, countb_succ. lia.
Qed.

Section cfk.
  Context (P : dsp_params).
  Hypothesis HP : dp_ok P.
  Notation d1 := (dp_d1 P).

  Definition cf_id (t : cf_trie) (i : N) : N := cv_val (cf_ids t) i.
  Definition cf_cell (b sb : N) (mc ms : gmap N N) (t : cf_trie) (i : N) : cell :=
    if cv_val (cf_ids t) i =? N.ones b then Vac
    else let x := cv_val (dt_table (cf_dt t)) i in Full (skey b sb (x / 2 ^ d1) i (dsp_of P mc ms x i)).

  Record cf_shape (mf b sb : N) (t : cf_trie) (mc ms : gmap N N) : Prop := {
    ys_rep : dt_rep P b sb (cf_dt t) mc ms;
    ys_mf : 1 <= mf <= 99;
    ys_max : cf_max t = max_size_of (2 ^ b) mf;
    ys_iwf : cv_wf (cf_ids t);
    ys_isize : cv_size (cf_ids t) = 2 ^ b;
    ys_iwidth : cv_width (cf_ids t) = b;
    ys_vac : forall i, i < 2 ^ b -> cv_val (cf_ids t) i = N.ones b -> cv_val (dt_table (cf_dt t)) i = 0;
    ys_le : forall i, i < 2 ^ b -> cv_val (cf_ids t) i <> N.ones b ->
       dsp_of P mc ms (cv_val (dt_table (cf_dt t)) i) i < 2 ^ b }.
  Record cf_repx (mf b sb : N) (t : cf_trie) (mc ms : gmap N N) (loc : gmap (list N) N) : Prop := {
    yr_shape : cf_shape mf b sb t mc ms;
    yr_trep : trep (2 ^ b) sb 0 (chome b sb) (cf_cell b sb mc ms t) (cf_id t) loc;
    yr_cnt : countb (fun i => is_full (cf_cell b sb mc ms t i)) (2 ^ b) + 1 = cf_size t;
    yr_size : cf_size t = N.of_nat (size loc);
    yr_le : cf_size t <= cf_max t;
    yr_ids : forall p x, loc !! p = Some x -> x < cf_size t;
    yr_aux : N.of_nat (size mc) + N.of_nat (size ms) + 1 <= cf_size t }.
  Definition cf_rep (mf b sb : N) (t : cf_trie) (loc : gmap (list N) N) : Prop :=
    exists mc ms, cf_repx mf b sb t mc ms loc.
  Definition cf_fresh (mf b sb : N) (t : cf_trie) : Prop :=
    cf_shape mf b sb t ∅ ∅ /\ cf_size t = 0 /\ forall i, i < 2 ^ b -> cf_cell b sb ∅ ∅ t i = Vac.

  Lemma cf_new_ok mf cb sb ccb : 1 <= mf <= 99 -> N.max 16 cb <= 56 -> N.max 16 cb + sb < 64 ->
    N.max 12 ccb <= N.max 16 cb ->
    exists t, cf_new P mf cb sb ccb = Ret t /\ cf_fresh mf (N.max 16 cb) sb t.
  Proof.
    intros Hmf Hb Hsb Hccb. unfold cf_new.
    destruct (dt_new_ok P HP cb sb ccb Hb Hsb Hccb) as (d & E & Hr & Hv). rewrite E, bind_ret. cbv zeta.
    rewrite (ds_capa _ _ _ _ (dr_shape _ _ _ _ _ _ Hr)). set (b := N.max 16 cb) in *. assert (16 <= b) by lia.
    cbn [p2_bits p2_mask]. rewrite p2_size_ones by lia.
    assert (Hcb := capa_bound b b ltac:(lia) ltac:(lia)). pose proof (p57 b ltac:(lia)) as H57.
    destruct (cv_new_init_ok (2 ^ b) b (N.ones b)) as (ids & Ei & Hwf & Hs & Hw & Hval & _); try lia.
    { rewrite N.ones_equiv. pose proof (pow2_pos b). lia. }
    rewrite Ei, bind_ret. eexists. split; [reflexivity|].
    split; [|split; [reflexivity|]].
    - split; cbn [cf_dt cf_max cf_ids]; auto. intros i Hi Hne. rewrite Hval in Hne by exact Hi. congruence.
    - intros i Hi. unfold cf_cell. cbn [cf_ids]. rewrite Hval by exact Hi. rewrite N.eqb_refl. reflexivity.
  Qed.
  Lemma cf_max_facts mf b sb t mc ms : cf_shape mf b sb t mc ms -> 655 <= cf_max t /\ cf_max t + 600 < 2 ^ b.
  Proof.
    intros Hsh. rewrite (ys_max _ _ _ _ _ _ Hsh).
    pose proof (ds_b _ _ _ _ (dr_shape _ _ _ _ _ _ (ys_rep _ _ _ _ _ _ Hsh))).
    destruct (ms_ok2_facts b mf ltac:(lia) (ys_mf _ _ _ _ _ _ Hsh)) as (_ & _ & H3). apply H3. lia.
  Qed.
  Lemma cf_add_root_ok mf b sb t : cf_fresh mf b sb t ->
    exists t', cf_add_root t = Ret t' /\ cf_repx mf b sb t' ∅ ∅ {[ [] := 0 ]}.
  Proof.
    intros (Hsh & Hz & Hv). unfold cf_add_root. rewrite Hz. rewrite assert_true by reflexivity.
    rewrite bind_ret. eexists. split; [reflexivity|].
    split.
    - destruct Hsh. split; auto.
    - apply trep_root_only. intros i k Hi. change (cf_cell b sb ∅ ∅ t i <> Full k). rewrite Hv by exact Hi. discriminate.
    - cbn [cf_size]. change (countb (fun i => is_full (cf_cell b sb ∅ ∅ t i)) (2 ^ b) + 1 = 1).
      rewrite countb_const_false; [reflexivity|]. intros i Hi. rewrite Hv by exact Hi. reflexivity.
    - cbn [cf_size]. rewrite map_size_singleton. reflexivity.
    - cbn [cf_size cf_max]. pose proof (cf_max_facts _ _ _ _ _ _ Hsh). lia.
    - intros p x Hp. apply lookup_singleton_Some in Hp as [_ <-]. cbn [cf_size]. lia.
    - cbn [cf_size]. rewrite map_size_empty. lia.
  Qed.

  Section cf.
    Context (mf b sb : N) (t : cf_trie) (mc ms : gmap N N).
    Hypothesis Hsh : cf_shape mf b sb t mc ms.
    Let Hdt : dt_rep P b sb (cf_dt t) mc ms := ys_rep _ _ _ _ _ _ Hsh.
    Let Hds : dt_shape P b sb (cf_dt t) := dr_shape _ _ _ _ _ _ Hdt.
    Let Hax : aux_rep P b (cf_dt t) mc ms := dr_aux _ _ _ _ _ _ Hdt.
    Notation d := (cf_dt t).
    Notation tab := (dt_table (cf_dt t)).
    Notation cl := (cf_cell b sb mc ms t).
    Notation M := (2 ^ b).

    Lemma cf_b : 16 <= b <= 56. Proof. apply Hds. Qed.
    Lemma cf_bsb : b + sb < 64. Proof. apply Hds. Qed.
    Lemma cf_Mpos : 0 < M. Proof. apply pow2_pos. Qed.
    Lemma cf_M64 : M <= 2 ^ 64. Proof. apply pow2_le. pose proof cf_b. lia. Qed.
    Lemma cf_geti i : i < M -> cv_get (cf_ids t) i = Ret (cv_val (cf_ids t) i).
    Proof. intros Hi. apply cv_get_ok; [apply Hsh|]. rewrite (ys_isize _ _ _ _ _ _ Hsh). exact Hi. Qed.
    Lemma cf_capa_size : p2_size (dt_capa d) = M.
    Proof. rewrite (ds_capa _ _ _ _ Hds). apply p2_size_ones. pose proof cf_b. lia. Qed.
    Lemma cf_capa_mask : p2_mask (dt_capa d) = N.ones b.
    Proof. rewrite (ds_capa _ _ _ _ Hds). reflexivity. Qed.
    Lemma cf_symb_size : p2_size (dt_symb d) = 2 ^ sb.
    Proof. rewrite (ds_symb _ _ _ _ Hds). apply p2_size_ones. pose proof cf_bsb. lia. Qed.
    Lemma cf_mkey v s : v < M -> s < 2 ^ sb -> make_key (dt_symb d) v s = ekey sb v s.
    Proof. intros Hv Hs. rewrite (ds_symb _ _ _ _ Hds). apply (make_key_ok b); auto. apply cf_bsb. Qed.
    Lemma cf_right h e : right_of (dt_capa d) (slot M h e) = slot M h (e + 1).
    Proof. rewrite (ds_capa _ _ _ _ Hds). apply right_of_slot. pose proof cf_b. lia. Qed.
    Lemma cf_next e : e < M -> add64 e 1 = e + 1.
    Proof. intros He. unfold add64. apply w64_small. pose proof cf_b. pose proof (p57 b ltac:(lia)). lia. Qed.
    Lemma cf_vacancy : countb (fun i => is_full (cl i)) M < M -> exists v, v < M /\ cl v = Vac.
    Proof.
      intros Hc. destruct (countb_lt_ex _ _ Hc) as (i & Hi & Hv).
      exists i. split; [exact Hi|]. unfold cf_cell in *. destruct (_ =? N.ones b); [reflexivity|discriminate].
    Qed.

    (** Writing a key and an id into a vacant slot. *)
    Lemma cf_store k e x : k < 2 ^ (b + sb) -> e < M -> x < N.ones b ->
      cl (slot M (chome b sb k) e) = Vac ->
      wpx (max_size_of (2 ^ b) (dp_cmf P) <= N.of_nat (size mc))
        (cf_update_slot P t (slot M (chome b sb k) e) (cquo b sb k) e x) (fun t' => exists mc' ms',
        (size mc' + size ms' <= size mc + size ms + 1)%nat /\ cf_size t' = cf_size t /\ cf_max t' = cf_max t /\
        cf_shape mf b sb t' mc' ms' /\
        (forall j, j < M -> cf_cell b sb mc' ms' t' j = cell_upd cl (slot M (chome b sb k) e) (Full k) j) /\
        (forall j, j < M -> cf_id t' j = if j =? slot M (chome b sb k) e then x else cf_id t j)).
    Proof.
      intros Hk He Hx Hvac. set (i := slot M (chome b sb k) e) in *.
      assert (Hi : i < M) by (apply slot_lt, cf_Mpos). pose proof cf_b as Hb. pose proof cf_bsb as Hsb.
      assert (Hiv : cv_val (cf_ids t) i = N.ones b).
      { unfold cf_cell in Hvac. destruct (N.eqb_spec (cv_val (cf_ids t) i) (N.ones b)); [assumption|discriminate]. }
      assert (Hx0 := ys_vac _ _ _ _ _ _ Hsh i Hi Hiv).
      unfold cf_update_slot. apply wpx_bind. eapply wpx_mono.
      { apply (dt_update_ok P HP b sb d mc ms i Hds Hax Hi (dr_ok _ _ _ _ _ _ Hdt i Hi) (cquo b sb k) e Hx0 (cquo_lt b sb k)).
        pose proof (pow2_le b 56 ltac:(lia)). change (2 ^ 57) with (2 ^ 56 * 2). lia. }
      intros d' (Hsh' & mc' & ms' & y & Hax' & Hsmc & Hq & Hdsp & Hok & Hval & Hoth).
      destruct (cv_set_ok (cf_ids t) i x (ys_iwf _ _ _ _ _ _ Hsh)) as (ids & E2 & Hwf2 & Hcs2 & Hcw2 & Hval2);
        [rewrite (ys_isize _ _ _ _ _ _ Hsh); exact Hi|rewrite (ys_iwidth _ _ _ _ _ _ Hsh); rewrite N.ones_equiv in Hx; lia|].
      rewrite (ys_isize _ _ _ _ _ _ Hsh) in Hval2, Hcs2. rewrite (ys_iwidth _ _ _ _ _ _ Hsh) in Hcw2.
      rewrite E2, bind_ret. apply wpx_ret. exists mc', ms'. split; [exact Hsmc|]. split; [reflexivity|]. split; [reflexivity|]. split; [|split].
      - split; cbn [cf_dt cf_max cf_ids]; try apply Hsh; auto.
        + split; [exact Hsh'|exact Hax'|]. intros j Hj. rewrite Hval by exact Hj.
          destruct (N.eqb_spec j i) as [->|Hji]; [exact Hok|]. apply Hoth; [exact Hji|].
          apply (dr_ok _ _ _ _ _ _ Hdt j Hj).
        + intros j Hj. rewrite Hval, Hval2 by exact Hj. destruct (N.eqb_spec j i) as [->|Hji]; [lia|].
          apply (ys_vac _ _ _ _ _ _ Hsh j Hj).
        + intros j Hj. rewrite Hval, Hval2 by exact Hj. destruct (N.eqb_spec j i) as [->|Hji]; [rewrite Hdsp; lia|].
          destruct (Hoth j (cv_val tab j) Hji) as [-> _]. apply (ys_le _ _ _ _ _ _ Hsh j Hj).
      - intros j Hj. unfold cf_cell, cell_upd. cbn [cf_dt cf_ids]. rewrite Hval, Hval2 by exact Hj.
        destruct (N.eqb_spec j i) as [->|Hji].
        + rewrite (proj2 (N.eqb_neq x (N.ones b))) by lia. cbv zeta. rewrite Hq, Hdsp. f_equal.
          apply skey_eq; auto; [lia|apply cquo_lt].
        + cbv zeta. destruct (Hoth j (cv_val tab j) Hji) as [-> _]. reflexivity.
      - intros j Hj. unfold cf_id. cbn [cf_ids]. apply Hval2, Hj.
    Qed.

    (** The step function of both search loops. *)
    Lemma cf_step (R : Type) (onvac : N -> N -> outcome (N * N + R)) (onhit : N -> outcome (N * N + R)) k e :
      k < 2 ^ (b + sb) -> e < M ->
      (let i := slot M (chome b sb k) e in
       let next := (right_of (dt_capa d) i, add64 e 1) in
       let* child_id := cv_get (cf_ids t) i in
       if child_id =? p2_mask (dt_capa d) then onvac i e
       else let* c := dt_compare_dsp P d i e in
            if c then let* q := dt_get_quo P d i in if cquo b sb k =? q then onhit child_id else Ret (inl next)
            else Ret (inl next)) =
      let i := slot M (chome b sb k) e in
      match cl i with
      | Vac => onvac i e
      | Full k' => if k' =? k then onhit (cf_id t i) else Ret (inl (slot M (chome b sb k) (e + 1), e + 1))
      | Skip => UB
      end.
    Proof.
      intros Hk He. cbv zeta. set (i := slot M (chome b sb k) e).
      assert (Hi : i < M) by (apply slot_lt, cf_Mpos).
      pose proof cf_b as Hb. pose proof cf_bsb as Hsb.
      assert (Hr : right_of (dt_capa d) i = slot M (chome b sb k) (e + 1)) by apply cf_right.
      rewrite Hr, cf_next by exact He. rewrite cf_geti, bind_ret, cf_capa_mask by exact Hi. unfold cf_cell, cf_id.
      destruct (N.eqb_spec (cv_val (cf_ids t) i) (N.ones b)) as [|Hne]; [reflexivity|].
      pose proof (dr_ok _ _ _ _ _ _ Hdt i Hi) as Hok. pose proof (ys_le _ _ _ _ _ _ Hsh i Hi Hne) as Hle.
      rewrite (dt_compare_ok P HP b sb d mc ms i Hds Hax Hi Hok), bind_ret.
      rewrite (dt_quo_ok P b sb d i Hds Hi), bind_ret.
      pose proof (dt_quo_lt P b sb d i Hds Hi) as Hq. cbv zeta.
      set (x := dsp_of P mc ms (cv_val tab i) i) in *. set (q := cv_val tab i / 2 ^ d1) in *.
      assert (Hkey : skey b sb q i x = k <-> q = cquo b sb k /\ x = e).
      { apply skey_eq; try assumption; lia. }
      destruct (N.eqb_spec (skey b sb q i x) k) as [Ek|Nk].
      - apply Hkey in Ek as [Eq Ex]. rewrite (proj2 (N.eqb_eq x e)) by exact Ex.
        rewrite Eq, N.eqb_refl. reflexivity.
      - destruct (N.eqb_spec x e) as [Ex|]; [|reflexivity].
        destruct (N.eqb_spec (cquo b sb k) q) as [Eq|]; [|reflexivity].
        exfalso. apply Nk, Hkey. split; [congruence|exact Ex].
    Qed.
    (** The key recovered from an occupied slot. *)
    Lemma cf_slot_key i k : i < M -> cl i = Full k ->
      (let* dist := dt_get_dsp P d i in
       let* q := dt_get_quo P d i in
       hasher_hash_inv (dt_hasher d) (N.lor (shl q (p2_bits (dt_capa d))) (dt_init_id d i dist))) = Ret k /\
      k < 2 ^ (b + sb).
    Proof.
      intros Hi Hc. unfold cf_cell in Hc. destruct (N.eqb_spec (cv_val (cf_ids t) i) (N.ones b)) as [|Hne]; [discriminate|].
      cbv zeta in Hc. injection Hc as <-. split; [|apply skey_lt].
      rewrite (dt_dsp_ok P HP b sb d mc ms i Hds Hax Hi (dr_ok _ _ _ _ _ _ Hdt i Hi)), bind_ret.
      rewrite (dt_quo_ok P b sb d i Hds Hi), bind_ret.
      apply (dt_key_ok P b sb d); auto; [apply (dt_quo_lt P b sb d i Hds Hi)|].
      apply (ys_le _ _ _ _ _ _ Hsh i Hi Hne).
    Qed.
  End cf.

  Lemma cf_expand_ok mf b sb t loc : cf_rep mf b sb t loc -> b <= 55 -> b + 1 + sb < 64 ->
    wpx (saturates P (b + 1) (cf_size t)) (cf_expand P mf t) (fun t' => cf_rep mf (b + 1) sb t' loc /\ cf_size t' < cf_max t').
  Proof.
    intros (mc & ms & H) Hb Hsb1. pose proof (yr_shape _ _ _ _ _ _ _ H) as Hsh.
    pose proof (cf_b _ _ _ _ _ _ Hsh) as Hb16. pose proof (ys_mf _ _ _ _ _ _ Hsh) as Hmf.
    pose proof (yr_trep _ _ _ _ _ _ _ H) as Htr. pose proof (ys_rep _ _ _ _ _ _ Hsh) as Hdt.
    pose proof (dr_shape _ _ _ _ _ _ Hdt) as Hds.
    unfold cf_expand. cbv zeta. rewrite (cf_capa_mask mf b sb t mc ms Hsh), (cf_capa_size mf b sb t mc ms Hsh).
    assert (Esb : p2_bits (dt_symb (cf_dt t)) = sb) by (rewrite (ds_symb _ _ _ _ Hds); reflexivity).
    assert (Ecb : p2_bits (dt_capa (cf_dt t)) = b) by (rewrite (ds_capa _ _ _ _ Hds); reflexivity).
    rewrite Esb, Ecb at 1.
    destruct (cf_new_ok mf (b + 1) sb 0 Hmf) as (t0 & E0 & Hf0); [lia|lia|lia|].
    replace (N.max 16 (b + 1)) with (b + 1) in Hf0 by lia. rewrite E0, bind_ret.
    destruct Hf0 as (Hsh0 & Hz0 & Hv0).
    assert (HM := pow2_pos b). assert (HM1 := pow2_pos (b + 1)). assert (HMM := pow2_succ b).
    assert (HmaxM := cf_max_facts _ _ _ _ _ _ Hsh).
    assert (Hcid : forall j k, j < 2 ^ b -> cf_cell b sb mc ms t j = Full k -> cf_id t j < N.ones (b + 1)).
    { intros j k Hj Hc. destruct (tr_path _ _ _ _ _ _ _ Htr j k Hj Hc) as (p & _ & Hp).
      pose proof (yr_ids _ _ _ _ _ _ _ H _ _ Hp). pose proof (yr_le _ _ _ _ _ _ _ H). rewrite N.ones_equiv. lia. }
    match goal with |- context [for_range ?a ?n ?body ?s] =>
    assert (Hloop : wpx (saturates P (b + 1) (cf_size t)) (for_range a n body s) (fun nt => exists nmc nms,
       N.of_nat (size nmc) + N.of_nat (size nms) <= countb (fun i => is_full (cf_cell b sb mc ms t i)) (2 ^ b) /\
       cf_shape mf (b + 1) sb nt nmc nms /\ pinv (2 ^ (b + 1)) (chome (b + 1) sb) (cf_cell (b + 1) sb nmc nms nt) /\
       countb (fun i => is_full (cf_cell (b + 1) sb nmc nms nt i)) (2 ^ (b + 1)) = countb (fun i => is_full (cf_cell b sb mc ms t i)) (2 ^ b) /\
       (forall k x, (exists j, j < 2 ^ (b + 1) /\ cf_cell (b + 1) sb nmc nms nt j = Full k /\ cf_id nt j = x) <->
                    (exists j, j < 2 ^ b /\ cf_cell b sb mc ms t j = Full k /\ cf_id t j = x)))) end.
    { apply wpx_for_range with (I := fun i nt => exists nmc nms,
       N.of_nat (size nmc) + N.of_nat (size nms) <= countb (fun i => is_full (cf_cell b sb mc ms t i)) i /\
       cf_shape mf (b + 1) sb nt nmc nms /\ pinv (2 ^ (b + 1)) (chome (b + 1) sb) (cf_cell (b + 1) sb nmc nms nt) /\
       countb (fun i => is_full (cf_cell (b + 1) sb nmc nms nt i)) (2 ^ (b + 1)) = countb (fun i => is_full (cf_cell b sb mc ms t i)) i /\
       (forall k x, (exists j, j < 2 ^ (b + 1) /\ cf_cell (b + 1) sb nmc nms nt j = Full k /\ cf_id nt j = x) <->
                    (exists j, j < i /\ cf_cell b sb mc ms t j = Full k /\ cf_id t j = x))).
      - lia.
      - pose proof (p57 b ltac:(lia)). lia.
      - exists ∅, ∅. split; [rewrite map_size_empty; lia|]. split; [exact Hsh0|]. split; [|split].
        + apply pinv_empty. intros i k Hi. rewrite Hv0 by exact Hi. discriminate.
        + rewrite countb_0. apply countb_const_false. intros i Hi. rewrite Hv0 by exact Hi. reflexivity.
        + intros k x. split; intros (j & Hj & Hc & _); [|lia]. rewrite Hv0 in Hc by exact Hj. discriminate.
      - intros i nt Hi (nmc & nms & Hauxn & Hshn & Hpn & Hcn & Hkn).
        assert (Hi' : i < 2 ^ b) by lia.
        rewrite (cf_geti mf b sb t mc ms Hsh) by exact Hi'. rewrite bind_ret.
        destruct (N.eqb_spec (cv_val (cf_ids t) i) (N.ones b)) as [Ez|Enz].
        + assert (Hcell : cf_cell b sb mc ms t i = Vac) by (unfold cf_cell; rewrite Ez, N.eqb_refl; reflexivity).
          apply wpx_ret. exists nmc, nms.
          split; [rewrite countb_succ, Hcell; simpl; clear -Hauxn; lia|]. split; [exact Hshn|]. split; [exact Hpn|]. split.
          * rewrite countb_succ, Hcell. simpl. rewrite N.add_0_r. exact Hcn.
          * intros k x. rewrite Hkn. split; intros (j & Hj & Hc & Hx); exists j; (split; [|split; assumption]); [lia|].
            destruct (N.eq_dec j i) as [->|]; [congruence|lia].
        + assert (exists key, cf_cell b sb mc ms t i = Full key) as [key Hcell].
          { unfold cf_cell. rewrite (proj2 (N.eqb_neq _ _) Enz). eauto. }
          destruct (cf_slot_key mf b sb t mc ms Hsh i key Hi' Hcell) as [Ekey Hkey].
          destruct (dt_get_dsp P (cf_dt t) i) as [dist| | | |] eqn:Eds; cbn [bind] in Ekey; try discriminate.
          destruct (dt_get_quo P (cf_dt t) i) as [q| | | |] eqn:Eq; cbn [bind] in Ekey; try discriminate.
          rewrite !bind_ret, Ekey, bind_ret.
          assert (Hkey1 : key < 2 ^ (b + 1 + sb)).
          { apply (N.lt_le_trans _ (2 ^ (b + sb))); [exact Hkey|]. apply pow2_le. lia. }
          destruct (dt_decompose_ok P (b + 1) sb (cf_dt nt) key (dr_shape _ _ _ _ _ _ (ys_rep _ _ _ _ _ _ Hshn)) Hkey1) as [Eh Ed].
          rewrite Eh, bind_ret, Ed.
          match goal with |- context [loop ?g _] => set (f := g) end.
          destruct (probe_vac_loop (2 ^ (b + 1)) (chome (b + 1) sb) HM1 (chome_lt (b + 1) sb) f
             (fun e => (slot (2 ^ (b + 1)) (chome (b + 1) sb key) e, e)) (cf_cell (b + 1) sb nmc nms nt) key) as (e & He & Hpr & Hvc & Hl).
          { apply (cf_M64 mf _ sb nt nmc nms Hshn). }
          { apply cf_vacancy. rewrite Hcn. pose proof (countb_le (fun i => is_full (cf_cell b sb mc ms t i)) i). lia. }
          { intros e He Hne. unfold f. rewrite (cf_geti mf (b + 1) sb nt nmc nms Hshn) by (apply slot_lt; exact HM1).
            rewrite bind_ret, (cf_capa_mask mf (b + 1) sb nt nmc nms Hshn). unfold cf_cell in Hne.
            destruct (N.eqb_spec (cv_val (cf_ids nt) (slot (2 ^ (b + 1)) (chome (b + 1) sb key) e)) (N.ones (b + 1))); [congruence|].
            rewrite (cf_right mf (b + 1) sb nt nmc nms Hshn), (cf_next mf (b + 1) sb nt nmc nms Hshn) by exact He. reflexivity. }
          rewrite slot_0 in Hl by apply chome_lt.
          assert (Hlt := slot_lt (2 ^ (b + 1)) HM1 (chome (b + 1) sb key) e).
          pose proof (cf_store mf (b + 1) sb nt nmc nms Hshn key e (cv_val (cf_ids t) i) Hkey1 He (Hcid i key Hi' Hcell) Hvc) as Hst.
          set (ni := slot (2 ^ (b + 1)) (chome (b + 1) sb key) e) in *.
          assert (Hf : f (ni, e) = let* n := cf_update_slot P nt ni (cquo (b + 1) sb key) e (cv_val (cf_ids t) i) in Ret (inr n)).
          { unfold f. rewrite (cf_geti mf (b + 1) sb nt nmc nms Hshn) by exact Hlt.
            rewrite bind_ret, (cf_capa_mask mf (b + 1) sb nt nmc nms Hshn).
            unfold cf_cell in Hvc. destruct (N.eqb_spec (cv_val (cf_ids nt) ni) (N.ones (b + 1))); [|discriminate]. reflexivity. }
          assert (Hstop : stops (f (ni, e))).
          { rewrite Hf. destruct (cf_update_slot P nt ni (cquo (b + 1) sb key) e (cv_val (cf_ids t) i)); cbn; intros x; discriminate. }
          rewrite (Hl Hstop), Hf. clear Hl Hf Hstop f. unfold wpx in Hst |- *.
          destruct (cf_update_slot P nt ni (cquo (b + 1) sb key) e (cv_val (cf_ids t) i)) as [nt'| | | |]; cbn [bind finish]; auto.
          2:{ unfold saturates. pose proof (countb_upto (fun i => is_full (cf_cell b sb mc ms t i)) i (2 ^ b) ltac:(lia)) as Hcm.
              pose proof (yr_cnt _ _ _ _ _ _ _ H) as Hct. clear -Hst Hcm Hct Hauxn. lia. }
          destruct Hst as (nmc' & nms' & Hsmc & _ & _ & Hsh' & Hc' & Hid').
          assert (Hnew : forall j, j < 2 ^ (b + 1) -> cf_cell (b + 1) sb nmc nms nt j <> Full key).
          { intros j Hj Hc.
            destruct (proj1 (Hkn key (cf_id nt j))) as (j' & Hj' & Hcj & _); [eauto|].
            assert (j' = i); [|lia].
            apply (pi_uniq _ _ _ (tr_pinv _ _ _ _ _ _ _ Htr) j' i key); [lia|lia|exact Hcj|exact Hcell]. }
          exists nmc', nms'. split; [rewrite countb_succ, Hcell; simpl b2n; clear -Hauxn Hsmc; lia|].
          split; [exact Hsh'|]. split; [|split].
          * apply (pinv_ext _ (chome (b + 1) sb) HM1 (cell_upd (cf_cell (b + 1) sb nmc nms nt) ni (Full key))).
            { intros j Hj. symmetry. apply Hc', Hj. }
            apply pinv_insert; auto. apply chome_lt.
          * rewrite countb_succ, Hcell. simpl b2n. rewrite <- Hcn.
            apply (countb_upd _ _ _ ni Hlt).
            -- rewrite Hvc. reflexivity.
            -- rewrite Hc' by exact Hlt. unfold cell_upd. rewrite N.eqb_refl. reflexivity.
            -- intros j Hj Hne. rewrite Hc' by exact Hj. unfold cell_upd. rewrite (proj2 (N.eqb_neq _ _) Hne). reflexivity.
          * intros k x. split.
            -- intros (j & Hj & Hc & Hx). rewrite Hc' in Hc by exact Hj. rewrite Hid' in Hx by exact Hj.
               unfold cell_upd in Hc. destruct (N.eqb_spec j ni) as [->|Hne].
               ++ injection Hc as <-. exists i. split; [lia|]. split; [exact Hcell|exact Hx].
               ++ destruct (proj1 (Hkn k x)) as (j' & Hj' & Hr); [eauto|]. exists j'. split; [lia|exact Hr].
            -- intros (j & Hj & Hc & Hx). destruct (N.eq_dec j i) as [->|Hne].
               ++ rewrite Hcell in Hc. injection Hc as <-. exists ni. split; [exact Hlt|].
                  rewrite Hc', Hid' by exact Hlt. unfold cell_upd. rewrite N.eqb_refl. split; [reflexivity|exact Hx].
               ++ destruct (proj2 (Hkn k x)) as (j' & Hj' & Hcj & Hxj).
                  { exists j. split; [lia|]. split; assumption. }
                  exists j'. split; [exact Hj'|]. rewrite Hc', Hid' by exact Hj'. unfold cell_upd.
                  destruct (N.eqb_spec j' ni) as [->|]; [congruence|]. split; assumption.
      - auto. }
    apply wpx_bind. eapply wpx_mono; [exact Hloop|]. clear Hloop.
    intros nt (nmc & nms & Hauxn & Hshn & Hpn & Hcn & Hkn). apply wpx_ret.
    assert (Hmax : max_size_of (2 ^ b) mf < max_size_of (2 ^ (b + 1)) mf) by (apply ms_ok2_facts; lia).
    pose proof (yr_le _ _ _ _ _ _ _ H) as Hle. rewrite (ys_max _ _ _ _ _ _ Hsh) in Hle.
    assert (Hmn := ys_max _ _ _ _ _ _ Hshn).
    split; [|cbn [cf_size cf_max]; rewrite Hmn; lia].
    exists nmc, nms. split.
    - destruct Hshn. split; auto.
    - split.
      + exact Hpn.
      + apply (tr_root _ _ _ _ _ _ _ Htr).
      + intros s p x Hx. destruct (tr_cell _ _ _ _ _ _ _ Htr s p x Hx) as (Hs & v & i & Hv & Hi & Hc & Hid).
        split; [exact Hs|]. destruct (proj2 (Hkn (ekey sb v s) x)) as (j & Hj & Hcj & Hxj); [eauto|].
        exists v, j. repeat split; assumption.
      + intros i k Hi Hc. destruct (proj1 (Hkn k (cf_id nt i))) as (j & Hj & Hcj & Hxj); [eauto|].
        destruct (tr_path _ _ _ _ _ _ _ Htr j k Hj Hcj) as (p & H1 & H2). exists p. split; [exact H1|].
        change (loc !! (k mod 2 ^ sb :: p) = Some (cf_id nt i)). rewrite <- Hxj. exact H2.
      + intros i j k k' Hi Hj Hc Hc' E.
        change (cf_cell (b + 1) sb nmc nms nt i = Full k) in Hc. change (cf_cell (b + 1) sb nmc nms nt j = Full k') in Hc'.
        change (cf_id nt i = cf_id nt j) in E.
        destruct (proj1 (Hkn k (cf_id nt i))) as (i1 & Hi1 & Hc1 & Hx1); [eauto|].
        destruct (proj1 (Hkn k' (cf_id nt j))) as (j1 & Hj1 & Hc2 & Hx2); [eauto|].
        assert (i1 = j1) by (eapply (tr_inj _ _ _ _ _ _ _ Htr); eauto; congruence). subst j1.
        assert (k' = k) by congruence. subst k'.
        apply (pi_uniq _ _ _ Hpn i j k); assumption.
      + intros i k Hi Hc. change (cf_id nt i <> 0).
        destruct (proj1 (Hkn k (cf_id nt i))) as (i1 & Hi1 & Hc1 & Hx1); [eauto|].
        rewrite <- Hx1. apply (tr_nroot _ _ _ _ _ _ _ Htr i1 k Hi1 Hc1).
    - cbn [cf_size]. change (countb (fun i => is_full (cf_cell (b + 1) sb nmc nms nt i)) (2 ^ (b + 1)) + 1 = cf_size t).
      rewrite Hcn. apply H.
    - cbn [cf_size]. apply H.
    - cbn [cf_size cf_max]. rewrite Hmn. lia.
    - cbn [cf_size]. apply H.
    - cbn [cf_size]. pose proof (yr_cnt _ _ _ _ _ _ _ H) as Hct. clear -Hct Hauxn. lia.
  Qed.

  Section cfops.
    Context (mf b sb : N) (t : cf_trie) (mc ms : gmap N N) (loc : gmap (list N) N).
    Hypothesis H : cf_repx mf b sb t mc ms loc.
    Let Hsh := yr_shape _ _ _ _ _ _ _ H.
    Let Htr := yr_trep _ _ _ _ _ _ _ H.
    Let Hds : dt_shape P b sb (cf_dt t) := dr_shape _ _ _ _ _ _ (ys_rep _ _ _ _ _ _ Hsh).
    Notation M := (2 ^ b).
    Notation cl := (cf_cell b sb mc ms t).

    Lemma cf_root : cf_get_root t = Ret 0.
    Proof.
      unfold cf_get_root. rewrite assert_true; [reflexivity|]. apply negb_true_iff, N.eqb_neq.
      pose proof (yr_cnt _ _ _ _ _ _ _ H). lia.
    Qed.
    Lemma cf_id_lt p v : loc !! p = Some v -> v < M.
    Proof.
      intros Hp. pose proof (yr_ids _ _ _ _ _ _ _ H p v Hp). pose proof (yr_le _ _ _ _ _ _ _ H).
      pose proof (cf_max_facts _ _ _ _ _ _ Hsh). lia.
    Qed.
    Lemma cf_vac : exists v, v < M /\ cl v = Vac.
    Proof.
      apply cf_vacancy. pose proof (yr_cnt _ _ _ _ _ _ _ H). pose proof (yr_le _ _ _ _ _ _ _ H).
      pose proof (cf_max_facts _ _ _ _ _ _ Hsh). lia.
    Qed.
    Lemma cf_no_skip i : cl i <> Skip.
    Proof. unfold cf_cell. destruct (_ =? _); discriminate. Qed.

    Lemma cf_find_raw v s : v < M -> s < 2 ^ sb ->
      (exists i, i < M /\ cl i = Full (ekey sb v s) /\ cf_find_child P t v s = Ret (cf_id t i)) \/
      ((forall j, j < M -> cl j <> Full (ekey sb v s)) /\ cf_find_child P t v s = Ret nil_id).
    Proof.
      intros Hv Hs. unfold cf_find_child. cbv zeta.
      rewrite (proj2 (N.eqb_neq (cf_size t) 0)) by (pose proof (yr_cnt _ _ _ _ _ _ _ H); lia).
      rewrite (cf_mkey mf b sb t mc ms Hsh) by assumption.
      set (k := ekey sb v s). assert (Hk : k < 2 ^ (b + sb)) by (apply ekey_lt; assumption).
      destruct (dt_decompose_ok P b sb (cf_dt t) k Hds Hk) as [Eh Ed]. rewrite Eh, bind_ret, Ed.
      match goal with |- context [loop ?g _] => set (f := g) end.
      assert (Hstep : forall e, e < M -> f (slot M (chome b sb k) e, e) =
        match cl (slot M (chome b sb k) e) with
        | Vac => Ret (inr nil_id)
        | Full k' => if k' =? k then Ret (inr (cf_id t (slot M (chome b sb k) e))) else Ret (inl (slot M (chome b sb k) (e + 1), e + 1))
        | Skip => UB end).
      { intros e He. exact (cf_step mf b sb t mc ms Hsh N (fun _ _ => Ret (inr nil_id)) (fun i => Ret (inr i)) k e Hk He). }
      destruct (probe_loop M (chome b sb) (pow2_pos b) (chome_lt b sb) f
        (fun e => (slot M (chome b sb k) e, e)) cl k (cf_M64 mf b sb t mc ms Hsh)
        (tr_pinv _ _ _ _ _ _ _ Htr) cf_vac) as (e & He & Hpr & Hc & Hl).
      { intros e He H1 H2. rewrite Hstep by exact He. pose proof (cf_no_skip (slot M (chome b sb k) e)).
        destruct (cl _) as [| |k']; [congruence|congruence|].
        destruct (N.eqb_spec k' k) as [->|]; [congruence|reflexivity]. }
      rewrite slot_0 in Hl by apply chome_lt.
      assert (Hlt := slot_lt M (pow2_pos b) (chome b sb k) e).
      assert (Hf := Hstep e He). set (i := slot M (chome b sb k) e) in *.
      destruct Hc as [Hc|[Hc Hab]].
      - left. exists i. split; [exact Hlt|]. split; [exact Hc|].
        rewrite Hc, N.eqb_refl in Hf. rewrite Hl; rewrite Hf; [reflexivity|intros x; discriminate].
      - right. split; [exact Hab|].
        rewrite Hc in Hf. rewrite Hl; rewrite Hf; [reflexivity|intros x; discriminate].
    Qed.
    Lemma cf_find_ok p v s : loc !! p = Some v -> s < 2 ^ sb ->
      cf_find_child P t v s = Ret (default nil_id (loc !! (s :: p))).
    Proof.
      intros Hp Hs. destruct (cf_find_raw v s (cf_id_lt p v Hp) Hs) as [(i & Hi & Hc & ->)|[Hab ->]].
      - rewrite (trep_found _ _ _ _ _ _ _ Htr p v s i Hp Hs Hi Hc). reflexivity.
      - rewrite (trep_absent _ _ _ _ _ _ _ Htr p v s Hp Hs Hab). reflexivity.
    Qed.

    Lemma cf_add_room p v s : loc !! p = Some v -> s < 2 ^ sb -> cf_size t < cf_max t ->
      match loc !! (s :: p) with
      | Some x => cf_add_child P mf t v s = Ret (false, x, t)
      | None => wpx (saturates P b (cf_size t)) (cf_add_child P mf t v s) (fun '(r, x, t') => r = true /\ x = cf_size t /\
                 cf_rep mf b sb t' (<[s :: p := cf_size t]> loc))
      end.
    Proof.
      intros Hp Hs Hroom. pose proof (cf_id_lt p v Hp) as Hv.
      unfold cf_add_child. rewrite (cf_capa_size mf b sb t mc ms Hsh), (cf_symb_size mf b sb t mc ms Hsh).
      rewrite !assert_true by (apply N.ltb_lt; assumption). rewrite !bind_ret.
      rewrite (proj2 (N.leb_gt _ _) Hroom). rewrite bind_ret. cbv zeta.
      rewrite (cf_mkey mf b sb t mc ms Hsh) by assumption.
      set (k := ekey sb v s). assert (Hk : k < 2 ^ (b + sb)) by (apply ekey_lt; assumption).
      destruct (dt_decompose_ok P b sb (cf_dt t) k Hds Hk) as [Eh Ed]. rewrite Eh, bind_ret, Ed.
      match goal with |- context [loop ?g _] => set (f := g) end.
      set (onvac := fun i cnt => let* n := cf_update_slot P t i (cquo b sb k) cnt (cf_size t) in
        Ret (inr (true, cf_size t, mkCF (cf_dt n) (cf_ids n) (add64 (cf_size t) 1) (cf_max t)))
        : outcome ((N * N) + (bool * N * cf_trie))).
      assert (Hstep : forall e, e < M -> f (slot M (chome b sb k) e, e) =
        match cl (slot M (chome b sb k) e) with
        | Vac => onvac (slot M (chome b sb k) e) e
        | Full k' => if k' =? k then Ret (inr (false, cf_id t (slot M (chome b sb k) e), t)) else Ret (inl (slot M (chome b sb k) (e + 1), e + 1))
        | Skip => UB end).
      { intros e He. exact (cf_step mf b sb t mc ms Hsh _ onvac (fun x => Ret (inr (false, x, t))) k e Hk He). }
      destruct (probe_loop M (chome b sb) (pow2_pos b) (chome_lt b sb) f
        (fun e => (slot M (chome b sb k) e, e)) cl k (cf_M64 mf b sb t mc ms Hsh)
        (tr_pinv _ _ _ _ _ _ _ Htr) cf_vac) as (e & He & Hpr & Hc & Hl).
      { intros e He H1 H2. rewrite Hstep by exact He. pose proof (cf_no_skip (slot M (chome b sb k) e)).
        destruct (cl _) as [| |k']; [congruence|congruence|].
        destruct (N.eqb_spec k' k) as [->|]; [congruence|reflexivity]. }
      rewrite slot_0 in Hl by apply chome_lt.
      assert (Hlt := slot_lt M (pow2_pos b) (chome b sb k) e).
      assert (Hf := Hstep e He).
      assert (HmaxM := cf_max_facts _ _ _ _ _ _ Hsh).
      destruct Hc as [Hc|[Hc Hab]].
      - rewrite (trep_found _ _ _ _ _ _ _ Htr p v s _ Hp Hs Hlt Hc).
        rewrite Hc, N.eqb_refl in Hf. rewrite Hl; rewrite Hf; [reflexivity|intros x; discriminate].
      - assert (Hnone := trep_absent _ _ _ _ _ _ _ Htr p v s Hp Hs Hab). rewrite Hnone.
        assert (Hszb : cf_size t < N.ones b) by (rewrite N.ones_equiv; lia).
        pose proof (cf_store mf b sb t mc ms Hsh k e (cf_size t) Hk He Hszb Hc) as Hst.
        set (i := slot M (chome b sb k) e) in *.
        rewrite Hc in Hf. unfold onvac in Hf.
        assert (Hstop : stops (f (i, e))).
        { rewrite Hf. destruct (cf_update_slot P t i (cquo b sb k) e (cf_size t)); cbn; intros x; discriminate. }
        rewrite (Hl Hstop), Hf. clear Hl Hf Hstop Hstep onvac f. unfold wpx in Hst |- *.
        destruct (cf_update_slot P t i (cquo b sb k) e (cf_size t)) as [n| | | |]; cbn [bind finish]; auto.
        2:{ unfold saturates. pose proof (yr_aux _ _ _ _ _ _ _ H) as Haux. clear -Hst Haux. lia. }
        destruct Hst as (mc' & ms' & Hsmc & Hns & Hnm & Hsh' & Hc' & Hid').
        assert (Hsz : add64 (cf_size t) 1 = cf_size t + 1).
        { unfold add64. apply w64_small. pose proof (cf_b _ _ _ _ _ _ Hsh). pose proof (p57 b ltac:(lia)). lia. }
        split; [reflexivity|]. split; [reflexivity|]. rewrite Hsz. exists mc', ms'.
        set (t' := mkCF (cf_dt n) (cf_ids n) (cf_size t + 1) (cf_max t)).
        assert (Hcl' : forall j, cf_cell b sb mc' ms' t' j = cf_cell b sb mc' ms' n j) by reflexivity.
        assert (Hi' : forall j, cf_id t' j = cf_id n j) by reflexivity.
        split.
        + destruct Hsh'. split; auto. cbn [t' cf_max]. congruence.
        + apply (trep_insert M sb 0 (chome b sb) cl (cf_id t) loc (pow2_pos b) (chome_lt b sb)
             Htr p v s e (cf_size t)); auto.
          * intros e' He'. apply (Hpr e' He').
          * intros q Hq. pose proof (yr_ids _ _ _ _ _ _ _ H q _ Hq). lia.
          * fold k i. rewrite Hi', Hid', N.eqb_refl by exact Hlt. reflexivity.
          * intros j k' Hj Hcj. rewrite Hi', Hid' by exact Hj. destruct (N.eqb_spec j i) as [->|]; [congruence|reflexivity].
        + cbn [cf_size t']. rewrite (countb_upd (fun j => is_full (cl j)) _ _ i Hlt).
          * rewrite (yr_cnt _ _ _ _ _ _ _ H). reflexivity.
          * rewrite Hc. reflexivity.
          * rewrite Hcl', Hc' by exact Hlt. unfold cell_upd. rewrite N.eqb_refl. reflexivity.
          * intros j Hj Hne'. rewrite Hcl', Hc' by exact Hj. unfold cell_upd. rewrite (proj2 (N.eqb_neq _ _) Hne'). reflexivity.
        + cbn [cf_size t']. rewrite map_size_insert, Hnone, (yr_size _ _ _ _ _ _ _ H). simpl. lia.
        + cbn [cf_size cf_max t']. lia.
        + cbn [cf_size t']. intros q x Hq. apply lookup_insert_Some in Hq as [[_ <-]|[_ Hq]]; [lia|].
          pose proof (yr_ids _ _ _ _ _ _ _ H q _ Hq). lia.
        + cbn [cf_size t']. pose proof (yr_aux _ _ _ _ _ _ _ H) as Haux. clear -Hsmc Haux. lia.
    Qed.
  End cfops.

  Lemma cf_add_ok mf b sb t loc p v s : cf_rep mf b sb t loc ->
    loc !! p = Some v -> s < 2 ^ sb ->
    (cf_size t < cf_max t \/ (b <= 55 /\ b + 1 + sb < 64)) ->
    wpx (saturates P b (cf_size t)) (cf_add_child P mf t v s) (fun '(r, x, t') => exists b', b <= b' <= b + 1 /\ ((cf_size t < cf_max t -> b' = b) /\ (cf_max t <= cf_size t -> b' = b + 1)) /\
      match loc !! (s :: p) with
      | Some y => r = false /\ x = y /\ cf_rep mf b' sb t' loc
      | None => r = true /\ x = cf_size t /\ cf_rep mf b' sb t' (<[s :: p := x]> loc)
      end).
  Proof.
    intros (mc & ms & H) Hp Hs Hroom.
    destruct (N.lt_ge_cases (cf_size t) (cf_max t)) as [Hlt|Hge].
    - pose proof (cf_add_room mf b sb t mc ms loc H p v s Hp Hs Hlt) as Ha.
      destruct (loc !! (s :: p)) as [y|].
      + rewrite Ha. apply wpx_ret. exists b. split; [lia|]. split; [split; lia|]. repeat split. exists mc, ms. exact H.
      + eapply wpx_mono; [exact Ha|]. intros [[r x] t'] (-> & -> & Hr). exists b. split; [lia|]. split; [split; lia|]. auto.
    - destruct Hroom as [Hr|[Hb Hsb]]; [lia|].
      assert (Hmono : saturates P (b + 1) (cf_size t) -> saturates P b (cf_size t)).
      { unfold saturates. pose proof (do_cmf _ HP) as Hcmf.
        pose proof (cf_b mf b sb t mc ms (yr_shape _ _ _ _ _ _ _ H)) as Hb16.
        assert (Hmax : max_size_of (2 ^ b) (dp_cmf P) < max_size_of (2 ^ (b + 1)) (dp_cmf P)) by (apply ms_ok2_facts; lia).
        intros HL. clear -HL Hmax. lia. }
      apply (wpx_limit _ _ _ _ Hmono).
      pose proof (cf_expand_ok mf b sb t loc (ex_intro _ mc (ex_intro _ ms H)) Hb Hsb) as He.
      unfold cf_add_child. pose proof (yr_shape _ _ _ _ _ _ _ H) as Hsh.
      rewrite (cf_capa_size mf b sb t mc ms Hsh), (cf_symb_size mf b sb t mc ms Hsh).
      assert (Hv := cf_id_lt mf b sb t mc ms loc H p v Hp).
      rewrite !assert_true by (apply N.ltb_lt; assumption). rewrite !bind_ret.
      rewrite (proj2 (N.leb_le _ _) Hge). apply wpx_bind. eapply wpx_mono; [exact He|]. clear He.
      intros t1 ((mc1 & ms1 & H1) & Hlt1).
      pose proof (cf_add_room mf (b + 1) sb t1 mc1 ms1 loc H1 p v s Hp Hs Hlt1) as Ha.
      assert (Hsz : cf_size t1 = cf_size t).
      { rewrite (yr_size _ _ _ _ _ _ _ H1), (yr_size _ _ _ _ _ _ _ H). reflexivity. }
      pose proof (yr_shape _ _ _ _ _ _ _ H1) as Hsh1.
      assert (Hv1 := cf_id_lt mf (b + 1) sb t1 mc1 ms1 loc H1 p v Hp).
      unfold cf_add_child in Ha.
      rewrite (cf_capa_size mf _ sb t1 mc1 ms1 Hsh1), (cf_symb_size mf _ sb t1 mc1 ms1 Hsh1) in Ha.
      rewrite !assert_true in Ha by (apply N.ltb_lt; assumption). rewrite !bind_ret in Ha.
      rewrite (proj2 (N.leb_gt _ _) Hlt1), bind_ret in Ha.
      destruct (loc !! (s :: p)) as [y|].
      + rewrite Ha. apply wpx_ret. exists (b + 1). split; [lia|]. split; [split; lia|]. repeat split. exists mc1, ms1. exact H1.
      + eapply wpx_limit; [|eapply wpx_mono; [exact Ha|]]; [rewrite Hsz; exact (fun h => h)|]. intros [[r x] t'] (-> & -> & Hr). exists (b + 1). split; [lia|]. split; [split; lia|]. auto.
  Qed.
End cfk.
End hash.
