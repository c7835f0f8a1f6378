(** Slots of the compact tries: a slot with quotient [q] at displacement [e] holds exactly one key. *)
From Verif.Proofs Require Export PlainBonsaiP ChtSetP StdTableP.
From Verif.Proofs Require SelectP BitTools2P.
From Verif.Model Require Export DspTable.
Local Open Scope N_scope.

Class th_ok (H : trie_hashers) : Prop := { th_trie_ok :> bij_ok th_trie; th_cht_ok :> bij_ok th_cht }.
Global Hint Mode th_ok ! : typeclass_instances.
Global Instance std_hashers_ok : th_ok std_hashers.
Proof. split; apply split_mix_ok. Qed.

Section hash.
Context {HT : trie_hashers} {HO : th_ok HT}.
Local Notation hfun := (@hfun th_trie).
Local Notation hinv := (@hinv th_trie).
Local Existing Instance th_cht.
Local Existing Instance th_map.

(** ** Keys of slots *)
Definition chome (b sb k : N) : N := hfun (b + sb) k mod 2 ^ b.
Lemma chome_lt b sb k : chome b sb k < 2 ^ b.
Proof. apply N.mod_lt, N.pow_nonzero. discriminate. Qed.
Definition cquo (b sb k : N) : N := hfun (b + sb) k / 2 ^ b.
Lemma cquo_lt b sb k : cquo b sb k < 2 ^ sb.
Proof.
  apply N.div_lt_upper_bound; [apply N.pow_nonzero; discriminate|]. rewrite <- N.pow_add_r. apply hfun_lt.
Qed.
Definition skey (b sb q i e : N) : N := hinv (b + sb) (q * 2 ^ b + dist (2 ^ b) e i).
Lemma skey_lt b sb q i e : skey b sb q i e < 2 ^ (b + sb).
Proof. apply hinv_lt. Qed.
Lemma slot_sym M h e i : 0 < M -> h < M -> e < M -> i < M -> dist M e i = h <-> i = slot M h e.
Proof.
  intros HM Hh He Hi. split.
  - intros <-. rewrite <- (slot_dist M HM e i He Hi) at 1. unfold slot. f_equal. lia.
  - intros ->. unfold slot. rewrite N.add_comm. apply (dist_slot M HM e h He Hh).
Qed.
Lemma skey_code_lt b sb q i e : q < 2 ^ sb -> q * 2 ^ b + dist (2 ^ b) e i < 2 ^ (b + sb).
Proof.
  intros Hq. pose proof (dist_lt (2 ^ b) (pow2_pos b) e i) as Hd. rewrite N.add_comm with (n := b), N.pow_add_r.
  assert ((q + 1) * 2 ^ b <= 2 ^ sb * 2 ^ b) by (apply N.mul_le_mono_r; lia). lia.
Qed.
(** The slot reached from the home of [k] after [d] steps holds [k] iff quotient and displacement agree. *)
Lemma skey_eq b sb q k d e : 1 <= b + sb < 64 -> k < 2 ^ (b + sb) -> q < 2 ^ sb -> d < 2 ^ b -> e < 2 ^ b ->
  skey b sb q (slot (2 ^ b) (chome b sb k) d) e = k <-> q = cquo b sb k /\ e = d.
Proof.
  intros Hb Hk Hq Hd He. pose proof (pow2_pos b) as HM. pose proof (chome_lt b sb k) as Hh.
  assert (Hi := slot_lt (2 ^ b) HM (chome b sb k) d). set (i := slot (2 ^ b) (chome b sb k) d) in *.
  assert (Hcode := skey_code_lt b sb q i e Hq). assert (Hdl := dist_lt (2 ^ b) HM e i).
  assert (Hsplit : hfun (b + sb) k = cquo b sb k * 2 ^ b + chome b sb k).
  { unfold cquo, chome. rewrite N.mul_comm. apply N.div_mod. lia. }
  split.
  - intros E. apply (f_equal (hfun (b + sb))) in E. unfold skey in E. rewrite hfun_hinv in E by assumption.
    rewrite Hsplit in E.
    assert (Eq : q = cquo b sb k /\ dist (2 ^ b) e i = chome b sb k).
    { split.
      - apply (f_equal (fun x => x / 2 ^ b)) in E. rewrite !N.div_add_l, !N.div_small, !N.add_0_r in E by lia. exact E.
      - apply (f_equal (fun x => x mod 2 ^ b)) in E.
        rewrite (N.add_comm (q * _)), (N.add_comm (_ * _)), !N.mod_add, !N.mod_small in E by lia. exact E. }
    destruct Eq as [-> Ed]. split; [reflexivity|].
    apply (slot_sym (2 ^ b) _ e i HM Hh He Hi) in Ed. symmetry.
    apply (slot_inj (2 ^ b) HM (chome b sb k)); assumption.
  - intros [-> ->]. unfold skey. rewrite (proj2 (slot_sym (2 ^ b) (chome b sb k) d i HM Hh Hd Hi) eq_refl).
    rewrite <- Hsplit. apply hinv_hfun; assumption.
Qed.
(** Every slot is reached from the home of its key after its displacement. *)
Lemma skey_home b sb q i e : 1 <= b + sb < 64 -> q < 2 ^ sb -> i < 2 ^ b -> e < 2 ^ b ->
  slot (2 ^ b) (chome b sb (skey b sb q i e)) e = i /\ cquo b sb (skey b sb q i e) = q.
Proof.
  intros Hb Hq Hi He. pose proof (pow2_pos b) as HM. pose proof (dist_lt (2 ^ b) HM e i) as Hd.
  unfold chome, cquo, skey. rewrite hfun_hinv by (try apply skey_code_lt; assumption).
  rewrite N.div_add_l, N.div_small, N.add_0_r by lia. split; [|reflexivity].
  rewrite (N.add_comm (q * _)), N.mod_add, N.mod_small by lia.
  symmetry. apply (slot_sym (2 ^ b)); try assumption. reflexivity.
Qed.

(** ** Contents of a slot *)
Lemma size_below (m : gmap N N) n : (forall k v, m !! k = Some v -> k < n) -> N.of_nat (size m) <= n.
Proof.
  intros H. assert (Hs : dom m ⊆ list_to_set (C := gset N) (map N.of_nat (seq 0 (N.to_nat n)))).
  { intros k Hk. apply elem_of_dom in Hk as [v Hv]. apply elem_of_list_to_set, elem_of_list_In, in_map_iff.
    exists (N.to_nat k). split; [lia|]. apply in_seq. specialize (H k v Hv). lia. }
  apply subseteq_size in Hs. rewrite size_dom in Hs.
  assert (Hle : (size (list_to_set (C := gset N) (map N.of_nat (seq 0 (N.to_nat n)))) <= N.to_nat n)%nat); [|lia].
  rewrite size_list_to_set.
  - rewrite map_length, seq_length. lia.
  - apply NoDup_ListNoDup. apply FinFun.Injective_map_NoDup; [intros a c Hac; lia|apply seq_NoDup].
Qed.
Lemma std_room smf : 51 <= smf <= 99 -> 2 ^ 56 < max_size_of (2 ^ 57) smf.
Proof.
  intros Hs. assert (Hc : check_below 49 (fun i => 2 ^ 56 <? max_size_of (2 ^ 57) (51 + i)) = true) by (vm_compute; reflexivity).
  pose proof (check_below_sound 49 _ (smf - 51) Hc ltac:(lia)) as H. cbv beta in H.
  replace (51 + (smf - 51)) with smf in H by lia. apply N.ltb_lt, H.
Qed.

Record dp_ok (P : dsp_params) : Prop := {
  do_d1 : 1 <= dp_d1 P <= 16; do_vb : 1 <= dp_vb P <= 16;
  do_cmf : 1 <= dp_cmf P <= 99; do_smf : 51 <= dp_smf P <= 99 }.

(** [n] nodes may be too many for the displacement table of a trie with 2^b slots *)
Definition saturates (P : dsp_params) (b n : N) : Prop := max_size_of (2 ^ b) (dp_cmf P) < n.

Section dsp.
  Context (P : dsp_params).
  Hypothesis HP : dp_ok P.
  Notation d1 := (dp_d1 P).
  Notation vb := (dp_vb P).
  Lemma d1m : dsp1_mask P = N.ones d1.
  Proof. pose proof (do_d1 _ HP). unfold dsp1_mask. apply BitTools2P.mask_ones. lia. Qed.
  Lemma vbm : ch_val_mask vb = N.ones vb.
  Proof. pose proof (do_vb _ HP). unfold ch_val_mask. apply BitTools2P.mask_ones. lia. Qed.
  Lemma ones_lt n m : n <= m -> N.ones n < 2 ^ m.
  Proof. intros H. rewrite N.ones_equiv. pose proof (pow2_le n m H). pose proof (pow2_pos n). lia. Qed.
  Lemma d2m : dsp2_mask P = N.ones vb.
  Proof.
    pose proof (do_vb _ HP). unfold dsp2_mask. rewrite vbm. change 4294967295 with (N.ones 32).
    rewrite land_ones_mod. apply N.mod_small. apply ones_lt. lia.
  Qed.
  Lemma d1_pos : 1 <= N.ones d1.
  Proof. pose proof (do_d1 _ HP). rewrite N.ones_equiv. pose proof (pow2_le 1 d1 ltac:(lia)). lia. Qed.
  Lemma d1_small : N.ones d1 < 2 ^ 16.
  Proof. apply ones_lt. apply (do_d1 _ HP). Qed.
  Lemma vb_small : N.ones vb < 2 ^ 16.
  Proof. apply ones_lt. apply (do_vb _ HP). Qed.
  Lemma fits_b b : 16 <= b <= 56 -> fits vb b.
  Proof. pose proof (do_vb _ HP). unfold fits. lia. Qed.

  (** The displacement stored in a slot with content [x], and its well-formedness; [mc] and [ms] are the
      contents of the auxiliary tables. *)
  Definition dsp_of (mc ms : gmap N N) (x i : N) : N :=
    if x mod 2 ^ d1 <? N.ones d1 then x mod 2 ^ d1
    else match mc !! i with Some v => v + N.ones d1 | None => default UINT64_MAX (ms !! i) end.
  Definition slot_ok (mc ms : gmap N N) (x i : N) : Prop :=
    if x mod 2 ^ d1 <? N.ones d1 then mc !! i = None
    else match mc !! i with Some v => v < N.ones vb
         | None => exists v, ms !! i = Some v /\ N.ones d1 + N.ones vb <= v < 2 ^ 57 end.
  Record aux_rep (b : N) (d : dsp_table) (mc ms : gmap N N) : Prop := {
    ar_cht : ch_inv vb (dp_cmf P) b (dt_cht d) mc;
    ar_map : st_snug (dp_smf P) (dt_map d) ms;
    ar_keys : forall k v, ms !! k = Some v -> k < 2 ^ b }.
  Record dt_shape (b sb : N) (d : dsp_table) : Prop := {
    ds_b : 16 <= b <= 56;
    ds_sb : b + sb < 64;
    ds_capa : dt_capa d = mkP2 b (N.ones b);
    ds_symb : dt_symb d = mkP2 sb (N.ones sb);
    ds_hash : dt_hasher d = the_hasher (b + sb);
    ds_wf : cv_wf (dt_table d);
    ds_size : cv_size (dt_table d) = 2 ^ b;
    ds_width : cv_width (dt_table d) = sb + d1 }.
  Lemma mod_lt_d1 x : x mod 2 ^ d1 <= N.ones d1.
  Proof. rewrite N.ones_equiv. pose proof (N.mod_lt x (2 ^ d1) ltac:(apply N.pow_nonzero; discriminate)). lia. Qed.
  Lemma slot_ok_0 mc ms i : mc !! i = None -> slot_ok mc ms 0 i.
  Proof.
    intros H. unfold slot_ok. rewrite N.mod_0_l by (apply N.pow_nonzero; discriminate).
    pose proof d1_pos. rewrite (proj2 (N.ltb_lt _ _)) by lia. exact H.
  Qed.
  Lemma slot_ok_0_inv mc ms i : slot_ok mc ms 0 i -> mc !! i = None.
  Proof.
    unfold slot_ok. rewrite N.mod_0_l by (apply N.pow_nonzero; discriminate).
    pose proof d1_pos. rewrite (proj2 (N.ltb_lt _ _)) by lia. auto.
  Qed.
  Lemma dsp_of_0 mc ms i : dsp_of mc ms 0 i = 0.
  Proof.
    unfold dsp_of. rewrite N.mod_0_l by (apply N.pow_nonzero; discriminate).
    pose proof d1_pos. rewrite (proj2 (N.ltb_lt _ _)) by lia. reflexivity.
  Qed.

  Section at_slot.
    Context (b sb : N) (d : dsp_table) (mc ms : gmap N N) (i : N).
    Hypothesis Hs : dt_shape b sb d.
    Hypothesis Ha : aux_rep b d mc ms.
    Hypothesis Hi : i < 2 ^ b.
    Hypothesis Hok : slot_ok mc ms (cv_val (dt_table d) i) i.
    Let x := cv_val (dt_table d) i.
    Lemma dt_get_x : cv_get (dt_table d) i = Ret x.
    Proof. apply cv_get_ok; [apply Hs|]. rewrite (ds_size _ _ _ Hs). exact Hi. Qed.
    Lemma dt_i_lt : i < 2 ^ 56.
    Proof. pose proof (ds_b _ _ _ Hs). pose proof (pow2_le b 56 ltac:(lia)). lia. Qed.
    Lemma dt_quo_ok : dt_get_quo P d i = Ret (x / 2 ^ d1).
    Proof. unfold dt_get_quo. rewrite dt_get_x, bind_ret, shr_div. reflexivity. Qed.
    Lemma dt_quo_lt : x / 2 ^ d1 < 2 ^ sb.
    Proof.
      apply N.div_lt_upper_bound; [apply N.pow_nonzero; discriminate|]. rewrite <- N.pow_add_r.
      rewrite N.add_comm, <- (ds_width _ _ _ Hs). apply cv_val_lt; [apply Hs|]. rewrite (ds_size _ _ _ Hs). exact Hi.
    Qed.
    Lemma dt_cht_get : ch_get vb (dt_cht d) i = Ret (default ch_nil (mc !! i)).
    Proof.
      pose proof (do_vb _ HP). pose proof (do_cmf _ HP).
      apply (inv_get vb (dp_cmf P) ltac:(lia) ltac:(lia) b (fits_b b (ds_b _ _ _ Hs))); [apply Ha|exact Hi].
    Qed.
    Lemma i_not_max : i <> UINT64_MAX.
    Proof. pose proof dt_i_lt as H. change (2 ^ 56) with 72057594037927936 in H. unfold UINT64_MAX. lia. Qed.
    Lemma dt_map_get : st_get (dt_map d) i = Ret (default st_nil (ms !! i)).
    Proof. pose proof (do_smf _ HP). apply (st_get_spec (dp_smf P)); [lia|apply st_snug_ok, Ha|apply i_not_max]. Qed.
    Lemma dt_mask_x : N.land x (dsp1_mask P) = x mod 2 ^ d1.
    Proof. rewrite d1m. apply land_ones_mod. Qed.
    Lemma small_add v : v < N.ones vb -> add64 v (N.ones d1) = v + N.ones d1.
    Proof.
      intros Hv. unfold add64. apply w64_small. pose proof d1_small. pose proof vb_small.
      change (2 ^ 64) with (2 ^ 16 * 281474976710656). lia.
    Qed.
    Lemma dt_dsp_ok : dt_get_dsp P d i = Ret (dsp_of mc ms x i).
    Proof.
      unfold dt_get_dsp. rewrite dt_get_x, bind_ret, dt_mask_x, d1m. unfold dsp_of. unfold slot_ok in Hok. fold x in Hok.
      destruct (x mod 2 ^ d1 <? N.ones d1) eqn:El; [reflexivity|].
      rewrite dt_cht_get, bind_ret. destruct (mc !! i) as [v|] eqn:Em; cbn [from_option]; unfold id.
      - rewrite (proj2 (N.eqb_neq v ch_nil)). 2:{ pose proof vb_small. unfold ch_nil, UINT64_MAX. change (2 ^ 16) with 65536 in *. lia. }
        cbn [negb]. rewrite small_add by exact Hok. reflexivity.
      - rewrite N.eqb_refl. cbn [negb]. rewrite dt_map_get. reflexivity.
    Qed.
    Lemma dt_compare_ok rhs : dt_compare_dsp P d i rhs = Ret (dsp_of mc ms x i =? rhs).
    Proof.
      unfold dt_compare_dsp. rewrite dt_get_x, bind_ret, dt_mask_x, d1m, d2m. unfold dsp_of. unfold slot_ok in Hok. fold x in Hok.
      destruct (x mod 2 ^ d1 <? N.ones d1) eqn:El; [reflexivity|].
      rewrite dt_cht_get, bind_ret. destruct (N.ltb_spec rhs (N.ones d1)) as [Hr|Hr].
      - destruct (mc !! i) as [v|] eqn:Em.
        + rewrite (proj2 (N.eqb_neq _ _)) by lia. reflexivity.
        + destruct Hok as (v & -> & Hv & _). cbn [from_option]; unfold id. rewrite (proj2 (N.eqb_neq _ _)) by lia. reflexivity.
      - destruct (mc !! i) as [v|] eqn:Em; cbn [from_option]; unfold id.
        + rewrite (proj2 (N.eqb_neq v ch_nil)). 2:{ pose proof vb_small. unfold ch_nil, UINT64_MAX. change (2 ^ 16) with 65536 in *. lia. }
          cbn [negb]. rewrite small_add by exact Hok. reflexivity.
        + rewrite N.eqb_refl. cbn [negb]. destruct Hok as (v & Ev & Hv & Hv2).
          assert (Hadd : add64 (N.ones d1) (N.ones vb) = N.ones d1 + N.ones vb).
          { unfold add64. apply w64_small. pose proof d1_small. pose proof vb_small.
            change (2 ^ 64) with (2 ^ 16 * 281474976710656). lia. }
          rewrite Hadd, dt_map_get, Ev, bind_ret. cbn [from_option]; unfold id.
          destruct (N.ltb_spec rhs (N.ones d1 + N.ones vb)).
          * rewrite (proj2 (N.eqb_neq _ _)) by lia. reflexivity.
          * rewrite assert_true; [reflexivity|]. apply negb_true_iff, N.eqb_neq. unfold st_nil, UINT64_MAX.
            change (2 ^ 57) with 144115188075855872 in Hv2. lia.
    Qed.

    (** Writing a displacement into an empty slot. *)
    Lemma dt_update_ok quo dsp : x = 0 -> quo < 2 ^ sb -> dsp < 2 ^ 57 ->
      wpx (max_size_of (2 ^ b) (dp_cmf P) <= N.of_nat (size mc))
        (dt_update_slot P d i quo dsp) (fun d' => dt_shape b sb d' /\ exists mc' ms' y,
        aux_rep b d' mc' ms' /\ (size mc' + size ms' <= size mc + size ms + 1)%nat /\ y / 2 ^ d1 = quo /\ dsp_of mc' ms' y i = dsp /\ slot_ok mc' ms' y i /\
        (forall j, j < 2 ^ b -> cv_val (dt_table d') j = if j =? i then y else cv_val (dt_table d) j) /\
        (forall j z, j <> i -> dsp_of mc' ms' z j = dsp_of mc ms z j /\ (slot_ok mc ms z j -> slot_ok mc' ms' z j))).
    Proof.
      intros Hx Hq Hd. pose proof (do_d1 _ HP) as H1. pose proof (do_vb _ HP) as H2. pose proof (do_cmf _ HP) as H3.
      pose proof (do_smf _ HP) as H4. pose proof (ds_b _ _ _ Hs) as Hb. pose proof (ds_sb _ _ _ Hs) as Hsb.
      unfold dt_update_slot. rewrite dt_get_x, bind_ret, Hx, assert_true, bind_ret by reflexivity.
      assert (Es : p2_size (dt_symb d) = 2 ^ sb) by (rewrite (ds_symb _ _ _ Hs); apply p2_size_ones; lia).
      rewrite Es. rewrite assert_true by (apply N.ltb_lt, Hq). rewrite bind_ret.
      assert (Hq2 : quo * 2 ^ d1 + 2 ^ d1 <= 2 ^ (sb + d1)).
      { rewrite N.pow_add_r. replace (quo * 2 ^ d1 + 2 ^ d1) with ((quo + 1) * 2 ^ d1) by lia. apply N.mul_le_mono_r. lia. }
      assert (Hw : 2 ^ (sb + d1) <= 2 ^ 63) by (apply pow2_le; lia).
      rewrite shl_mul. 2:{ change (2 ^ 64) with (2 ^ 63 * 2). pose proof (pow2_pos d1). lia. }
      rewrite d1m, d2m.
      set (l := N.min dsp (N.ones d1)).
      assert (Hl : l < 2 ^ d1). { unfold l. rewrite N.ones_equiv. pose proof (pow2_pos d1). lia. }
      set (y := quo * 2 ^ d1 + l).
      assert (Hyd : y / 2 ^ d1 = quo). { unfold y. rewrite N.div_add_l, N.div_small by lia. lia. }
      assert (Hym : y mod 2 ^ d1 = l). { unfold y. rewrite N.add_comm, N.mod_add, N.mod_small by lia. reflexivity. }
      destruct (cv_set_ok (dt_table d) i y (ds_wf _ _ _ Hs)) as (tab & Et & Hwf & Hcs & Hcw & Hval).
      { rewrite (ds_size _ _ _ Hs). exact Hi. }
      { rewrite (ds_width _ _ _ Hs). unfold y. lia. }
      rewrite (ds_size _ _ _ Hs) in Hval.
      assert (Hmc : mc !! i = None). { apply (slot_ok_0_inv mc ms). rewrite <- Hx. exact Hok. }
      assert (Hshape : forall c m, dt_shape b sb (dt_with_table (mkDT (dt_hasher d) (dt_table d) c m (dt_capa d) (dt_symb d)) tab)).
      { intros c m. destruct Hs. split; cbn; auto; congruence. }
      destruct (N.ltb_spec dsp (N.ones d1)) as [Hlt|Hge].
      - assert (El : l = dsp) by (unfold l; lia).
        rewrite bind_ret. rewrite lor_add_disjoint by (rewrite <- El; exact Hl). rewrite <- El. fold y. rewrite Et, bind_ret.
        apply wpx_ret. split.
        { specialize (Hshape (dt_cht d) (dt_map d)). destruct d; exact Hshape. }
        exists mc, ms, y. split; [destruct Ha; split; auto|]. split; [lia|]. split; [exact Hyd|].
        assert (Hlt' : (l <? N.ones d1) = true) by (apply N.ltb_lt; lia).
        split; [unfold dsp_of; rewrite Hym, Hlt'; reflexivity|].
        split; [unfold slot_ok; rewrite Hym, Hlt'; exact Hmc|].
        split; [intros j Hj; apply Hval, Hj|]. auto.
      - assert (El : l = N.ones d1) by (unfold l; lia).
        assert (Hlt' : (l <? N.ones d1) = false) by (apply N.ltb_ge; lia).
        rewrite lor_add_disjoint by (rewrite <- El; exact Hl). rewrite <- El. fold y. rewrite El.
        assert (Hsub : sub64 dsp (N.ones d1) = dsp - N.ones d1).
        { apply SelectP.sub64_small; [exact Hge|]. change (2 ^ 64) with (2 ^ 57 * 128). lia. }
        rewrite Hsub.
        destruct (N.ltb_spec (dsp - N.ones d1) (N.ones vb)) as [Hlt2|Hge2].
        + destruct (N.lt_ge_cases (N.of_nat (size mc)) (max_size_of (2 ^ b) (dp_cmf P))) as [Hroom|Hfull].
          * destruct (set_spec vb (dp_cmf P) ltac:(lia) H3 b (fits_b b Hb) 62 (dt_cht d) mc i (dsp - N.ones d1)
              (ar_cht _ _ _ _ Ha) Hi Hlt2 Hroom) as (c' & Ec & Hc').
            unfold ch_set. change 64%nat with (S (S 62)). rewrite Ec, !bind_ret. cbn [snd dt_table]. rewrite Et, bind_ret. apply wpx_ret.
            split; [apply Hshape|]. exists (<[i := dsp - N.ones d1]> mc), ms, y.
            split; [split; [exact Hc'|apply Ha|apply Ha]|].
            split; [rewrite map_size_insert, Hmc; clear; simpl; lia|]. split; [exact Hyd|].
            split; [unfold dsp_of; rewrite Hym, Hlt', lookup_insert; lia|].
            split; [unfold slot_ok; rewrite Hym, Hlt', lookup_insert; exact Hlt2|].
            split; [intros j Hj; apply Hval, Hj|]. intros j z Hne. unfold dsp_of, slot_ok. rewrite lookup_insert_ne by congruence. auto.
          * unfold ch_set. change 64%nat with (S 63).
            rewrite (set_full vb (dp_cmf P) ltac:(lia) H3 b (fits_b b Hb) 63 (dt_cht d) mc i (dsp - N.ones d1)
              (ar_cht _ _ _ _ Ha) Hi Hlt2 Hfull). exact Hfull.
        + destruct (st_set_snug (dp_smf P) (dt_map d) ms i dsp) as (m' & Em & Hm').
          { lia. } { apply Ha. } { apply i_not_max. }
          { pose proof (size_below ms (2 ^ b) (ar_keys _ _ _ _ Ha)). pose proof (std_room (dp_smf P) H4).
            pose proof (pow2_le b 56 ltac:(lia)). lia. }
          rewrite Em, !bind_ret. cbn [snd dt_table]. rewrite Et, bind_ret. apply wpx_ret.
          split; [apply Hshape|]. exists mc, (<[i := dsp]> ms), y.
          split.
          { split; [apply Ha|exact Hm'|]. intros k v. destruct (N.eq_dec k i) as [->|Hne]; [intros _; exact Hi|].
            rewrite lookup_insert_ne by congruence. apply Ha. }
          split; [rewrite map_size_insert; clear; destruct (ms !! i); simpl; lia|]. split; [exact Hyd|].
          split; [unfold dsp_of; rewrite Hym, Hlt', Hmc, lookup_insert; reflexivity|].
          split.
          { unfold slot_ok. rewrite Hym, Hlt', Hmc, lookup_insert. exists dsp. split; [reflexivity|]. lia. }
          split; [intros j Hj; apply Hval, Hj|]. intros j z Hne. unfold dsp_of, slot_ok. rewrite lookup_insert_ne by congruence. auto.
    Qed.
  End at_slot.

  (** ** Whole tables *)
  Record dt_rep (b sb : N) (d : dsp_table) (mc ms : gmap N N) : Prop := {
    dr_shape : dt_shape b sb d;
    dr_aux : aux_rep b d mc ms;
    dr_ok : forall i, i < 2 ^ b -> slot_ok mc ms (cv_val (dt_table d) i) i }.
  Lemma dt_new_ok cb sb ccb : N.max 16 cb <= 56 -> N.max 16 cb + sb < 64 -> N.max 12 ccb <= N.max 16 cb ->
    exists d, dt_new P cb sb ccb = Ret d /\ dt_rep (N.max 16 cb) sb d ∅ ∅ /\
      forall i, i < 2 ^ N.max 16 cb -> cv_val (dt_table d) i = 0.
  Proof.
    intros Hb Hsb Hccb. pose proof (do_d1 _ HP) as H1. pose proof (do_vb _ HP) as H2. pose proof (do_cmf _ HP) as H3.
    unfold dt_new, trie_min_capa_bits. set (b := N.max 16 cb) in *. assert (Hb16 : 16 <= b) by lia.
    rewrite p2_new_eq by lia. rewrite bind_ret. rewrite p2_new_eq by lia. rewrite bind_ret. cbn [p2_bits].
    rewrite hasher_new_ok by lia. rewrite bind_ret, p2_size_ones by lia.
    assert (Hw0 : 0 < sb + d1) by lia. assert (Hw : sb + d1 < 64) by lia.
    assert (Hcb := capa_bound b (sb + d1) ltac:(lia) Hw).
    pose proof (cv_new_eq (2 ^ b) (sb + d1) Hw Hcb) as E. rewrite E, bind_ret.
    destruct (cv_new_wf _ _ _ Hw0 Hw Hcb E) as (Hwf & Hs & Hwd).
    destruct (ch_new_ok vb (dp_cmf P) ltac:(lia) H3 b (fits_b b ltac:(lia)) ccb Hccb) as (c & Ec & Hc).
    rewrite Ec, bind_ret. eexists. split; [reflexivity|].
    assert (Hv : forall i, i < 2 ^ b -> cv_val (mkCV (vnew ((2 ^ b * (sb + d1) + 63) / 64) 0) (2 ^ b) (N.ones (sb + d1)) (sb + d1)) i = 0).
    { intros i Hi. apply (cv_new_val (2 ^ b) (sb + d1)); assumption. }
    split; [|exact Hv]. split.
    - split; cbn; auto.
    - split; cbn; [eexists; exact Hc|left; split; reflexivity|]. intros k v Hk. rewrite lookup_empty in Hk. discriminate.
    - intros i Hi. cbn [dt_table]. rewrite (Hv i Hi). apply slot_ok_0, lookup_empty.
  Qed.
  Lemma dt_decompose_ok b sb d k : dt_shape b sb d -> k < 2 ^ (b + sb) ->
    hasher_hash (dt_hasher d) k = Ret (hfun (b + sb) k) /\
    dt_decompose d (hfun (b + sb) k) = (cquo b sb k, chome b sb k).
  Proof.
    intros Hs Hk. pose proof (ds_b _ _ _ Hs). pose proof (ds_sb _ _ _ Hs). split.
    - rewrite (ds_hash _ _ _ Hs). apply hash_ok; [lia|exact Hk].
    - unfold dt_decompose. rewrite (ds_capa _ _ _ Hs). cbn [p2_bits p2_mask]. rewrite shr_div, land_ones_mod. reflexivity.
  Qed.
  Lemma dt_init_ok b sb d i e : dt_shape b sb d -> i < 2 ^ b -> e < 2 ^ b -> dt_init_id d i e = dist (2 ^ b) e i.
  Proof.
    intros Hs Hi He. unfold dt_init_id, dist. rewrite (ds_size _ _ _ Hs). pose proof (pow2_pos b).
    pose proof (ds_b _ _ _ Hs). pose proof (p57 b ltac:(lia)).
    destruct (N.leb_spec e i).
    - replace (i + 2 ^ b - e) with (i - e + 1 * 2 ^ b) by lia. rewrite N.mod_add, N.mod_small by lia. reflexivity.
    - rewrite N.mod_small by lia. rewrite SelectP.sub64_small by lia. lia.
  Qed.
  (** The key recovered from a slot. *)
  Lemma dt_key_ok b sb d q i e : dt_shape b sb d -> q < 2 ^ sb -> i < 2 ^ b -> e < 2 ^ b ->
    hasher_hash_inv (dt_hasher d) (N.lor (shl q (p2_bits (dt_capa d))) (dt_init_id d i e)) = Ret (skey b sb q i e).
  Proof.
    intros Hs Hq Hi He. pose proof (ds_b _ _ _ Hs). pose proof (ds_sb _ _ _ Hs).
    rewrite (dt_init_ok b sb d i e Hs Hi He), (ds_capa _ _ _ Hs), (ds_hash _ _ _ Hs). cbn [p2_bits].
    pose proof (skey_code_lt b sb q i e Hq) as Hc. assert (2 ^ (b + sb) <= 2 ^ 64) by (apply pow2_le; lia).
    rewrite shl_mul by lia. rewrite lor_add_disjoint by (apply dist_lt, pow2_pos).
    apply hash_inv_ok; [lia|exact Hc].
  Qed.
End dsp.
End hash.
