From Verif.Proofs Require Export CompactVectorP.
From Verif.Model Require Export BitVector.
Local Open Scope N_scope.

Record bv_wf (bv : bit_vector) : Prop := {
  bw_bits : bv_size bv + 64 < 2 ^ 64;
  bw_len : vlen (bv_chunks bv) = (bv_size bv + 63) / 64;
  bw_words : words_ok (bv_chunks bv);
  bw_clean : forall k, bv_size bv <= k -> k / 64 < vlen (bv_chunks bv) ->
       wbit (bv_chunks bv) k = false }.

Definition bvbit (bv : bit_vector) (i : N) : bool := wbit (bv_chunks bv) i.

Lemma bv_new_ok size : size + 64 < 2 ^ 64 ->
  bv_wf (bv_new size) /\ bv_size (bv_new size) = size /\ forall i, bvbit (bv_new size) i = false.
Proof.
  intros H. assert (Hb : forall i, bvbit (bv_new size) i = false).
  { intros i. unfold bvbit, wbit; simpl. rewrite vnth_new. apply N.bits_0. }
  split; [|split; [reflexivity|exact Hb]]. split; simpl.
  - exact H.
  - apply words_for_eq, H.
  - intros q. rewrite vnth_new. reflexivity.
  - intros k _ _. apply Hb.
Qed.
Lemma bv_idx bv i : bv_wf bv -> i < bv_size bv -> i / 64 < vlen (bv_chunks bv).
Proof.
  intros Hwf Hi. rewrite (bw_len bv Hwf).
  apply N.lt_le_trans with (i / 64 + 1); [lia|]. apply N.div_le_lower_bound; [discriminate|].
  pose proof (div_mod_64 i). lia.
Qed.
Lemma bv_get_ok bv i : bv_wf bv -> i < bv_size bv -> bv_get bv i = Ret (bvbit bv i).
Proof.
  intros Hwf Hi. unfold bv_get. rewrite assert_true by (apply N.ltb_lt, Hi). rewrite bind_ret.
  rewrite vget_ok by (apply bv_idx; assumption). rewrite bind_ret.
  apply get_bit_ok; [apply mod_64_lt|lia].
Qed.
Lemma bv_set_ok bv i b : bv_wf bv -> i < bv_size bv ->
  exists bv', bv_set bv i b = Ret bv' /\ bv_wf bv' /\ bv_size bv' = bv_size bv /\
    forall k, bvbit bv' k = if k =? i then b else bvbit bv k.
Proof.
  intros Hwf Hi. unfold bv_set. rewrite assert_true by (apply N.ltb_lt, Hi). rewrite bind_ret.
  pose proof (bv_idx bv i Hwf Hi) as Hq. rewrite vget_ok by exact Hq. rewrite bind_ret.
  destruct (set_bit_ok 64 (vnth (bv_chunks bv) (i / 64)) (i mod 64) b) as (c & -> & Hc & Hb);
    [apply mod_64_lt|lia|apply Hwf|]. rewrite bind_ret.
  rewrite vset_ok by exact Hq. rewrite bind_ret. eexists. split; [reflexivity|].
  assert (Hbits : forall k, wbit (vupd (bv_chunks bv) (i / 64) c) k = if k =? i then b else wbit (bv_chunks bv) k).
  { intros k. unfold wbit. rewrite vnth_upd. pose proof (div_mod_64 k). pose proof (div_mod_64 i).
    destruct (N.eqb_spec (k / 64) (i / 64)) as [E|E].
    - rewrite Hb. rewrite E. destruct (N.eqb_spec (k mod 64) (i mod 64)), (N.eqb_spec k i); try reflexivity; exfalso; congruence || lia.
    - destruct (N.eqb_spec k i); [subst; congruence|reflexivity]. }
  split; [|split; [reflexivity|exact Hbits]].
  split; simpl; try apply Hwf.
  - intros q. rewrite vnth_upd. destruct (q =? i / 64); [exact Hc|apply Hwf].
  - intros k Hk Hk2. rewrite Hbits. destruct (N.eqb_spec k i); [lia|]. apply Hwf; assumption.
Qed.

Lemma bv_get_bits_ok bv pos len : bv_wf bv -> pos + len <= bv_size bv -> len <= 63 ->
  exists v, bv_get_bits bv pos len = Ret v /\ v < 2 ^ len /\
    forall j, j < len -> N.testbit v j = bvbit bv (pos + j).
Proof.
  intros Hwf Hp Hl. unfold bv_get_bits. rewrite assert_true by (apply N.leb_le, Hp). rewrite bind_ret.
  destruct (N.eqb_spec len 0) as [->|Hl0].
  { exists 0. split; [reflexivity|]. split; [reflexivity|]. intros; lia. }
  destruct (N.leb_spec 64 len); [lia|]. rewrite mask_ones by lia.
  pose proof (div_mod_64 pos) as Hd. pose proof (mod_64_lt pos) as Hm.
  assert (Hq : pos / 64 < vlen (bv_chunks bv)) by (apply bv_idx; [exact Hwf|lia]).
  unfold bvbit. destruct (N.leb_spec (pos mod 64 + len) 64) as [Hle|Hgt].
  - rewrite vget_ok by exact Hq. rewrite bind_ret. eexists. split; [reflexivity|]. split.
    + rewrite land_ones_mod. apply N.mod_lt, N.pow_nonzero. discriminate.
    + intros j Hj. rewrite N.land_spec, ones_testbit, shr_testbit, (proj2 (N.ltb_lt _ _) Hj), andb_true_r.
      rewrite Hd at 3. rewrite <- N.add_assoc, wbit_at by lia. f_equal. lia.
  - rewrite vget_ok by exact Hq. rewrite bind_ret. rewrite vget_ok.
    2:{ assert (E : (pos + len - 1) / 64 = pos / 64 + 1).
        { symmetry. apply N.div_unique with (pos mod 64 + len - 1 - 64); lia. }
        rewrite <- E. apply bv_idx; [exact Hwf|lia]. }
    rewrite bind_ret. eexists. split; [reflexivity|].
    assert (Hbit : forall j, N.testbit (N.lor (shr (vnth (bv_chunks bv) (pos / 64)) (pos mod 64))
      (N.land (shl (vnth (bv_chunks bv) (pos / 64 + 1)) (64 - pos mod 64)) (N.ones len))) j =
      if j <? len then wbit (bv_chunks bv) (pos + j) else false).
    { intros j. rewrite N.lor_spec, N.land_spec, ones_testbit, shr_testbit, shl_testbit.
      replace (pos + j) with (64 * (pos / 64) + (pos mod 64 + j)) by lia.
      destruct (N.ltb_spec j len) as [Hj|Hj].
      - destruct (N.ltb_spec j 64); [|lia]. rewrite !andb_true_r.
        destruct (N.lt_ge_cases (pos mod 64 + j) 64) as [Hlo|Hhi].
        + destruct (N.leb_spec (64 - pos mod 64) j); [lia|]. rewrite orb_false_r.
          rewrite wbit_at by lia. f_equal. lia.
        + destruct (N.leb_spec (64 - pos mod 64) j); [|lia].
          rewrite (testbit_high _ 64) by (try apply (bw_words bv Hwf); lia). simpl.
          replace (64 * (pos / 64) + (pos mod 64 + j)) with (64 * (pos / 64 + 1) + (pos mod 64 + j - 64)) by lia.
          rewrite wbit_at by lia. f_equal. lia.
      - rewrite andb_false_r, orb_false_r. apply (testbit_high _ 64); [apply (bw_words bv Hwf)|lia]. }
    split.
    + apply lt_pow2_testbit. intros n Hn. rewrite Hbit. destruct (N.ltb_spec n len); [lia|reflexivity].
    + intros j Hj. rewrite Hbit. destruct (N.ltb_spec j len); [reflexivity|lia].
Qed.

Lemma bv_get_bits_64_ub bv pos : pos + 64 <= bv_size bv -> bv_get_bits bv pos 64 = UB.
Proof.
  intros H. unfold bv_get_bits. rewrite assert_true by (apply N.leb_le, H). reflexivity.
Qed.

Lemma vback_or_ok (v : vec N) x : 0 < vlen v ->
  vback_or v x = Ret (vupd v (vlen v - 1) (N.lor (vnth v (vlen v - 1)) x)).
Proof.
  intros H. unfold vback_or. destruct (N.eqb_spec (vlen v) 0); [lia|].
  rewrite vget_ok by lia. rewrite bind_ret. apply vset_ok. lia.
Qed.
Lemma ceil64_pos n m : m = n mod 64 -> m <> 0 -> (n + 63) / 64 = n / 64 + 1.
Proof.
  intros -> Hm. symmetry. pose proof (div_mod_64 n). pose proof (mod_64_lt n).
  apply N.div_unique with (n mod 64 - 1); lia.
Qed.
Lemma ceil64_zero n : n mod 64 = 0 -> (n + 63) / 64 = n / 64.
Proof.
  intros Hm. symmetry. pose proof (div_mod_64 n).
  apply N.div_unique with 63; lia.
Qed.

(** The bits after an append of [len] bits [bits]. *)
Definition appended (old : N -> bool) (size bits len k : N) : bool :=
  if k <? size then old k else if k <? size + len then N.testbit bits (k - size) else false.

Lemma bv_append_bits_ok bv bits len : bv_wf bv -> len <= 64 -> bits < 2 ^ len ->
  bv_size bv + len + 64 < 2 ^ 64 ->
  exists bv', bv_append_bits bv bits len = Ret bv' /\ bv_wf bv' /\ bv_size bv' = bv_size bv + len /\
    forall k, k < bv_size bv + len -> bvbit bv' k = appended (bvbit bv) (bv_size bv) bits len k.
Proof.
  intros Hwf Hl Hb Hs. unfold bv_append_bits.
  assert (Ea : (if len =? 64 then Ret tt else if 64 <? len then UB else assert_ (shr bits len =? 0)) = Ret tt).
  { destruct (N.eqb_spec len 64); [reflexivity|]. destruct (N.ltb_spec 64 len); [lia|].
    apply assert_true, N.eqb_eq. rewrite shr_div. apply N.div_small, Hb. }
  rewrite Ea, bind_ret. destruct (N.eqb_spec len 0) as [->|Hl0].
  { exists bv. split; [reflexivity|]. split; [exact Hwf|]. split; [lia|].
    intros k Hk. unfold appended. destruct (N.ltb_spec k (bv_size bv)); [reflexivity|lia]. }
  set (n := bv_size bv) in *.
  pose proof (div_mod_64 n) as Hd. pose proof (mod_64_lt n) as Hm.
  pose proof (bw_len bv Hwf) as HL. fold n in HL.
  assert (Hb64 : bits < 2 ^ 64) by (eapply N.lt_le_trans; [exact Hb|apply pow2_le; lia]).
  destruct (N.eqb_spec (n mod 64) 0) as [Em|Em].
  - eexists. split; [reflexivity|]. rewrite ceil64_zero in HL by exact Em.
    assert (HL2 : vlen (bv_chunks bv) + 1 = (n + len + 63) / 64).
    { rewrite HL. apply N.div_unique with (len - 1); lia. }
    assert (Hbits : forall k, k / 64 < vlen (bv_chunks bv) + 1 ->
       wbit (vpush (bv_chunks bv) bits) k = appended (bvbit bv) n bits len k).
    { intros k Hk. unfold wbit. rewrite vnth_push. pose proof (div_mod_64 k). pose proof (mod_64_lt k).
      unfold appended. destruct (N.eqb_spec (k / 64) (vlen (bv_chunks bv))) as [E|E].
      - destruct (N.ltb_spec k n); [lia|]. replace (k - n) with (k mod 64) by lia.
        destruct (N.ltb_spec k (n + len)); [reflexivity|].
        apply (testbit_high bits len); [exact Hb|lia].
      - destruct (N.ltb_spec k n); [reflexivity|]. exfalso.
        assert (k / 64 < n / 64) by lia. lia. }
    split; [|split; [reflexivity|]].
    + split; simpl.
      * fold n. lia.
      * exact HL2.
      * intros q. rewrite vnth_push. destruct (q =? _); [exact Hb64|apply Hwf].
      * intros k Hk Hk2. rewrite vlen_push in Hk2. rewrite Hbits by exact Hk2. unfold appended.
        fold n in Hk. destruct (N.ltb_spec k n); [lia|]. destruct (N.ltb_spec k (n + len)); [lia|reflexivity].
    + intros k Hk. unfold bvbit; simpl. apply Hbits. fold n. rewrite HL2.
      apply N.lt_le_trans with (k / 64 + 1); [lia|]. apply N.div_le_lower_bound; [discriminate|].
      pose proof (div_mod_64 k). lia.
  - rewrite (ceil64_pos n _ eq_refl Em) in HL.
    rewrite vback_or_ok by lia. rewrite bind_ret. rewrite HL.
    replace (n / 64 + 1 - 1) with (n / 64) by lia.
    set (c := N.lor (vnth (bv_chunks bv) (n / 64)) (shl bits (n mod 64))).
    assert (Hc : forall r, N.testbit c r = if r <? 64 then
        (if n mod 64 <=? r then N.testbit bits (r - n mod 64) else N.testbit (vnth (bv_chunks bv) (n / 64)) r) else false).
    { intros r. unfold c. rewrite N.lor_spec, shl_testbit.
      destruct (N.ltb_spec r 64) as [Hr|Hr].
      - rewrite andb_true_r. destruct (N.leb_spec (n mod 64) r); simpl; [|apply orb_false_r].
        assert (E : N.testbit (vnth (bv_chunks bv) (n / 64)) r = false).
        { rewrite <- wbit_at by exact Hr. apply Hwf; [fold n; lia|]. rewrite div64_eq by exact Hr. lia. }
        rewrite E. reflexivity.
      - rewrite andb_false_r, orb_false_r. apply (testbit_high _ 64); [apply Hwf|exact Hr]. }
    assert (Hclt : c < 2 ^ 64).
    { apply lt_pow2_testbit. intros r Hr. rewrite Hc. destruct (N.ltb_spec r 64); [lia|reflexivity]. }
    eexists. split; [reflexivity|]. simpl.
    set (ch := if 64 - n mod 64 <? len then _ else _).
    assert (HL2 : vlen ch = (n + len + 63) / 64).
    { unfold ch. destruct (N.ltb_spec (64 - n mod 64) len).
      - rewrite vlen_push, vlen_upd, HL. apply N.div_unique with (n mod 64 + len - 64 - 1); lia.
      - rewrite vlen_upd, HL. apply N.div_unique with (n mod 64 + len - 1); lia. }
    assert (Hbits : forall k, k / 64 < vlen ch -> wbit ch k = appended (bvbit bv) n bits len k).
    { intros k Hk. pose proof (div_mod_64 k) as Hkd. pose proof (mod_64_lt k) as Hkm.
      assert (Hin : forall k, k / 64 = n / 64 -> N.testbit c (k mod 64) = appended (bvbit bv) n bits len k).
      { clear k Hk Hkd Hkm. intros k E. pose proof (div_mod_64 k) as Hkd. pose proof (mod_64_lt k) as Hkm.
        rewrite Hc, (proj2 (N.ltb_lt _ _) Hkm). unfold appended.
        destruct (N.leb_spec (n mod 64) (k mod 64)), (N.ltb_spec k n); try (exfalso; lia).
        - replace (k mod 64 - n mod 64) with (k - n) by lia.
          destruct (N.ltb_spec k (n + len)); [reflexivity|].
          apply (testbit_high bits len); [exact Hb|lia].
        - unfold bvbit, wbit. rewrite E. reflexivity. }
      assert (Hout : forall k, k / 64 < n / 64 -> wbit (bv_chunks bv) k = appended (bvbit bv) n bits len k).
      { clear k Hk Hkd Hkm. intros k E. pose proof (div_mod_64 k) as Hkd. pose proof (mod_64_lt k) as Hkm.
        unfold appended. destruct (N.ltb_spec k n); [reflexivity|lia]. }
      unfold ch in *. destruct (N.ltb_spec (64 - n mod 64) len) as [Hx|Hx].
      - rewrite vlen_push, vlen_upd, HL in Hk. unfold wbit at 1. rewrite vnth_push, vlen_upd, HL.
        destruct (N.eqb_spec (k / 64) (n / 64 + 1)) as [E|E].
        + rewrite shr_testbit. unfold appended. destruct (N.ltb_spec k n); [lia|].
          replace (k mod 64 + (64 - n mod 64)) with (k - n) by lia.
          destruct (N.ltb_spec k (n + len)); [reflexivity|].
          apply (testbit_high bits len); [exact Hb|lia].
        + rewrite vnth_upd. destruct (N.eqb_spec (k / 64) (n / 64)) as [E2|E2]; [apply Hin, E2|].
          apply Hout. lia.
      - rewrite vlen_upd, HL in Hk. unfold wbit at 1. rewrite vnth_upd.
        destruct (N.eqb_spec (k / 64) (n / 64)) as [E2|E2]; [apply Hin, E2|].
        apply Hout. lia. }
    split; [|split; [reflexivity|]].
    + split; simpl.
      * fold n. lia.
      * exact HL2.
      * intros q. unfold ch. destruct (64 - n mod 64 <? len).
        -- rewrite vnth_push. destruct (q =? _).
           ++ rewrite shr_div. eapply N.le_lt_trans; [|exact Hb64]. apply N.div_le_upper_bound.
              ** apply N.pow_nonzero; discriminate.
              ** pose proof (pow2_pos (64 - n mod 64)).
                 rewrite <- (N.mul_1_l bits) at 1. apply N.mul_le_mono_r. lia.
           ++ rewrite vnth_upd. destruct (q =? _); [exact Hclt|apply Hwf].
        -- rewrite vnth_upd. destruct (q =? _); [exact Hclt|apply Hwf].
      * intros k Hk Hk2. rewrite Hbits by exact Hk2. unfold appended.
        fold n in Hk. destruct (N.ltb_spec k n); [lia|]. destruct (N.ltb_spec k (n + len)); [lia|reflexivity].
    + intros k Hk. unfold bvbit; simpl. apply Hbits. rewrite HL2.
      apply N.lt_le_trans with (k / 64 + 1); [lia|]. apply N.div_le_lower_bound; [discriminate|].
      pose proof (div_mod_64 k). lia.
Qed.

(** [append_bit b] is [append_bits (b ? 1 : 0) 1]. *)
Lemma bv_append_bit_eq bv b : bv_wf bv ->
  bv_append_bit bv b = bv_append_bits bv (b2n b) 1 \/
  (exists bv1 bv2, bv_append_bit bv b = Ret bv1 /\ bv_append_bits bv (b2n b) 1 = Ret bv2 /\
     bv_size bv1 = bv_size bv2 /\ vlen (bv_chunks bv1) = vlen (bv_chunks bv2) /\
     forall q, vnth (bv_chunks bv1) q = vnth (bv_chunks bv2) q).
Proof.
  intros Hwf. unfold bv_append_bit, bv_append_bits.
  change (1 =? 64) with false. change (64 <? 1) with false. change (1 =? 0) with false. cbv iota.
  replace (shr (b2n b) 1 =? 0) with true by (destruct b; reflexivity).
  rewrite assert_true by reflexivity. rewrite bind_ret.
  destruct (N.eqb_spec (bv_size bv mod 64) 0) as [E|E].
  - right. rewrite vback_or_ok by (rewrite vlen_push; lia). rewrite bind_ret.
    eexists _, _. split; [reflexivity|]. split; [reflexivity|]. simpl.
    split; [reflexivity|]. rewrite vlen_upd, !vlen_push. split; [reflexivity|].
    intros q. rewrite vnth_upd, !vnth_push. rewrite E.
    replace (vlen (bv_chunks bv) + 1 - 1) with (vlen (bv_chunks bv)) by lia.
    destruct (N.eqb_spec q (vlen (bv_chunks bv))) as [->|Hne]; [|reflexivity].
    rewrite N.eqb_refl. destruct b; reflexivity.
  - left. pose proof (mod_64_lt (bv_size bv)).
    destruct (N.ltb_spec (64 - bv_size bv mod 64) 1); [lia|]. reflexivity.
Qed.
Lemma bv_append_bit_ok bv b : bv_wf bv -> bv_size bv + 65 < 2 ^ 64 ->
  exists bv', bv_append_bit bv b = Ret bv' /\ bv_wf bv' /\ bv_size bv' = bv_size bv + 1 /\
    forall k, k < bv_size bv + 1 -> bvbit bv' k = if k <? bv_size bv then bvbit bv k else b.
Proof.
  intros Hwf Hs.
  destruct (bv_append_bits_ok bv (b2n b) 1 Hwf) as (bv2 & E2 & Hwf2 & Hs2 & Hb2);
    [lia|destruct b; reflexivity|lia|].
  assert (Happ : forall k, k < bv_size bv + 1 -> appended (bvbit bv) (bv_size bv) (b2n b) 1 k =
     if k <? bv_size bv then bvbit bv k else b).
  { intros k Hk. unfold appended. destruct (N.ltb_spec k (bv_size bv)); [reflexivity|].
    destruct (N.ltb_spec k (bv_size bv + 1)); [|lia]. replace (k - bv_size bv) with 0 by lia.
    destruct b; reflexivity. }
  destruct (bv_append_bit_eq bv b Hwf) as [E|(bv1 & bv2' & E1 & E2' & Hsz & Hlen & Hn)].
  - exists bv2. rewrite E. split; [exact E2|]. split; [exact Hwf2|]. split; [exact Hs2|].
    intros k Hk. rewrite Hb2 by exact Hk. apply Happ, Hk.
  - rewrite E2 in E2'. injection E2' as <-. exists bv1. split; [exact E1|].
    split; [|split; [congruence|]].
    + destruct Hwf2. split.
      * rewrite Hsz. assumption.
      * rewrite Hlen, Hsz. assumption.
      * intros q. rewrite Hn. apply bw_words0.
      * intros k Hk Hk2. unfold wbit. rewrite Hn. rewrite Hsz in Hk. rewrite Hlen in Hk2.
        apply bw_clean0; assumption.
    + intros k Hk. unfold bvbit, wbit. rewrite Hn. change (bvbit bv2 k = if k <? bv_size bv then bvbit bv k else b).
      rewrite Hb2 by exact Hk. apply Happ, Hk.
Qed.
