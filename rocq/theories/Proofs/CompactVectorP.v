From Verif.Proofs Require Export SelectP.
From Verif.Model Require Export CompactVector.
Local Open Scope N_scope.

Lemma div_mod_64 i : i = 64 * (i / 64) + i mod 64.
Proof. apply N.div_mod. discriminate. Qed.
Lemma mod_64_lt i : i mod 64 < 64.
Proof. apply N.mod_lt. discriminate. Qed.
Lemma div64_eq q r : r < 64 -> (64 * q + r) / 64 = q.
Proof. intros. symmetry. apply N.div_unique with r; lia. Qed.
Lemma mod64_eq q r : r < 64 -> (64 * q + r) mod 64 = r.
Proof. intros. symmetry. apply N.mod_unique with q; lia. Qed.

(** Bit [k] of the concatenated words of a vector. *)
Definition wbit (v : vec N) (k : N) : bool := N.testbit (vnth v (k / 64)) (k mod 64).
Lemma wbit_at v q r : r < 64 -> wbit v (64 * q + r) = N.testbit (vnth v q) r.
Proof. intros Hr. unfold wbit. rewrite div64_eq, mod64_eq by exact Hr. reflexivity. Qed.
Definition words_ok (v : vec N) : Prop := forall q, vnth v q < 2 ^ 64.

Record cv_wf (cv : compact_vector) : Prop := {
  cw_width : 0 < cv_width cv /\ cv_width cv < 64;
  cw_mask : cv_mask cv = N.ones (cv_width cv);
  cw_bits : cv_size cv * cv_width cv + 64 < 2 ^ 64;
  cw_len : vlen (cv_chunks cv) = (cv_size cv * cv_width cv + 63) / 64;
  cw_words : words_ok (cv_chunks cv) }.

Lemma cv_new_eq size width : width < 64 -> size * width + 64 < 2 ^ 64 ->
  cv_new size width =
    Ret (mkCV (vnew ((size * width + 63) / 64) 0) size (N.ones width) width).
Proof.
  intros Hw Hb. unfold cv_new. rewrite throw_if_false by (apply N.leb_gt, Hw).
  simpl. unfold mul64. rewrite w64_small by lia. rewrite words_for_eq by exact Hb.
  rewrite mask_ones by exact Hw. reflexivity.
Qed.
Lemma cv_new_wf size width cv : 0 < width -> width < 64 -> size * width + 64 < 2 ^ 64 ->
  cv_new size width = Ret cv -> cv_wf cv /\ cv_size cv = size /\ cv_width cv = width.
Proof.
  intros H0 Hw Hb H. rewrite cv_new_eq in H by assumption. injection H as <-.
  split; [|split; reflexivity]. split; simpl; auto.
  intros q. rewrite vnth_new. reflexivity.
Qed.

Section access.
  Context (cv : compact_vector) (Hwf : cv_wf cv) (i : N) (Hi : i < cv_size cv).
  Let w := cv_width cv.
  Let quo := i * w / 64.
  Let md := i * w mod 64.
  Local Lemma acc_w : 0 < w < 64.
  Proof. destruct Hwf; auto. Qed.
  Local Lemma acc_mul : mul64 i w = i * w.
  Proof.
    unfold mul64. apply w64_small. fold w. pose proof (cw_bits cv Hwf) as H. fold w in H.
    assert (i * w <= cv_size cv * w) by (apply N.mul_le_mono_r; lia). lia.
  Qed.
  Local Lemma acc_qm : i * w = 64 * quo + md.
  Proof. apply div_mod_64. Qed.
  Local Lemma acc_md : md < 64.
  Proof. apply mod_64_lt. Qed.
  Local Lemma acc_end : 64 * quo + md + w <= cv_size cv * w.
  Proof.
    rewrite <- acc_qm. assert ((i + 1) * w <= cv_size cv * w) by (apply N.mul_le_mono_r; lia). lia.
  Qed.
  Local Lemma acc_quo : quo < vlen (cv_chunks cv).
  Proof.
    rewrite (cw_len cv Hwf). pose proof acc_end. pose proof acc_w. fold w.
    apply N.lt_le_trans with (quo + 1); [lia|].
    apply N.div_le_lower_bound; lia.
  Qed.
  Local Lemma acc_quo1 : 64 < md + w -> quo + 1 < vlen (cv_chunks cv).
  Proof.
    intros H. rewrite (cw_len cv Hwf). pose proof acc_end. fold w.
    apply N.lt_le_trans with (quo + 2); [lia|].
    apply N.div_le_lower_bound; lia.
  Qed.

  (** Bit-level specification of [get]. *)
  Lemma cv_get_bits : exists v, cv_get cv i = Ret v /\ v < 2 ^ w /\
    forall j, j < w -> N.testbit v j = wbit (cv_chunks cv) (i * w + j).
  Proof.
    pose proof acc_w as Hw. pose proof acc_md as Hmd. pose proof acc_quo as Hq.
    unfold cv_get. rewrite assert_true by (apply N.ltb_lt, Hi). rewrite bind_ret.
    fold w. rewrite acc_mul. unfold decompose_value. fold quo md.
    rewrite (cw_mask cv Hwf). fold w.
    destruct (N.leb_spec (md + w) 64) as [Hle|Hgt].
    - rewrite vget_ok by exact Hq. rewrite bind_ret. eexists. split; [reflexivity|]. split.
      + rewrite land_ones_mod. apply N.mod_lt, N.pow_nonzero. discriminate.
      + intros j Hj. rewrite N.land_spec, ones_testbit, shr_testbit, (proj2 (N.ltb_lt _ _) Hj), andb_true_r.
        rewrite acc_qm. replace (64 * quo + md + j) with (64 * quo + (md + j)) by lia.
        rewrite wbit_at by lia. f_equal. lia.
    - rewrite vget_ok by exact Hq. rewrite bind_ret.
      rewrite vget_ok by (apply acc_quo1; lia). rewrite bind_ret. eexists. split; [reflexivity|]. split.
      + rewrite land_ones_mod. apply N.mod_lt, N.pow_nonzero. discriminate.
      + intros j Hj. rewrite N.land_spec, ones_testbit, (proj2 (N.ltb_lt _ _) Hj), andb_true_r.
        rewrite N.lor_spec, shr_testbit, shl_testbit. rewrite acc_qm.
        destruct (N.lt_ge_cases (md + j) 64) as [Hlo|Hhi].
        * destruct (N.leb_spec (64 - md) j); [lia|]. simpl. rewrite orb_false_r.
          replace (64 * quo + md + j) with (64 * quo + (md + j)) by lia.
          rewrite wbit_at by lia. f_equal. lia.
        * destruct (N.leb_spec (64 - md) j); [|lia]. destruct (N.ltb_spec j 64); [|lia].
          rewrite andb_true_r, andb_true_l.
          rewrite (testbit_high _ 64) by (try apply (cw_words cv Hwf); lia). simpl.
          replace (64 * quo + md + j) with (64 * (quo + 1) + (md + j - 64)) by lia.
          rewrite wbit_at by lia. f_equal. lia.
  Qed.

  (** Bit-level specification of [set]. *)
  Lemma cv_set_bits v : v < 2 ^ w -> exists cv', cv_set cv i v = Ret cv' /\ cv_wf cv' /\
    cv_size cv' = cv_size cv /\ cv_width cv' = w /\
    forall k, wbit (cv_chunks cv') k =
      if (i * w <=? k) && (k <? i * w + w) then N.testbit v (k - i * w)
      else wbit (cv_chunks cv) k.
  Proof.
    intros Hv. pose proof acc_w as Hw. pose proof acc_md as Hmd. pose proof acc_quo as Hq.
    pose proof (cw_words cv Hwf) as Hwords.
    unfold cv_set. rewrite assert_true by (apply N.ltb_lt, Hi). rewrite bind_ret.
    rewrite (cw_mask cv Hwf). fold w.
    rewrite assert_true.
    2:{ apply N.leb_le. rewrite N.ones_equiv. lia. }
    rewrite bind_ret. rewrite acc_mul. unfold decompose_value. fold quo md.
    assert (Hvm : N.land v (N.ones w) = v).
    { rewrite land_ones_mod. apply N.mod_small, Hv. }
    rewrite Hvm.
    rewrite vget_ok by exact Hq. rewrite bind_ret.
    rewrite vset_ok by exact Hq. rewrite bind_ret.
    rewrite vget_ok by exact Hq. rewrite bind_ret.
    rewrite vset_ok by exact Hq. rewrite bind_ret. rewrite vnth_upd_eq.
    set (c0 := N.lor (N.land (vnth (cv_chunks cv) quo) (not64 (shl (N.ones w) md))) (shl v md)).
    assert (Hc0 : forall r, r < 64 -> N.testbit c0 r =
       if (md <=? r) && (r <? md + w) then N.testbit v (r - md)
       else N.testbit (vnth (cv_chunks cv) quo) r).
    { intros r Hr. unfold c0. rewrite N.lor_spec, N.land_spec, not64_testbit, !shl_testbit.
      rewrite ones_testbit. rewrite (proj2 (N.ltb_lt _ _) Hr), !andb_true_r.
      destruct (N.leb_spec md r) as [H1|H1]; simpl.
      - destruct (N.ltb_spec (r - md) w) as [H2|H2], (N.ltb_spec r (md + w)) as [H3|H3]; try (exfalso; lia); simpl.
        + destruct (N.testbit (vnth (cv_chunks cv) quo) r), (N.testbit v (r - md)); reflexivity.
        + rewrite (testbit_high v w (r - md) Hv H2).
          destruct (N.testbit (vnth (cv_chunks cv) quo) r); reflexivity.
      - destruct (N.testbit (vnth (cv_chunks cv) quo) r); reflexivity. }
    assert (Hc0lt : c0 < 2 ^ 64).
    { apply lt_pow2_testbit. intros n Hn. unfold c0.
      rewrite N.lor_spec, N.land_spec, not64_testbit, !shl_testbit.
      destruct (N.ltb_spec n 64); [lia|]. rewrite !andb_false_r. reflexivity. }
    assert (Hcase : forall k, k / 64 = quo -> k mod 64 = k - 64 * quo /\ 64 * quo <= k < 64 * quo + 64).
    { intros k <-. pose proof (div_mod_64 k). pose proof (mod_64_lt k). lia. }
    destruct (N.ltb_spec 64 (md + w)) as [Hgt|Hle].
    - assert (Hq1 := acc_quo1 Hgt).
      rewrite vget_ok by exact Hq1. rewrite bind_ret.
      rewrite vset_ok by exact Hq1. rewrite bind_ret.
      rewrite vget_ok by exact Hq1. rewrite bind_ret.
      rewrite vset_ok by exact Hq1. rewrite bind_ret. rewrite vnth_upd_eq.
      rewrite !vnth_upd_ne by lia.
      set (c1 := N.lor (N.land (vnth (cv_chunks cv) (quo + 1)) (not64 (shr (N.ones w) (64 - md)))) (shr v (64 - md))).
      assert (Hc1 : forall r, r < 64 -> N.testbit c1 r =
         if r + 64 <? md + w then N.testbit v (r + 64 - md)
         else N.testbit (vnth (cv_chunks cv) (quo + 1)) r).
      { intros r Hr. unfold c1. rewrite N.lor_spec, N.land_spec, not64_testbit, !shr_testbit.
        rewrite ones_testbit. rewrite (proj2 (N.ltb_lt _ _) Hr), !andb_true_r.
        destruct (N.ltb_spec (r + (64 - md)) w) as [H2|H2], (N.ltb_spec (r + 64) (md + w)) as [H3|H3]; try (exfalso; lia); simpl.
        - replace (r + 64 - md) with (r + (64 - md)) by lia.
          destruct (N.testbit (vnth (cv_chunks cv) (quo + 1)) r), (N.testbit v (r + (64 - md))); reflexivity.
        - rewrite (testbit_high v w _ Hv H2).
          destruct (N.testbit (vnth (cv_chunks cv) (quo + 1)) r); reflexivity. }
      assert (Hc1lt : c1 < 2 ^ 64).
      { apply lt_pow2_testbit. intros n Hn. unfold c1.
        rewrite N.lor_spec, N.land_spec, not64_testbit, shr_testbit.
        destruct (N.ltb_spec n 64); [lia|]. rewrite !andb_false_r. simpl.
        rewrite shr_testbit. apply (testbit_high v w); [exact Hv|lia]. }
      eexists. split; [reflexivity|]. split; [|split; [reflexivity|split; [reflexivity|]]].
      + split; simpl; try apply Hwf; auto.
        intros q. rewrite !vnth_upd. destruct (q =? quo + 1); [exact Hc1lt|].
        destruct (q =? quo); [exact Hc0lt|]. apply Hwords.
      + simpl. intros k. unfold wbit. rewrite !vnth_upd. rewrite acc_qm.
        pose proof (div_mod_64 k) as Hk. pose proof (mod_64_lt k) as Hk2.
        destruct (N.eqb_spec (k / 64) (quo + 1)) as [E|E].
        * rewrite Hc1 by exact Hk2. rewrite E in Hk.
          destruct (N.ltb_spec (k mod 64 + 64) (md + w)) as [H3|H3].
          -- destruct (N.leb_spec (64 * quo + md) k); [|lia].
             destruct (N.ltb_spec k (64 * quo + md + w)); [|lia]. simpl. f_equal. lia.
          -- destruct (N.ltb_spec k (64 * quo + md + w)); [lia|]. rewrite andb_false_r, E. reflexivity.
        * destruct (N.eqb_spec (k / 64) quo) as [E2|E2].
          -- rewrite Hc0 by exact Hk2. rewrite E2 in Hk.
             destruct (N.leb_spec md (k mod 64)), (N.leb_spec (64 * quo + md) k); try (exfalso; lia);
             destruct (N.ltb_spec (k mod 64) (md + w)), (N.ltb_spec k (64 * quo + md + w)); try (exfalso; lia); simpl.
             ++ f_equal. lia.
             ++ rewrite E2. reflexivity.
          -- destruct (N.leb_spec (64 * quo + md) k); [|reflexivity].
             destruct (N.ltb_spec k (64 * quo + md + w)); [|reflexivity]. exfalso.
             assert (64 * quo <= k < 64 * quo + 128) by lia.
             assert (k / 64 = quo \/ k / 64 = quo + 1) by lia. lia.
    - eexists. split; [reflexivity|]. split; [|split; [reflexivity|split; [reflexivity|]]].
      + split; simpl; try apply Hwf; auto.
        intros q. rewrite !vnth_upd.
        destruct (q =? quo); [exact Hc0lt|]. apply Hwords.
      + simpl. intros k. unfold wbit. rewrite !vnth_upd. rewrite acc_qm.
        pose proof (div_mod_64 k) as Hk. pose proof (mod_64_lt k) as Hk2.
        destruct (N.eqb_spec (k / 64) quo) as [E2|E2].
        * rewrite Hc0 by exact Hk2. rewrite E2 in Hk.
          destruct (N.leb_spec md (k mod 64)), (N.leb_spec (64 * quo + md) k); try (exfalso; lia);
          destruct (N.ltb_spec (k mod 64) (md + w)), (N.ltb_spec k (64 * quo + md + w)); try (exfalso; lia); simpl.
          ++ f_equal. lia.
          ++ rewrite E2. reflexivity.
          ++ rewrite E2. reflexivity.
        * destruct (N.leb_spec (64 * quo + md) k); [|reflexivity].
          destruct (N.ltb_spec k (64 * quo + md + w)); [|reflexivity]. exfalso.
          assert (k / 64 = quo) by lia. lia.
  Qed.
End access.

(** ** Element-level view *)
Definition cv_val (cv : compact_vector) (i : N) : N :=
  match cv_get cv i with Ret v => v | _ => 0 end.

Lemma cv_get_ok cv i : cv_wf cv -> i < cv_size cv -> cv_get cv i = Ret (cv_val cv i).
Proof.
  intros Hwf Hi. unfold cv_val. destruct (cv_get_bits cv Hwf i Hi) as (v & -> & _). reflexivity.
Qed.
Lemma cv_val_lt cv i : cv_wf cv -> i < cv_size cv -> cv_val cv i < 2 ^ cv_width cv.
Proof.
  intros Hwf Hi. unfold cv_val. destruct (cv_get_bits cv Hwf i Hi) as (v & -> & Hv & _). exact Hv.
Qed.
Lemma cv_val_testbit cv i j : cv_wf cv -> i < cv_size cv -> j < cv_width cv ->
  N.testbit (cv_val cv i) j = wbit (cv_chunks cv) (i * cv_width cv + j).
Proof.
  intros Hwf Hi. unfold cv_val. destruct (cv_get_bits cv Hwf i Hi) as (v & -> & _ & H). apply H.
Qed.
Lemma bits_inj_lt a b w : a < 2 ^ w -> b < 2 ^ w ->
  (forall j, j < w -> N.testbit a j = N.testbit b j) -> a = b.
Proof.
  intros Ha Hb H. apply N.bits_inj. intros j. destruct (N.lt_ge_cases j w) as [Hj|Hj]; [auto|].
  rewrite (testbit_high a w j Ha Hj), (testbit_high b w j Hb Hj). reflexivity.
Qed.
Lemma cv_set_ok cv i v : cv_wf cv -> i < cv_size cv -> v < 2 ^ cv_width cv ->
  exists cv', cv_set cv i v = Ret cv' /\ cv_wf cv' /\ cv_size cv' = cv_size cv /\
    cv_width cv' = cv_width cv /\
    forall j, j < cv_size cv -> cv_val cv' j = if j =? i then v else cv_val cv j.
Proof.
  intros Hwf Hi Hv. destruct (cv_set_bits cv Hwf i Hi v Hv) as (cv' & E & Hwf' & Hs & Hw & Hb).
  exists cv'. do 4 (split; [assumption|]). intros j Hj.
  pose proof (cv_val_lt cv j Hwf Hj) as Hold.
  assert (Hj' : j < cv_size cv') by (rewrite Hs; exact Hj).
  pose proof (cv_val_lt cv' j Hwf' Hj') as Hnew. rewrite Hw in Hnew.
  apply bits_inj_lt with (cv_width cv); [exact Hnew| |].
  { destruct (j =? i); assumption. }
  intros b Hbit. rewrite cv_val_testbit by (try rewrite Hw; assumption). rewrite Hw, Hb.
  set (w := cv_width cv) in *.
  destruct (N.eqb_spec j i) as [->|Hne].
  - destruct (N.leb_spec (i * w) (i * w + b)); [|lia].
    destruct (N.ltb_spec (i * w + b) (i * w + w)); [|lia]. simpl. f_equal. lia.
  - rewrite cv_val_testbit by assumption. fold w.
    destruct (N.leb_spec (i * w) (j * w + b)) as [H1|H1]; [|reflexivity].
    destruct (N.ltb_spec (j * w + b) (i * w + w)) as [H2|H2]; [|reflexivity]. exfalso.
    assert (j < i \/ i < j) as [Hlt|Hlt] by lia.
    + assert ((j + 1) * w <= i * w) by (apply N.mul_le_mono_r; lia). lia.
    + assert ((i + 1) * w <= j * w) by (apply N.mul_le_mono_r; lia). lia.
Qed.
Lemma cv_new_val size width cv i : 0 < width -> width < 64 -> size * width + 64 < 2 ^ 64 ->
  cv_new size width = Ret cv -> i < size -> cv_val cv i = 0.
Proof.
  intros H0 Hw Hb E Hi. destruct (cv_new_wf _ _ _ H0 Hw Hb E) as (Hwf & Hs & Hwd).
  apply bits_inj_lt with width.
  - rewrite <- Hwd. apply cv_val_lt; [exact Hwf|]. rewrite Hs. exact Hi.
  - apply pow2_pos.
  - intros j Hj. rewrite cv_val_testbit by (try rewrite Hs; try rewrite Hwd; assumption).
    rewrite cv_new_eq in E by assumption. injection E as <-. simpl.
    unfold wbit. rewrite vnth_new, !N.bits_0. reflexivity.
Qed.
Lemma wbit_resize v n k : (k / 64 < n) -> wbit (vresize v n) k =
   if k / 64 <? vlen v then wbit v k else N.testbit (vdef v) (k mod 64).
Proof.
  intros H. unfold wbit. rewrite vnth_resize.
  destruct (N.ltb_spec (k / 64) (N.min n (vlen v))), (N.ltb_spec (k / 64) (vlen v)); try lia; reflexivity.
Qed.

(** resize keeps the common prefix; [vdef = 0] (all words come from zero-filled storage). *)
Definition cv_zero (cv : compact_vector) : Prop := vdef (cv_chunks cv) = 0.
(** All bits beyond the last element are zero: true as long as the vector never shrank. *)
Definition cv_clean (cv : compact_vector) : Prop :=
  forall k, cv_size cv * cv_width cv <= k -> wbit (cv_chunks cv) k = false.

Lemma vdef_upd {A} (v : vec A) i x : vdef (vupd v i x) = vdef v.
Proof. reflexivity. Qed.
Lemma cv_set_zero cv i v cv' : cv_set cv i v = Ret cv' -> cv_zero cv -> cv_zero cv'.
Proof.
  unfold cv_set, cv_zero. intros H Hz.
  repeat match goal with
  | H : bind _ _ = Ret _ |- _ => apply bind_ret_inv in H as (? & ? & H)
  | H : vset _ _ _ = Ret _ |- _ => unfold vset in H
  | H : (if ?c then Ret _ else UB) = Ret _ |- _ => destruct c; [injection H as <-|discriminate]
  | H : (if ?c then _ else _) = Ret _ |- _ => destruct c
  | H : (let '(_, _) := ?p in _) = _ |- _ => destruct p
  | H : Ret _ = Ret _ |- _ => injection H as <-
  end; simpl; rewrite ?vdef_upd; exact Hz.
Qed.
Lemma cv_set_clean cv i v cv' : cv_wf cv -> i < cv_size cv -> v < 2 ^ cv_width cv ->
  cv_set cv i v = Ret cv' -> cv_clean cv -> cv_clean cv'.
Proof.
  intros Hwf Hi Hv E Hc. destruct (cv_set_bits cv Hwf i Hi v Hv) as (cv2 & E2 & _ & Hs & Hw & Hb).
  rewrite E in E2. injection E2 as <-. intros k Hk. rewrite Hs, Hw in Hk. rewrite Hb.
  destruct (N.ltb_spec k (i * cv_width cv + cv_width cv)) as [H|H].
  - exfalso. assert ((i + 1) * cv_width cv <= cv_size cv * cv_width cv) by (apply N.mul_le_mono_r; lia). lia.
  - rewrite andb_false_r. apply Hc, Hk.
Qed.
Lemma cv_new_clean size width cv : width < 64 -> size * width + 64 < 2 ^ 64 ->
  cv_new size width = Ret cv -> cv_zero cv /\ cv_clean cv.
Proof.
  intros Hw Hb E. rewrite cv_new_eq in E by assumption. injection E as <-. split; [reflexivity|].
  intros k _. unfold wbit; simpl. rewrite vnth_new. apply N.bits_0.
Qed.

Lemma cv_new_init_ok size width init : 0 < width -> width < 64 -> size * width + 64 < 2 ^ 64 ->
  init < 2 ^ width ->
  exists cv, cv_new_init size width init = Ret cv /\ cv_wf cv /\ cv_size cv = size /\
    cv_width cv = width /\ (forall i, i < size -> cv_val cv i = init) /\ cv_zero cv /\ cv_clean cv.
Proof.
  intros H0 Hw Hb Hinit. unfold cv_new_init. apply wp_inv.
  destruct (cv_new size width) as [cv0|e| | |] eqn:E0; try (rewrite cv_new_eq in E0 by assumption; discriminate).
  destruct (cv_new_wf _ _ _ H0 Hw Hb E0) as (Hwf0 & Hs0 & Hwd0).
  simpl.
  assert (Hs64 : size < 2 ^ 64).
  { assert (size * 1 <= size * width) by (apply N.mul_le_mono_l; lia). lia. }
  apply wp_for_range with (I := fun k cv => cv_wf cv /\ cv_size cv = size /\ cv_width cv = width /\
     (forall i, i < k -> cv_val cv i = init) /\ cv_zero cv /\ cv_clean cv); try lia.
  - destruct (cv_new_clean size width cv0 Hw Hb E0) as [HZ HC].
    split; [exact Hwf0|]. split; [exact Hs0|]. split; [exact Hwd0|]. split; [intros; lia|auto].
  - intros k cv Hk (Hwf & Hs & Hwd & Hval & HZ & HC).
    destruct (cv_set_ok cv k init Hwf) as (cv' & E & Hwf' & Hs' & Hw' & Hv'); [lia|rewrite Hwd; exact Hinit|].
    rewrite E. simpl. split; [exact Hwf'|]. split; [congruence|]. split; [congruence|].
    split.
    { intros i Hi. rewrite Hv' by lia. destruct (N.eqb_spec i k); [reflexivity|]. apply Hval. lia. }
    split; [eapply cv_set_zero; eauto|].
    eapply cv_set_clean; try exact E; try assumption; [lia|rewrite Hwd; exact Hinit].
  - intros cv H. exact H.
Qed.

Lemma cv_resize_ok cv n : cv_wf cv -> cv_zero cv -> n * cv_width cv + 64 < 2 ^ 64 ->
  let cv' := cv_resize cv n in
  cv_wf cv' /\ cv_zero cv' /\ cv_size cv' = n /\ cv_width cv' = cv_width cv /\
  (forall i, i < n -> i < cv_size cv -> cv_val cv' i = cv_val cv i) /\
  (cv_clean cv -> cv_size cv <= n ->
     cv_clean cv' /\ forall i, cv_size cv <= i < n -> cv_val cv' i = 0).
Proof.
  intros Hwf Hz Hn. cbv zeta. unfold cv_resize. unfold mul64. rewrite w64_small by lia.
  rewrite words_for_eq by exact Hn.
  set (cv' := mkCV _ _ _ _). set (w := cv_width cv) in *.
  assert (Hw : 0 < w < 64) by (destruct Hwf; assumption).
  assert (Hwf' : cv_wf cv').
  { split; simpl; try apply Hwf; auto. intros q. rewrite vnth_resize.
    destruct (_ <? _); [apply Hwf|]. rewrite Hz. reflexivity. }
  assert (Hlen : forall k m, k < m * w -> k / 64 < (m * w + 63) / 64).
  { intros k m Hk. apply N.lt_le_trans with (k / 64 + 1); [lia|].
    apply N.div_le_lower_bound; [discriminate|]. pose proof (div_mod_64 k). lia. }
  assert (Hbit : forall k, k < n * w ->
     wbit (cv_chunks cv') k = if k / 64 <? vlen (cv_chunks cv) then wbit (cv_chunks cv) k else false).
  { intros k Hk. simpl. rewrite wbit_resize by (apply Hlen, Hk). rewrite Hz, N.bits_0. reflexivity. }
  assert (Hidx : forall i m j, i < m -> j < w -> i * w + j < m * w).
  { intros i m j Hi Hj. assert ((i + 1) * w <= m * w) by (apply N.mul_le_mono_r; lia). lia. }
  split; [exact Hwf'|]. split; [exact Hz|]. split; [reflexivity|]. split; [reflexivity|]. split.
  - intros i Hi Hi2. apply bits_inj_lt with w.
    + apply (cv_val_lt cv'); assumption.
    + apply cv_val_lt; assumption.
    + intros j Hj. rewrite !cv_val_testbit by assumption. change (cv_width cv') with w. fold w.
      rewrite Hbit by (apply Hidx; assumption).
      rewrite (cw_len cv Hwf). fold w.
      rewrite (proj2 (N.ltb_lt _ _) (Hlen _ _ (Hidx i (cv_size cv) j Hi2 Hj))). reflexivity.
  - intros Hc Hle. split.
    + intros k Hk. simpl in Hk |- *. fold w in Hk. unfold wbit. rewrite vnth_resize.
      destruct (N.ltb_spec (k / 64) (N.min ((n * w + 63) / 64) (vlen (cv_chunks cv)))) as [H|H].
      * apply Hc. fold w. assert (cv_size cv * w <= n * w) by (apply N.mul_le_mono_r; lia). lia.
      * rewrite Hz. apply N.bits_0.
    + intros i Hi. apply bits_inj_lt with w.
      * apply (cv_val_lt cv' i Hwf'). apply Hi.
      * apply pow2_pos.
      * intros j Hj. rewrite cv_val_testbit by (assumption || apply Hi). change (cv_width cv') with w.
        rewrite Hbit by (apply Hidx; [apply Hi|assumption]). rewrite N.bits_0.
        destruct (_ <? _); [|reflexivity]. apply Hc. fold w.
        assert (cv_size cv * w <= i * w) by (apply N.mul_le_mono_r; lia). lia.
Qed.
