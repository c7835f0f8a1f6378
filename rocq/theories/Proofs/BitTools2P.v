From Verif.Proofs Require Export BitToolsP.
Local Open Scope N_scope.

(** ** popcnt *)
Definition tab_is (l : list N) (n : nat) (g : N -> N) : bool :=
  check_below n (fun x => match tget l x with Ret y => y =? g x | _ => false end).
Lemma tab_is_sound l n g x : tab_is l n g = true -> x < N.of_nat n -> tget l x = Ret (g x).
Proof.
  intros H Hx. apply (check_below_sound _ _ x) in H; [|exact Hx]. cbv beta in H.
  destruct (tget l x); try discriminate. apply N.eqb_eq in H. subst. reflexivity.
Qed.
Lemma popcnt8_ok x : x < 256 -> popcnt8 x = Ret (ones_below x 8).
Proof.
  intros Hx. unfold popcnt8. apply (tab_is_sound POPCNT_TABLE 256 (fun x => ones_below x 8)).
  - vm_compute. reflexivity.
  - exact Hx.
Qed.
Lemma popcnt16_ok x : x < 65536 -> popcnt16 x = Ret (ones_below x 16).
Proof.
  intros Hx. unfold popcnt16.
  assert (H1 : N.land x 255 < 256).
  { change 255 with (N.ones 8). rewrite N.land_ones. apply N.mod_lt. discriminate. }
  assert (H2 : shr x 8 < 256).
  { unfold shr. rewrite N.shiftr_div_pow2. apply N.div_lt_upper_bound; [discriminate|]. exact Hx. }
  fold (popcnt8 (N.land x 255)). rewrite popcnt8_ok by exact H1. simpl.
  fold (popcnt8 (shr x 8)). rewrite popcnt8_ok by exact H2. simpl. f_equal.
  change 16 with (8 + 8). rewrite ones_below_add. f_equal.
  apply ones_below_ext. intros i Hi. rewrite N.land_spec. change 255 with (N.ones 8).
  rewrite ones_testbit, (proj2 (N.ltb_lt _ _) Hi). apply andb_true_r.
Qed.

(** byte-level function computed by the three SWAR steps of popcnt *)
Definition swar_byte (b : N) : N :=
  let b1 := N.land b 0x55 + N.shiftr (N.land b 0xAA) 1 in
  let b2 := N.land b1 0x33 + N.shiftr (N.land b1 0xCC) 2 in
  N.land b2 0x0F + N.shiftr (N.land b2 0xF0) 4.
Lemma swar_byte_ok b : b < 256 -> 
  (N.land b 0x55 + N.shiftr (N.land b 0xAA) 1 < 256) /\
  (let b1 := N.land b 0x55 + N.shiftr (N.land b 0xAA) 1 in
   N.land b1 0x33 + N.shiftr (N.land b1 0xCC) 2 < 256) /\
  swar_byte b = ones_below b 8.
Proof.
  intros Hb.
  assert (H : check_below 256 (fun b => 
    (N.land b 0x55 + N.shiftr (N.land b 0xAA) 1 <? 256) &&
    (let b1 := N.land b 0x55 + N.shiftr (N.land b 0xAA) 1 in
    N.land b1 0x33 + N.shiftr (N.land b1 0xCC) 2 <? 256) &&
    (swar_byte b =? ones_below b 8)) = true) by (vm_compute; reflexivity).
  apply (check_below_sound _ _ b) in H; [|exact Hb]. cbv beta in H.
  rewrite !andb_true_iff in H. destruct H as [[H1 H2] H3].
  apply N.ltb_lt in H1, H2. apply N.eqb_eq in H3. auto.
Qed.
Section swar.
  Context (n : nat) (f : nat -> N) (Hf : forall k, (k < n)%nat -> f k < 256).
  Lemma swar_step s m1 m2 : s <= 8 -> N.shiftl (N.shiftr m2 s) s = m2 -> m1 < 256 -> m2 < 256 ->
    N.land (dsum n f) (dsum n (fun _ => m1)) + N.shiftr (N.land (dsum n f) (dsum n (fun _ => m2))) s
    = dsum n (fun k => N.land (f k) m1 + N.shiftr (N.land (f k) m2) s).
  Proof.
    intros. rewrite dsum_mask_shr by assumption. rewrite dsum_land by auto.
    rewrite dsum_add. reflexivity.
  Qed.
End swar.

Lemma popcnt64_ok x : x < 2 ^ 64 -> popcnt64 x = ones_below x 64.
Proof.
  intros Hx. set (f := fun k => byte_ x (N.of_nat k)).
  assert (Ex : x = dsum 8 f) by (apply (dsum_bytes 8); exact Hx).
  assert (Hf : forall k, (k < 8)%nat -> f k < 256) by (intros; apply byte_lt).
  unfold popcnt64, shr.
  change 0x5555555555555555 with (dsum 8 (fun _ => 0x55)).
  change 0xAAAAAAAAAAAAAAAA with (dsum 8 (fun _ => 0xAA)).
  change 0x3333333333333333 with (dsum 8 (fun _ => 0x33)).
  change 0xCCCCCCCCCCCCCCCC with (dsum 8 (fun _ => 0xCC)).
  change 0x0F0F0F0F0F0F0F0F with (dsum 8 (fun _ => 0x0F)).
  change 0xF0F0F0F0F0F0F0F0 with (dsum 8 (fun _ => 0xF0)).
  set (f1 := fun k => N.land (f k) 0x55 + N.shiftr (N.land (f k) 0xAA) 1).
  set (f2 := fun k => N.land (f1 k) 0x33 + N.shiftr (N.land (f1 k) 0xCC) 2).
  assert (Hf1 : forall k, (k < 8)%nat -> f1 k < 256)
    by (intros k Hk; apply (swar_byte_ok (f k)), Hf, Hk).
  assert (Hf2 : forall k, (k < 8)%nat -> f2 k < 256)
    by (intros k Hk; apply (swar_byte_ok (f k)), Hf, Hk).
  assert (E1 : add64 (N.land x (dsum 8 (fun _ => 0x55))) (N.shiftr (N.land x (dsum 8 (fun _ => 0xAA))) 1) = dsum 8 f1).
  { rewrite Ex at 1 2. unfold add64. rewrite swar_step; [|assumption|lia|reflexivity..]. apply w64_small. apply (dsum_lt 8).
    intros k Hk. apply Hf1, Hk. }
  assert (E2 : add64 (N.land (dsum 8 f1) (dsum 8 (fun _ => 0x33))) (N.shiftr (N.land (dsum 8 f1) (dsum 8 (fun _ => 0xCC))) 2) = dsum 8 f2).
  { unfold add64. rewrite swar_step; [|assumption|lia|reflexivity..]. apply w64_small. apply (dsum_lt 8).
    intros k Hk. apply Hf2, Hk. }
  assert (E3 : add64 (N.land (dsum 8 f2) (dsum 8 (fun _ => 0x0F))) (N.shiftr (N.land (dsum 8 f2) (dsum 8 (fun _ => 0xF0))) 4) = dsum 8 (fun k => swar_byte (f k))).
  { unfold add64. rewrite swar_step; [|assumption|lia|reflexivity..]. apply w64_small. apply (dsum_lt 8).
    intros k Hk. change (swar_byte (f k) < 256). destruct (swar_byte_ok (f k)) as (_&_& ->); [apply Hf, Hk|].
    pose proof (ones_below_le (f k) 8). lia. }
  rewrite E1. cbv zeta. rewrite E2. rewrite E3.
  assert (E : forall k, (k < 8)%nat -> swar_byte (f k) = ones_below (f k) 8).
  { intros k Hk. apply (swar_byte_ok (f k)), Hf, Hk. }
  rewrite (dsum_ext 8 _ (fun k => ones_below (f k) 8)) by (intros k Hk; apply E, Hk).
  assert (Ho : ones_below x 64 = fold_right N.add 0 (map (fun k => ones_below (f k) 8) (seq 0 8))).
  { rewrite Ex. apply (dsum_ones_below 8 f 8 Hf). lia. }
  rewrite Ho. clear Ho E Ex Hx.
  assert (HB : forall k, ones_below (f k) 8 <= 8) by (intros; apply ones_below_le).
  unfold mul64. cbn [dsum map seq fold_right].
  generalize (HB 0%nat) (HB 1%nat) (HB 2%nat) (HB 3%nat) (HB 4%nat) (HB 5%nat) (HB 6%nat) (HB 7%nat).
  generalize (ones_below (f 0%nat) 8) (ones_below (f 1%nat) 8) (ones_below (f 2%nat) 8)
    (ones_below (f 3%nat) 8) (ones_below (f 4%nat) 8) (ones_below (f 5%nat) 8)
    (ones_below (f 6%nat) 8) (ones_below (f 7%nat) 8).
  clear. intros p0 p1 p2 p3 p4 p5 p6 p7 H0 H1 H2 H3 H4 H5 H6 H7.
  rewrite w64_mod, N.shiftr_div_pow2.
  rewrite <- (N.mod_unique _ (2 ^ 64)
    (p1+p2+p3+p4+p5+p6+p7 + 256*(p2+p3+p4+p5+p6+p7) + 65536*(p3+p4+p5+p6+p7)
     + 16777216*(p4+p5+p6+p7) + 4294967296*(p5+p6+p7) + 1099511627776*(p6+p7)
     + 281474976710656*p7)
    (p0 + 256*(p0+p1) + 65536*(p0+p1+p2) + 16777216*(p0+p1+p2+p3)
     + 4294967296*(p0+p1+p2+p3+p4) + 1099511627776*(p0+p1+p2+p3+p4+p5)
     + 281474976710656*(p0+p1+p2+p3+p4+p5+p6) + 72057594037927936*(p0+p1+p2+p3+p4+p5+p6+p7))).
  - symmetry. apply N.div_unique with
     (p0 + 256*(p0+p1) + 65536*(p0+p1+p2) + 16777216*(p0+p1+p2+p3)
     + 4294967296*(p0+p1+p2+p3+p4) + 1099511627776*(p0+p1+p2+p3+p4+p5)
     + 281474976710656*(p0+p1+p2+p3+p4+p5+p6)); change (2^56) with 72057594037927936; lia.
  - change (2^64) with 18446744073709551616; lia.
  - change (2^64) with 18446744073709551616; lia.
Qed.

Lemma w32_mod x : w32 x = x mod 2 ^ 32.
Proof. unfold w32. change 4294967295 with (N.ones 32). apply N.land_ones. Qed.
Lemma w32_small x : x < 2 ^ 32 -> w32 x = x.
Proof. intros. rewrite w32_mod. apply N.mod_small. assumption. Qed.
Lemma popcnt32_ok x : x < 2 ^ 32 -> popcnt32 x = ones_below x 32.
Proof.
  intros Hx. set (f := fun k => byte_ x (N.of_nat k)).
  assert (Ex : x = dsum 4 f) by (apply (dsum_bytes 4); exact Hx).
  assert (Hf : forall k, (k < 4)%nat -> f k < 256) by (intros; apply byte_lt).
  unfold popcnt32, shr.
  change 0x55555555 with (dsum 4 (fun _ => 0x55)).
  change 0xAAAAAAAA with (dsum 4 (fun _ => 0xAA)).
  change 0x33333333 with (dsum 4 (fun _ => 0x33)).
  change 0xCCCCCCCC with (dsum 4 (fun _ => 0xCC)).
  change 0x0F0F0F0F with (dsum 4 (fun _ => 0x0F)).
  change 0xF0F0F0F0 with (dsum 4 (fun _ => 0xF0)).
  set (f1 := fun k => N.land (f k) 0x55 + N.shiftr (N.land (f k) 0xAA) 1).
  set (f2 := fun k => N.land (f1 k) 0x33 + N.shiftr (N.land (f1 k) 0xCC) 2).
  assert (Hf1 : forall k, (k < 4)%nat -> f1 k < 256)
    by (intros k Hk; apply (swar_byte_ok (f k)), Hf, Hk).
  assert (Hf2 : forall k, (k < 4)%nat -> f2 k < 256)
    by (intros k Hk; apply (swar_byte_ok (f k)), Hf, Hk).
  assert (E1 : w32 (N.land x (dsum 4 (fun _ => 0x55)) + N.shiftr (N.land x (dsum 4 (fun _ => 0xAA))) 1) = dsum 4 f1).
  { rewrite Ex at 1 2. rewrite swar_step; [|assumption|lia|reflexivity..]. apply w32_small. apply (dsum_lt 4).
    intros k Hk. apply Hf1, Hk. }
  assert (E2 : w32 (N.land (dsum 4 f1) (dsum 4 (fun _ => 0x33)) + N.shiftr (N.land (dsum 4 f1) (dsum 4 (fun _ => 0xCC))) 2) = dsum 4 f2).
  { rewrite swar_step; [|assumption|lia|reflexivity..]. apply w32_small. apply (dsum_lt 4).
    intros k Hk. apply Hf2, Hk. }
  assert (E3 : w32 (N.land (dsum 4 f2) (dsum 4 (fun _ => 0x0F)) + N.shiftr (N.land (dsum 4 f2) (dsum 4 (fun _ => 0xF0))) 4) = dsum 4 (fun k => swar_byte (f k))).
  { rewrite swar_step; [|assumption|lia|reflexivity..]. apply w32_small. apply (dsum_lt 4).
    intros k Hk. change (swar_byte (f k) < 256). destruct (swar_byte_ok (f k)) as (_&_& ->); [apply Hf, Hk|].
    pose proof (ones_below_le (f k) 8). lia. }
  rewrite E1. cbv zeta. rewrite E2. rewrite E3.
  assert (E : forall k, (k < 4)%nat -> swar_byte (f k) = ones_below (f k) 8).
  { intros k Hk. apply (swar_byte_ok (f k)), Hf, Hk. }
  rewrite (dsum_ext 4 _ (fun k => ones_below (f k) 8)) by (intros k Hk; apply E, Hk).
  assert (Ho : ones_below x 32 = fold_right N.add 0 (map (fun k => ones_below (f k) 8) (seq 0 4))).
  { rewrite Ex. apply (dsum_ones_below 4 f 4 Hf). lia. }
  rewrite Ho. clear Ho E Ex Hx.
  assert (HB : forall k, ones_below (f k) 8 <= 8) by (intros; apply ones_below_le).
  cbn [dsum map seq fold_right].
  generalize (HB 0%nat) (HB 1%nat) (HB 2%nat) (HB 3%nat).
  generalize (ones_below (f 0%nat) 8) (ones_below (f 1%nat) 8) (ones_below (f 2%nat) 8)
    (ones_below (f 3%nat) 8).
  clear. intros p0 p1 p2 p3 H0 H1 H2 H3.
  rewrite w32_mod, N.shiftr_div_pow2.
  rewrite <- (N.mod_unique _ (2 ^ 32)
    (p1+p2+p3 + 256*(p2+p3) + 65536*p3)
    (p0 + 256*(p0+p1) + 65536*(p0+p1+p2) + 16777216*(p0+p1+p2+p3))).
  - symmetry. apply N.div_unique with
     (p0 + 256*(p0+p1) + 65536*(p0+p1+p2)); change (2^24) with 16777216; lia.
  - change (2^32) with 4294967296; lia.
  - change (2^32) with 4294967296; lia.
Qed.

Definition width_ok (w : N) : Prop := w = 8 \/ w = 16 \/ w = 32 \/ w = 64.
Lemma popcnt_ok w x : width_ok w -> x < 2 ^ w -> popcnt w x = Ret (ones_below x w).
Proof.
  intros [->|[->|[->| ->]]] Hx; unfold popcnt; simpl.
  - apply popcnt8_ok, Hx.
  - apply popcnt16_ok, Hx.
  - rewrite popcnt32_ok by exact Hx. reflexivity.
  - rewrite popcnt64_ok by exact Hx. reflexivity.
Qed.
Lemma mask_ones i : i < 64 -> sub64 (shl 1 i) 1 = N.ones i.
Proof.
  intros Hi. assert (H := p2_new_eq i Hi). unfold p2_new in H.
  rewrite (proj2 (N.ltb_lt _ _) Hi) in H. congruence.
Qed.
Lemma popcnt_masked_ok w x i : width_ok w -> x < 2 ^ w -> i < w ->
  popcnt_masked w x i = Ret (ones_below x i).
Proof.
  intros Hw Hx Hi.
  assert (Hw64 : w <= 64) by (destruct Hw as [->|[->|[->| ->]]]; lia).
  unfold popcnt_masked. rewrite assert_true by (apply N.ltb_lt, Hi).
  simpl. rewrite mask_ones by lia.
  assert (Hlt : N.land x (N.ones i) < 2 ^ w).
  { rewrite N.land_ones. eapply N.lt_trans; [apply N.mod_lt|].
    - apply N.pow_nonzero. discriminate.
    - apply pow2_lt, Hi. }
  rewrite popcnt_ok by assumption. f_equal.
  rewrite (ones_below_high _ i w).
  - apply ones_below_ext. intros j Hj. rewrite N.land_spec, ones_testbit.
    rewrite (proj2 (N.ltb_lt _ _) Hj). apply andb_true_r.
  - intros j Hj. rewrite N.land_spec, ones_testbit.
    destruct (N.ltb_spec j i); [lia|apply andb_false_r].
  - lia.
Qed.

(** ** msb, ceil_log2, words_for *)
Lemma MSB_ok x : x < 256 -> tget MSB_TABLE x = Ret (N.log2 x).
Proof. apply (tab_is_sound MSB_TABLE 256 N.log2). vm_compute. reflexivity. Qed.
Lemma log2_shr x k : 0 < shr x k -> N.log2 x = N.log2 (shr x k) + k.
Proof.
  unfold shr. intros H. rewrite N.log2_shiftr.
  assert (k <= N.log2 x); [|lia].
  rewrite N.shiftr_div_pow2 in H.
  apply N.log2_le_pow2.
  - destruct (N.eq_dec x 0) as [->|]; [|lia]. rewrite N.div_0_l in H; [lia|]. apply N.pow_nonzero. discriminate.
  - destruct (N.le_gt_cases (2 ^ k) x) as [|Hlt]; [assumption|].
    rewrite N.div_small in H by assumption. lia.
Qed.
Lemma shr_shr x a b : shr (shr x a) b = shr x (a + b).
Proof. unfold shr. apply N.shiftr_shiftr. Qed.
Lemma shr_lt x a b : x < 2 ^ (a + b) -> shr x a < 2 ^ b.
Proof.
  intros H. rewrite shr_div. apply N.div_lt_upper_bound.
  - apply N.pow_nonzero. discriminate.
  - rewrite <- N.pow_add_r. exact H.
Qed.
Lemma shr_zero_lt x a : ~ 0 < shr x a -> x < 2 ^ a.
Proof.
  intros H. destruct (N.lt_ge_cases x (2 ^ a)) as [|Hge]; [assumption|].
  exfalso. apply H. rewrite shr_div. apply N.div_str_pos.
  split; [apply pow2_pos|assumption].
Qed.
Lemma msb_case x a : x < 2 ^ (a + 8) -> 0 < shr x a ->
  bind (tget MSB_TABLE (shr x a)) (fun r => Ret (r + a)) = Ret (N.log2 x).
Proof.
  intros H1 H2. rewrite MSB_ok by (apply (shr_lt x a 8), H1).
  rewrite bind_ret, <- log2_shr by exact H2. reflexivity.
Qed.
Lemma msb_ok x : x < 2 ^ 64 -> msb x = Ret (N.log2 x).
Proof.
  intros Hx. unfold msb. cbv zeta. rewrite !shr_shr.
  change (32 + 16 + 8) with 56. change (32 + 16) with 48. change (32 + 8) with 40.
  change (16 + 8) with 24.
  destruct (N.ltb_spec 0 (shr x 32)) as [H1|H1].
  - destruct (N.ltb_spec 0 (shr x 48)) as [H2|H2].
    + destruct (N.ltb_spec 0 (shr x 56)) as [H3|H3]; apply msb_case; try assumption.
      apply shr_zero_lt. change (48 + 8) with 56. lia.
    + destruct (N.ltb_spec 0 (shr x 40)) as [H3|H3]; apply msb_case; try assumption; apply shr_zero_lt.
      * change (40 + 8) with 48. lia.
      * change (32 + 8) with 40. lia.
  - destruct (N.ltb_spec 0 (shr x 16)) as [H2|H2].
    + destruct (N.ltb_spec 0 (shr x 24)) as [H3|H3]; apply msb_case; try assumption; apply shr_zero_lt.
      * change (24 + 8) with 32. lia.
      * change (16 + 8) with 24. lia.
    + destruct (N.ltb_spec 0 (shr x 8)) as [H3|H3].
      * apply msb_case; [|assumption]. apply shr_zero_lt. change (8 + 8) with 16. lia.
      * apply MSB_ok. change 256 with (2 ^ 8). apply shr_zero_lt. lia.
Qed.
Lemma ceil_log2_ok x : 1 <= x -> x < 2 ^ 64 ->
  exists n, ceil_log2 x = Ret n /\ x <= 2 ^ n /\ forall m, x <= 2 ^ m -> n <= m.
Proof.
  intros H1 Hx. unfold ceil_log2. destruct (N.ltb_spec 1 x) as [H|H].
  - rewrite msb_ok by lia. simpl. eexists; split; [reflexivity|].
    assert (Hs := N.log2_spec (x - 1)). rewrite N.add_1_r. split; [lia|].
    intros m Hm. apply N.le_succ_l. apply N.log2_lt_pow2; lia.
  - exists 0. split; [reflexivity|]. split; [change (2^0) with 1; lia|]. intros; lia.
Qed.
Lemma words_for_eq bits : bits + 64 < 2 ^ 64 -> words_for bits = (bits + 63) / 64.
Proof.
  intros H. unfold words_for, sub64, add64. rewrite (w64_small (bits + 64)) by exact H.
  f_equal. change (UINT64_MAX + 1 - 1) with (2^64-1). rewrite w64_mod.
  replace (bits + 64 + (2 ^ 64 - 1)) with (bits + 63 + 1 * 2 ^ 64) by lia.
  rewrite N.mod_add by discriminate. apply N.mod_small. lia.
Qed.
Lemma is_power2_ok n : n < 2 ^ 64 -> is_power2 n = true <-> exists k, n = 2 ^ k.
Proof.
  intros Hn. unfold is_power2. rewrite andb_true_iff, negb_true_iff, N.eqb_neq, N.eqb_eq.
  assert (Hsub : n <> 0 -> sub64 n 1 = n - 1).
  { intros Hz. unfold sub64. change (UINT64_MAX + 1 - 1) with (2 ^ 64 - 1). rewrite w64_mod.
    replace (n + (2 ^ 64 - 1)) with (n - 1 + 1 * 2 ^ 64) by lia.
    rewrite N.mod_add by discriminate. apply N.mod_small. lia. }
  split.
  - intros [Hz H]. rewrite Hsub in H by exact Hz. exists (N.log2 n).
    assert (Hs := N.log2_spec n ltac:(lia)). set (k := N.log2 n) in *.
    destruct (N.eq_dec n (2 ^ k)) as [|Hne]; [assumption|]. exfalso.
    apply (f_equal (fun y => N.testbit y k)) in H. rewrite N.land_spec, N.bits_0 in H.
    assert (forall y, 2 ^ k <= y < 2 ^ N.succ k -> N.testbit y k = true) as Hb.
    { intros y Hy. replace k with (N.log2 y) by (apply N.log2_unique; lia).
      apply N.bit_log2. pose proof (pow2_pos k). lia. }
    rewrite !Hb in H by lia. discriminate.
  - intros [k ->]. assert (2 ^ k <> 0) by (apply N.pow_nonzero; discriminate).
    split; [assumption|]. rewrite Hsub by assumption.
    rewrite N.sub_1_r, <- N.ones_equiv, N.land_ones. apply N.mod_same. assumption.
Qed.
Lemma bits_to_bytes_ok b : bits_to_bytes b = (b + 7) / 8.
Proof.
  unfold bits_to_bytes. destruct (N.eqb_spec b 0) as [->|Hb]; [reflexivity|].
  assert (Hd := N.div_mod b 8 ltac:(discriminate)). assert (Hm := N.mod_lt b 8 ltac:(discriminate)).
  destruct (N.eqb_spec (b mod 8) 0) as [E|E].
  - apply N.div_unique with 7; lia.
  - apply N.div_unique with (b mod 8 - 1); lia.
Qed.
