From Verif.Model Require Export BitToolsSse.
From Verif.Proofs Require Export SelectP.
Local Open Scope N_scope.

Lemma ones_below_shift x n : ones_below x (1 + n) = (if N.testbit x 0 then 1 else 0) + ones_below (N.shiftr x 1) n.
Proof.
  rewrite ones_below_add. f_equal. unfold ones_below. change (seq 0 (N.to_nat 1)) with [0%nat]. cbn [List.filter filter list_filter].
  change (N.of_nat 0) with 0. destruct (N.testbit x 0); reflexivity.
Qed.
Lemma popcount_ok x n : x < 2 ^ n -> builtin_popcount x = ones_below x n.
Proof.
  assert (Z : forall n, ones_below 0 n = 0).
  { intros m. induction m as [|m IH] using N.peano_ind; [reflexivity|].
    rewrite <- N.add_1_l, ones_below_shift. change (N.shiftr 0 1) with 0. rewrite IH. reflexivity. }
  destruct x as [|p]; [intros _; rewrite Z; reflexivity|]. cbn [builtin_popcount]. revert n.
  induction p as [p IH|p IH|]; intros n H.
  - destruct (N.eq_dec n 0) as [->|Hn]; [change (2 ^ 0) with 1 in H; lia|].
    replace n with (1 + (n - 1)) in * by lia. rewrite ones_below_shift. cbn [pos_popcount].
    rewrite (IH (n - 1)); [reflexivity|]. rewrite N.pow_add_r in H. change (2 ^ 1) with 2 in H. lia.
  - destruct (N.eq_dec n 0) as [->|Hn]; [change (2 ^ 0) with 1 in H; lia|].
    replace n with (1 + (n - 1)) in * by lia. rewrite ones_below_shift. cbn [pos_popcount].
    rewrite (IH (n - 1)); [reflexivity|]. rewrite N.pow_add_r in H. change (2 ^ 1) with 2 in H. lia.
  - destruct (N.eq_dec n 0) as [->|Hn]; [change (2 ^ 0) with 1 in H; lia|].
    replace n with (1 + (n - 1)) by lia. rewrite ones_below_shift. change (N.shiftr 1 1) with 0. rewrite Z. reflexivity.
Qed.
Lemma ctz_ok p : N.testbit (Npos p) (pos_ctz p) = true /\ forall i, i < pos_ctz p -> N.testbit (Npos p) i = false.
Proof.
  induction p as [p IH|p [IH1 IH2]|]; cbn [pos_ctz].
  - split; [reflexivity|]. lia.
  - change (N.pos p~0) with (2 * N.pos p). split.
    + rewrite N.add_1_l, N.testbit_even_succ by lia. exact IH1.
    + intros i Hi. destruct (N.eq_dec i 0) as [->|Hn]; [apply N.testbit_even_0|].
      replace i with (N.succ (i - 1)) by lia. rewrite N.testbit_even_succ by lia. apply IH2. lia.
  - split; [reflexivity|]. lia.
Qed.
Lemma clz_ok x : x <> 0 -> builtin_clzll x = Ret (63 - N.log2 x).
Proof.
  intros H. destruct x as [|p]; [congruence|]. cbn [builtin_clzll]. f_equal.
  assert (E : N.pos (Pos.size p) = N.log2 (N.pos p) + 1).
  { rewrite N.add_1_r. destruct p; [| |reflexivity]; cbn; reflexivity. }
  rewrite E. lia.
Qed.
Lemma msb_sse_ok x : x < 2 ^ 64 -> msb_sse x = msb x.
Proof.
  intros Hx. rewrite msb_ok by exact Hx. unfold msb_sse. destruct (N.eqb_spec x 0) as [->|Hn]; [reflexivity|].
  rewrite clz_ok, bind_ret by exact Hn. f_equal.
  assert (N.log2 x < 64) by (apply N.log2_lt_pow2; lia). lia.
Qed.
Lemma ceil_log2_sse_ok x : x < 2 ^ 64 -> ceil_log2_sse x = ceil_log2 x.
Proof. intros Hx. unfold ceil_log2_sse, ceil_log2. rewrite msb_sse_ok by lia. reflexivity. Qed.
Lemma popcnt_sse_ok w x : w = 8 \/ w = 16 \/ w = 32 \/ w = 64 -> x < 2 ^ w -> popcnt_sse w x = popcnt w x.
Proof.
  intros Hw Hx. rewrite popcnt_ok by assumption.
  destruct Hw as [->|[->|[->| ->]]]; unfold popcnt_sse; cbn [N.eqb Pos.eqb].
  - apply popcnt8_ok, Hx.
  - apply popcnt16_ok, Hx.
  - rewrite (popcount_ok x 32 Hx). reflexivity.
  - rewrite (popcount_ok x 64 Hx). reflexivity.
Qed.
Lemma popcnt_masked_sse_ok w x i : w = 8 \/ w = 16 \/ w = 32 \/ w = 64 -> x < 2 ^ w -> popcnt_masked_sse w x i = popcnt_masked w x i.
Proof.
  intros Hw Hx. unfold popcnt_masked_sse, popcnt_masked. destruct (assert_ (i <? w)) as [[]| | | |]; try reflexivity. cbn [bind].
  apply popcnt_sse_ok; [exact Hw|]. apply N.le_lt_trans with x; [|exact Hx].
  destruct (N.eq_dec (N.land x (sub64 (shl 1 i) 1)) 0) as [E|E]; [rewrite E; lia|].
  apply N.ldiff_le. apply N.bits_inj_0. intros n. rewrite N.ldiff_spec, N.land_spec.
  destruct (N.testbit x n); [apply andb_false_r|reflexivity].
Qed.

Lemma select_sse_do x i : x < 2 ^ 64 -> 1 <= i -> i <= 64 ->
  (i <= ones_below x 64 -> exists p, select_sse x i = Ret p /\ p < 64 /\ N.testbit x p = true /\ ones_below x p = i - 1) /\
  (ones_below x 64 < i -> select_sse x i = UB).
Proof.
  intros Hx Hi1 Hi64.
  set (f := fun k => byte_ x (N.of_nat k)).
  set (p := fun k => ones_below (f k) 8).
  assert (Ex : x = dsum 8 f) by (apply (dsum_bytes 8); exact Hx).
  assert (Hp : forall k, p k <= 8) by (intros; apply ones_below_le).
  assert (HP8 : ones_below x 64 = psum p 8).
  { rewrite Ex. apply (dsum_ones_below 8 f 8); [intros; apply byte_lt|lia]. }
  unfold select_sse. rewrite assert_true by (apply negb_true_iff, N.eqb_neq; lia).
  rewrite bind_ret.
  assert (Hs := select_sums x Hx). cbv zeta in Hs |- *. rewrite Hs. clear Hs.
  fold p. change (fun k : nat => ones_below (byte_ x (N.of_nat k)) 8) with p.
  rewrite mul_prefix by exact Hp.
  rewrite ps_overflow_ok by exact Hi64. rewrite bind_ret. cbv beta zeta.
  pose (P := fun k => psum p k).
  assert (HPle : forall k, P k <= 8 * N.of_nat k) by (intros; apply psum_le, Hp).
  assert (HPS : forall k, P (S k) = P k + p k) by (intros; apply psum_S).
  set (s := dsum 8 (fun k => psum p (S k))).
  assert (HsB : forall k, (k < 8)%nat -> psum p (S k) < 256).
  { intros k Hk. specialize (HPle (S k)). unfold P in HPle. lia. }
  assert (Hsb : forall k, (k < 8)%nat -> byte_ s (N.of_nat k) = P (S k)).
  { intros k Hk. unfold s, P. apply (dsum_byte 8 (fun k => psum p (S k))); assumption. }
  assert (Hs64 : s < 2 ^ 64) by (apply (dsum_lt 8); exact HsB).
  assert (Eb : add64 s (dsum 8 (fun _ => 128 - i)) = dsum 8 (fun k => P (S k) + (128 - i))).
  { unfold s. rewrite <- dsum_add. unfold add64. apply w64_small. rewrite dsum_add.
    apply (dsum_lt 8). intros k Hk. specialize (HPle (S k)). lia. }
  rewrite Eb.
  assert (HD : forall k, (k < 8)%nat -> P (S k) + (128 - i) < 256).
  { intros k Hk. specialize (HPle (S k)). lia. }
  set (b := N.land (dsum 8 (fun k => P (S k) + (128 - i))) 0x8080808080808080).
  assert (Hb : forall n, N.testbit b n = ((n / 8 <? 8) && (n mod 8 =? 7) && (i <=? P (S (N.to_nat (n / 8)))))).
  { intros n. unfold b. change 0x8080808080808080 with (dsum 8 (fun _ => 0x80)).
    rewrite N.land_spec, !dsum_testbit by (exact HD || (intros; reflexivity)). change (N.of_nat 8) with 8.
    destruct (N.ltb_spec (n / 8) 8) as [Hn|Hn]; [|reflexivity]. cbn [andb].
    destruct (N.eqb_spec (n mod 8) 7) as [E|E].
    - rewrite E. change (N.testbit 0x80 7) with true. rewrite andb_true_r. cbn [andb]. specialize (HD (N.to_nat (n / 8)) ltac:(lia)).
      destruct (N.leb_spec i (P (S (N.to_nat (n / 8))))) as [Hle|Hgt].
      + rewrite N.testbit_true. replace ((P (S (N.to_nat (n / 8))) + (128 - i)) / 2 ^ 7) with 1; [reflexivity|].
        apply N.div_unique with (P (S (N.to_nat (n / 8))) - i); change (2 ^ 7) with 128; lia.
      + apply (testbit_high _ 7); [change (2^7) with 128; lia|lia].
    - replace (N.testbit 0x80 (n mod 8)) with false by (change 0x80 with (2 ^ 7); rewrite N.pow2_bits_false by congruence; reflexivity).
      rewrite andb_false_r. reflexivity. }
  assert (Hmono : forall a b, (a <= b)%nat -> P a <= P b).
  { intros a c Hac. induction Hac; [lia|]. rewrite HPS. lia. }
  rewrite HP8. fold (P 8%nat). split.
  - intros Hi2.
    assert (Hj : exists j, (j < 8)%nat /\ P j < i /\ i <= P (S j)).
    { assert (H : forall n, i <= P n -> exists j, (j < n)%nat /\ P j < i /\ i <= P (S j)).
      { induction n as [|n IH]; intros H; [exfalso; unfold P in H; rewrite psum_0 in H; lia|].
        destruct (N.lt_ge_cases (P n) i) as [H0|H0]; [exists n; auto with lia|].
        destruct (IH H0) as (j & H1 & H2). exists j. auto with lia. }
      apply H, Hi2. }
    destruct Hj as (j & Hj8 & Hj1 & Hj2).
    assert (Hz : builtin_ctzll b = Ret (8 * N.of_nat j + 7)).
    { assert (Hset : N.testbit b (8 * N.of_nat j + 7) = true).
      { rewrite Hb. replace ((8 * N.of_nat j + 7) / 8) with (N.of_nat j) by (apply N.div_unique with 7; lia).
        replace ((8 * N.of_nat j + 7) mod 8) with 7 by (apply N.mod_unique with (N.of_nat j); lia).
        rewrite Nat2N.id, (proj2 (N.leb_le _ _) Hj2), (proj2 (N.ltb_lt _ _)) by lia. reflexivity. }
      destruct b as [|q]; [discriminate|]. cbn [builtin_ctzll]. f_equal. destruct (ctz_ok q) as [C1 C2].
      destruct (N.lt_trichotomy (pos_ctz q) (8 * N.of_nat j + 7)) as [Hlt|[He|Hgt]]; [|exact He|].
      - exfalso. rewrite Hb in C1. rewrite !andb_true_iff in C1. destruct C1 as [[_ C3] C4].
        apply N.eqb_eq in C3. apply N.leb_le in C4. pose proof (N.div_mod (pos_ctz q) 8 ltac:(discriminate)) as Hdm.
        set (d := pos_ctz q / 8) in *. rewrite C3 in Hdm. assert (Hd : d < N.of_nat j) by lia.
        pose proof (Hmono (S (N.to_nat d)) j ltac:(lia)). lia.
      - rewrite (C2 _ Hgt) in Hset. discriminate. }
    rewrite Hz, bind_ret.
    assert (E3 : shr (8 * N.of_nat j + 7) 3 = N.of_nat j).
    { unfold shr. rewrite N.shiftr_div_pow2. symmetry. apply N.div_unique with 7; change (2 ^ 3) with 8; lia. }
    rewrite E3. assert (E64 : 2 ^ 64 = 18446744073709551616) by reflexivity.
    assert (E4 : shl (N.of_nat j) 3 = 8 * N.of_nat j) by (rewrite shl_mul; change (2 ^ 3) with 8; lia). rewrite E4.
    assert (E5 : N.land (shr (shl s 8) (8 * N.of_nat j)) 255 = P j).
    { change (N.land (shr (shl s 8) (8 * N.of_nat j)) 255) with (byte_ (shl s 8) (N.of_nat j)).
      assert (Hbits : forall n, N.testbit (byte_ (shl s 8) (N.of_nat j)) n = N.testbit (P j) n).
      { intros n. rewrite byte_testbit. destruct (N.ltb_spec n 8) as [Hn|Hn].
        - rewrite andb_true_r. unfold shl. unfold w64. rewrite N.land_spec. change UINT64_MAX with (N.ones 64).
          rewrite N.ones_spec_low by lia. rewrite andb_true_r.
          destruct j as [|j].
          + rewrite N.shiftl_spec_low by lia. unfold P. rewrite psum_0, N.bits_0. reflexivity.
          + rewrite N.shiftl_spec_high' by lia. rewrite <- (Hsb j) by lia. rewrite byte_testbit.
            rewrite (proj2 (N.ltb_lt _ _) Hn), andb_true_r. f_equal. lia.
        - rewrite andb_false_r. symmetry. apply (testbit_high _ 8); [|exact Hn]. specialize (HPle j). change (2 ^ 8) with 256. lia. }
      apply N.bits_inj. exact Hbits. }
    rewrite E5. rewrite (sub64_small i (P j)) by lia. rewrite (sub64_small (i - P j) 1) by lia.
    rewrite shl_mul by (change (2 ^ 8) with 256; lia). change (2 ^ 8) with 256.
    change (N.land (shr x (8 * N.of_nat j)) 255) with (byte_ x (N.of_nat j)).
    pose proof (byte_lt x (N.of_nat j)) as Hbl. unfold add64. rewrite w64_small by lia.
    destruct (select_finish x i j Hx Hj8 Hj1 Hj2) as (q & Hq & Hrest).
    replace ((i - P j - 1) * 256 + byte_ x (N.of_nat j)) with (byte_ x (N.of_nat j) + 256 * (i - 1 - P j)) by lia.
    unfold P, p, f in Hq |- *. rewrite Hq, bind_ret. eexists. split; [reflexivity|]. exact Hrest.
  - intros Hi2. assert (Hz : b = 0).
    { apply N.bits_inj_0. intros n. rewrite Hb. destruct (N.ltb_spec (n / 8) 8) as [Hn|Hn]; [|reflexivity].
      destruct (N.leb_spec i (P (S (N.to_nat (n / 8))))) as [Hle|_]; [|apply andb_false_r].
      exfalso. pose proof (Hmono (S (N.to_nat (n / 8))) 8%nat ltac:(lia)). lia. }
    rewrite Hz. reflexivity.
Qed.
Lemma select_position x p q : N.testbit x p = true -> N.testbit x q = true -> ones_below x p = ones_below x q -> p = q.
Proof.
  assert (H : forall p q, p < q -> N.testbit x p = true -> ones_below x p < ones_below x q).
  { clear. intros p q Hpq Hp. replace q with (p + (1 + (q - p - 1))) by lia. rewrite ones_below_add, ones_below_shift.
    rewrite N.shiftr_spec' , N.add_0_l, Hp. lia. }
  intros Hp Hq E. destruct (N.lt_trichotomy p q) as [Hlt|[He|Hgt]]; [|exact He|].
  - pose proof (H p q Hlt Hp). lia.
  - pose proof (H q p Hgt Hq). lia.
Qed.
Lemma select_sse_ok x i : x < 2 ^ 64 -> 1 <= i -> i <= ones_below x 64 -> select_sse x i = select x i.
Proof.
  intros Hx H1 H2. assert (Hi64 : i <= 64) by (pose proof (ones_below_le x 64); lia).
  destruct (proj1 (select_sse_do x i Hx H1 Hi64) H2) as (p & -> & _ & Hp & Ep).
  destruct (select_ok x i Hx H1 H2) as (q & -> & _ & Hq & Eq). f_equal.
  apply (select_position x); congruence.
Qed.
