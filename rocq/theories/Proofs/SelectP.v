From Verif.Proofs Require Export BitTools2P.
Local Open Scope N_scope.

Lemma sub64_small a b : b <= a -> a < 2 ^ 64 -> sub64 a b = a - b.
Proof.
  intros H1 H2. unfold sub64. change (UINT64_MAX + 1) with (2 ^ 64).
  rewrite w64_mod. replace (a + (2 ^ 64 - b)) with (a - b + 1 * 2 ^ 64) by lia.
  rewrite N.mod_add by discriminate. apply N.mod_small. lia.
Qed.
Lemma dsum_sub n f g : (forall k, (k < n)%nat -> g k <= f k) ->
  dsum n g <= dsum n f /\ dsum n f - dsum n g = dsum n (fun k => f k - g k).
Proof.
  revert f g; induction n as [|n IH]; intros f g H; [simpl; lia|].
  simpl. destruct (IH (fun k => f (S k)) (fun k => g (S k))) as [H1 H2].
  - intros k Hk. apply H. lia.
  - assert (g O <= f O) by (apply H; lia). rewrite <- H2. lia.
Qed.

Definition psum (p : nat -> N) (k : nat) : N := fold_right N.add 0 (map p (seq 0 k)).
Lemma psum_S p k : psum p (S k) = psum p k + p k.
Proof.
  unfold psum. rewrite seq_S, map_app, fold_right_app. simpl.
  assert (E : forall l a, fold_right N.add a l = fold_right N.add 0 l + a).
  { induction l as [|b l IHl]; intros a; simpl; [reflexivity|]. rewrite (IHl a). lia. }
  rewrite E. lia.
Qed.
Lemma psum_0 p : psum p 0 = 0.
Proof. reflexivity. Qed.
Lemma psum_le p k : (forall j, p j <= 8) -> psum p k <= 8 * N.of_nat k.
Proof. intros H. induction k as [|k IH]; [rewrite psum_0; lia|]. rewrite psum_S. specialize (H k). lia. Qed.

Lemma mul_prefix p : (forall k, p k <= 8) ->
  mul64 0x0101010101010101 (dsum 8 p) = dsum 8 (fun k => psum p (S k)).
Proof.
  intros HB. unfold mul64. cbn [dsum]. rewrite !psum_S, psum_0.
  generalize (HB 0%nat) (HB 1%nat) (HB 2%nat) (HB 3%nat) (HB 4%nat) (HB 5%nat) (HB 6%nat) (HB 7%nat).
  generalize (p 0%nat) (p 1%nat) (p 2%nat) (p 3%nat) (p 4%nat) (p 5%nat) (p 6%nat) (p 7%nat).
  clear. intros p0 p1 p2 p3 p4 p5 p6 p7 H0 H1 H2 H3 H4 H5 H6 H7.
  rewrite w64_mod. symmetry. apply N.mod_unique with
    (p1+p2+p3+p4+p5+p6+p7 + 256*(p2+p3+p4+p5+p6+p7) + 65536*(p3+p4+p5+p6+p7)
     + 16777216*(p4+p5+p6+p7) + 4294967296*(p5+p6+p7) + 1099511627776*(p6+p7)
     + 281474976710656*p7); change (2^64) with 18446744073709551616; lia.
Qed.

Lemma ps_overflow_ok i : i <= 64 -> tget PS_OVERFLOW i = Ret (dsum 8 (fun _ => 128 - i)).
Proof.
  intros H. apply (tab_is_sound PS_OVERFLOW 65 (fun i => dsum 8 (fun _ => 128 - i))).
  - vm_compute. reflexivity.
  - lia.
Qed.

Definition sel_good (b t q : N) : bool :=
  (q <? 8) && N.testbit b q && (ones_below b q =? t).
Lemma lt_sel_ok b t : b < 256 -> t < ones_below b 8 ->
  exists q, tget LT_SEL (b + 256 * t) = Ret q /\ q < 8 /\ N.testbit b q = true /\ ones_below b q = t.
Proof.
  intros Hb Ht.
  assert (H : check_below 256 (fun b => check_below 8 (fun t =>
     if t <? ones_below b 8 then
       match tget LT_SEL (b + 256 * t) with Ret q => sel_good b t q | _ => false end
     else true)) = true) by (vm_compute; reflexivity).
  apply (check_below_sound _ _ b) in H; [|exact Hb]. cbv beta in H.
  assert (Ht8 : t < 8) by (pose proof (ones_below_le b 8); lia).
  apply (check_below_sound _ _ t) in H; [|exact Ht8]. cbv beta in H.
  rewrite (proj2 (N.ltb_lt _ _) Ht) in H.
  destruct (tget LT_SEL (b + 256 * t)) as [q| | | |]; try discriminate.
  unfold sel_good in H. rewrite !andb_true_iff in H. destruct H as [[H1 H2] H3].
  apply N.ltb_lt in H1. apply N.eqb_eq in H3. exists q. auto.
Qed.

(** the SWAR steps of select, per byte *)
Definition sw1 (b : N) := b - N.land (N.shiftr b 1) 0x55.
Definition sw2 (b : N) := N.land (sw1 b) 0x33 + N.land (N.shiftr (sw1 b) 2) 0x33.
Definition sw3 (b b' : N) :=
  N.land (b + N.lor (N.shiftr b 4) (N.land (N.shiftl b' 4) 255)) 0x0F.
Lemma sw_ok b : b < 256 ->
  N.land (N.shiftr b 1) 0x55 <= b /\ sw1 b < 256 /\ sw2 b < 69 /\ N.land (sw2 b) 15 < 5 /\
  N.land (sw2 b + N.shiftr (sw2 b) 4) 0x0F = ones_below b 8.
Proof.
  intros Hb. assert (H : check_below 256 (fun b =>
     (N.land (N.shiftr b 1) 0x55 <=? b) && (sw1 b <? 256) && (sw2 b <? 69) && (N.land (sw2 b) 15 <? 5)
     && (N.land (sw2 b + N.shiftr (sw2 b) 4) 0x0F =? ones_below b 8)) = true) by (vm_compute; reflexivity).
  apply (check_below_sound _ _ b) in H; [|exact Hb]. cbv beta in H.
  rewrite !andb_true_iff, !N.ltb_lt, N.leb_le, N.eqb_eq in H. tauto.
Qed.
Lemma sw3_ok b b' : b < 69 -> b' < 69 -> N.land b 15 < 5 -> N.land b' 15 < 5 ->
  b + N.lor (N.shiftr b 4) (N.land (N.shiftl b' 4) 255) < 256 /\
  sw3 b b' = N.land (b + N.shiftr b 4) 0x0F.
Proof.
  intros Hb Hb' H1 H2. assert (H : check_below 69 (fun b => check_below 69 (fun b' =>
     if (N.land b 15 <? 5) && (N.land b' 15 <? 5) then
       (b + N.lor (N.shiftr b 4) (N.land (N.shiftl b' 4) 255) <? 256) &&
       (sw3 b b' =? N.land (b + N.shiftr b 4) 0x0F) else true)) = true) by (vm_compute; reflexivity).
  apply (check_below_sound _ _ b) in H; [|exact Hb]. cbv beta in H.
  apply (check_below_sound _ _ b') in H; [|exact Hb']. cbv beta in H.
  rewrite (proj2 (N.ltb_lt _ _) H1), (proj2 (N.ltb_lt _ _) H2) in H. simpl in H.
  rewrite andb_true_iff, N.ltb_lt, N.eqb_eq in H. exact H.
Qed.

Lemma select_sums x : x < 2 ^ 64 ->
  let s := x in
  let s := sub64 s (N.land (shr s 1) 0x5555555555555555) in
  let s := add64 (N.land s 0x3333333333333333) (N.land (shr s 2) 0x3333333333333333) in
  let s := N.land (add64 s (shr s 4)) 0x0F0F0F0F0F0F0F0F in
  s = dsum 8 (fun k => ones_below (byte_ x (N.of_nat k)) 8).
Proof.
  intros Hx. cbv zeta. set (f := fun k => byte_ x (N.of_nat k)).
  assert (Ex : x = dsum 8 f) by (apply (dsum_bytes 8); exact Hx).
  assert (Hf : forall k, f k < 256) by (intros; apply byte_lt).
  change 0x5555555555555555 with (dsum 8 (fun _ => 0x55)).
  change 0x3333333333333333 with (dsum 8 (fun _ => 0x33)).
  change 0x0F0F0F0F0F0F0F0F with (dsum 8 (fun _ => 0x0F)).
  assert (E1 : sub64 x (N.land (shr x 1) (dsum 8 (fun _ => 0x55))) = dsum 8 (fun k => sw1 (f k))).
  { unfold shr. assert (E : N.land (N.shiftr x 1) (dsum 8 (fun _ => 0x55))
       = dsum 8 (fun k => N.land (N.shiftr (f k) 1) 0x55)).
    { rewrite Ex at 1. apply dsum_shr_mask; [lia|auto|reflexivity]. }
    rewrite E. destruct (dsum_sub 8 f (fun k => N.land (N.shiftr (f k) 1) 0x55)) as [H1 H2].
    { intros k _. apply sw_ok, Hf. }
    rewrite <- Ex in H1, H2. rewrite sub64_small by assumption. exact H2. }
  rewrite E1. clear E1.
  assert (Hs1 : forall k, sw1 (f k) < 256) by (intros; apply sw_ok, Hf).
  assert (Hs2 : forall k, sw2 (f k) < 69) by (intros; apply sw_ok, Hf).
  assert (Hs2' : forall k, N.land (sw2 (f k)) 15 < 5) by (intros; apply sw_ok, Hf).
  assert (E2 : add64 (N.land (dsum 8 (fun k => sw1 (f k))) (dsum 8 (fun _ => 0x33)))
     (N.land (shr (dsum 8 (fun k => sw1 (f k))) 2) (dsum 8 (fun _ => 0x33))) =
     dsum 8 (fun k => sw2 (f k))).
  { unfold shr. rewrite dsum_shr_mask by (auto; try reflexivity; lia).
    rewrite dsum_land by (auto; intros; reflexivity). unfold add64. rewrite dsum_add.
    apply w64_small, (dsum_lt 8). intros k _. pose proof (Hs2 k). unfold sw2 in *. lia. }
  rewrite E2. clear E2. unfold shr.
  assert (Hs2'' : forall k : nat, (k < 8)%nat -> sw2 (f k) < 256) by (intros k _; pose proof (Hs2 k); lia).
  rewrite dsum_shr by (assumption || lia). unfold add64. rewrite dsum_add.
  assert (HB : forall k, sw2 (f k) + N.lor (N.shiftr (sw2 (f k)) 4)
       (if (S k <? 8)%nat then N.land (N.shiftl (sw2 (f (S k))) (8 - 4)) 255 else 0) < 256 /\
     N.land (sw2 (f k) + N.lor (N.shiftr (sw2 (f k)) 4)
       (if (S k <? 8)%nat then N.land (N.shiftl (sw2 (f (S k))) (8 - 4)) 255 else 0)) 0x0F
     = ones_below (f k) 8).
  { intros k. change (8 - 4) with 4. destruct (S k <? 8)%nat.
    - destruct (sw3_ok (sw2 (f k)) (sw2 (f (S k)))) as [H1 H2]; auto.
      split; [exact H1|]. unfold sw3 in H2. rewrite H2. apply sw_ok, Hf.
    - destruct (sw3_ok (sw2 (f k)) 0) as [H1 H2]; auto; try reflexivity.
      change (N.land (N.shiftl 0 4) 255) with 0 in H1. split; [exact H1|].
      unfold sw3 in H2. change (N.land (N.shiftl 0 4) 255) with 0 in H2.
      rewrite H2. apply sw_ok, Hf. }
  rewrite w64_small by (apply (dsum_lt 8); intros k _; apply HB).
  rewrite dsum_land by (intros; try apply HB; reflexivity).
  apply dsum_ext. intros k _. apply HB.
Qed.

Lemma bit_on_pow2 b k : bit_on b (2 ^ k) = N.testbit b k.
Proof.
  unfold bit_on. destruct (N.testbit b k) eqn:E.
  - apply negb_true_iff, N.eqb_neq. intros H.
    apply (f_equal (fun y => N.testbit y k)) in H.
    rewrite N.land_spec, E, N.pow2_bits_true, N.bits_0 in H. discriminate.
  - apply negb_false_iff, N.eqb_eq. apply N.bits_inj_0. intros n.
    rewrite N.land_spec. destruct (N.eq_dec k n) as [->|Hne]; [rewrite E; reflexivity|].
    rewrite N.pow2_bits_false by exact Hne. apply andb_false_r.
Qed.
Lemma dsum_byte n f k : (forall k, (k < n)%nat -> f k < 256) -> (k < n)%nat ->
  byte_ (dsum n f) (N.of_nat k) = f k.
Proof.
  intros Hf Hk. apply N.bits_inj. intros i. rewrite byte_testbit, dsum_testbit by exact Hf.
  destruct (N.ltb_spec i 8) as [Hi|Hi].
  - replace ((i + 8 * N.of_nat k) / 8) with (N.of_nat k) by (apply N.div_unique with i; lia).
    replace ((i + 8 * N.of_nat k) mod 8) with i by (apply N.mod_unique with (N.of_nat k); lia).
    rewrite Nat2N.id, andb_true_r. destruct (N.ltb_spec (N.of_nat k) (N.of_nat n)); [reflexivity|lia].
  - rewrite andb_false_r. symmetry. apply (testbit_high (f k) 8); [apply Hf, Hk|exact Hi].
Qed.
Lemma shr_ff00 s k : N.land (shr s (8 * k)) 0xFF00 = 256 * byte_ s (k + 1).
Proof.
  apply N.bits_inj. intros i. rewrite N.land_spec, shr_testbit.
  rewrite (N.mul_comm 256). change 256 with (2 ^ 8).
  change 0xFF00 with (N.ones 8 * 2 ^ 8).
  destruct (N.lt_ge_cases i 8) as [Hi|Hi].
  - rewrite !N.mul_pow2_bits_low by exact Hi. apply andb_false_r.
  - rewrite !N.mul_pow2_bits_high by exact Hi. rewrite byte_testbit, ones_testbit.
    do 2 f_equal. lia.
Qed.

Lemma select_finish x i j (f := fun k => byte_ x (N.of_nat k))
  (P := fun k => psum (fun k => ones_below (f k) 8) k) :
  x < 2 ^ 64 -> (j < 8)%nat -> P j < i -> i <= P (S j) ->
  exists q, tget LT_SEL (byte_ x (N.of_nat j) + 256 * (i - 1 - P j)) = Ret q /\
    8 * N.of_nat j + q < 64 /\ N.testbit x (8 * N.of_nat j + q) = true /\
    ones_below x (8 * N.of_nat j + q) = i - 1.
Proof.
  intros Hx Hj H1 H2.
  assert (Ex : x = dsum 8 f) by (apply (dsum_bytes 8); exact Hx).
  assert (Hf : forall k, f k < 256) by (intros; apply byte_lt).
  unfold P in H2. rewrite psum_S in H2. fold (P j) in H2.
  destruct (lt_sel_ok (f j) (i - 1 - P j)) as (q & Hq & Hq8 & Hb & Ho); [apply Hf|lia|].
  exists q. split; [exact Hq|]. split; [lia|].
  assert (Hsh : forall r, r < 8 -> N.testbit x (8 * N.of_nat j + r) = N.testbit (f j) r).
  { intros r Hr. unfold f. rewrite byte_testbit, (proj2 (N.ltb_lt _ _) Hr), andb_true_r.
    f_equal. lia. }
  split; [rewrite Hsh by lia; exact Hb|].
  rewrite ones_below_add. replace (ones_below x (8 * N.of_nat j)) with (P j).
  - rewrite (ones_below_ext _ (f j)); [lia|]. intros r Hr. rewrite N.shiftr_spec', N.add_comm.
    apply Hsh. lia.
  - rewrite Ex. symmetry. apply (dsum_ones_below 8 f j); [auto|lia].
Qed.

Lemma select_idx b i Pj : b < 256 -> Pj < i -> i <= Pj + 8 -> i <= 64 ->
  N.land (sub64 (add64 b (shl (sub64 i 1) 8)) (256 * Pj)) 0x7FF = b + 256 * (i - 1 - Pj).
Proof.
  intros Hb H1 H2 H3. assert (E64 : 2 ^ 64 = 18446744073709551616) by reflexivity.
  rewrite (sub64_small i 1) by lia.
  rewrite shl_mul by (change (2 ^ 8) with 256; lia). change (2 ^ 8) with 256.
  unfold add64. rewrite w64_small by lia. rewrite sub64_small by lia.
  change 0x7FF with (N.ones 11). rewrite N.land_ones. rewrite N.mod_small; [lia|].
  change (2 ^ 11) with 2048. lia.
Qed.

Lemma select_ok x i : x < 2 ^ 64 -> 1 <= i -> i <= ones_below x 64 ->
  exists p, select x i = Ret p /\ p < 64 /\ N.testbit x p = true /\ ones_below x p = i - 1.
Proof.
  intros Hx Hi1 Hi2.
  assert (Hi64 : i <= 64) by (pose proof (ones_below_le x 64); lia).
  set (f := fun k => byte_ x (N.of_nat k)).
  set (p := fun k => ones_below (f k) 8).
  assert (Ex : x = dsum 8 f) by (apply (dsum_bytes 8); exact Hx).
  assert (Hp : forall k, p k <= 8) by (intros; apply ones_below_le).
  assert (HP8 : ones_below x 64 = psum p 8).
  { rewrite Ex. apply (dsum_ones_below 8 f 8); [intros; apply byte_lt|lia]. }
  unfold select. rewrite assert_true by (apply negb_true_iff, N.eqb_neq; lia).
  rewrite bind_ret.
  assert (Hs := select_sums x Hx). cbv zeta in Hs |- *. rewrite Hs. clear Hs.
  fold p. change (fun k : nat => ones_below (byte_ x (N.of_nat k)) 8) with p.
  rewrite mul_prefix by exact Hp.
  rewrite ps_overflow_ok by exact Hi64. rewrite bind_ret. cbv beta zeta.
  pose (P := fun k => psum p k).
  assert (HPle : forall k, P k <= 8 * N.of_nat k) by (intros; apply psum_le, Hp).
  assert (HP0 : P 0%nat = 0) by reflexivity.
  assert (HPS : forall k, P (S k) = P k + p k) by (intros; apply psum_S).
  set (s := dsum 8 (fun k => psum p (S k))).
  assert (HsB : forall k, (k < 8)%nat -> psum p (S k) < 256).
  { intros k Hk. specialize (HPle (S k)). unfold P in HPle. lia. }
  assert (Hsb : forall k, (k < 8)%nat -> byte_ s (N.of_nat k) = P (S k)).
  { intros k Hk. unfold s, P. apply (dsum_byte 8 (fun k => psum p (S k))); assumption. }
  assert (Eb : add64 s (dsum 8 (fun _ => 128 - i)) = dsum 8 (fun k => P (S k) + (128 - i))).
  { unfold s. rewrite <- dsum_add. unfold add64. apply w64_small. rewrite dsum_add.
    apply (dsum_lt 8). intros k Hk. specialize (HPle (S k)). lia. }
  rewrite Eb.
  assert (HD : forall k, (k < 8)%nat -> P (S k) + (128 - i) < 256).
  { intros k Hk. specialize (HPle (S k)). lia. }
  assert (Hbit : forall k, (k < 8)%nat ->
     bit_on (dsum 8 (fun k => P (S k) + (128 - i))) (2 ^ (8 * N.of_nat k + 7)) = (i <=? P (S k))).
  { intros k Hk. rewrite bit_on_pow2, dsum_testbit by exact HD.
    replace ((8 * N.of_nat k + 7) / 8) with (N.of_nat k) by (apply N.div_unique with 7; lia).
    replace ((8 * N.of_nat k + 7) mod 8) with 7 by (apply N.mod_unique with (N.of_nat k); lia).
    rewrite Nat2N.id. destruct (N.ltb_spec (N.of_nat k) (N.of_nat 8)); [|lia]. rewrite andb_true_l.
    specialize (HD k Hk). destruct (N.leb_spec i (P (S k))) as [Hle|Hgt].
    - rewrite N.testbit_true. replace ((P (S k) + (128 - i)) / 2 ^ 7) with 1; [reflexivity|].
      apply N.div_unique with (P (S k) - i); change (2 ^ 7) with 128; lia.
    - apply (testbit_high _ 7); [change (2^7) with 128; lia|lia]. }
  change 0x0000000000000080 with (2 ^ (8 * N.of_nat 0 + 7)).
  change 0x0000000000008000 with (2 ^ (8 * N.of_nat 1 + 7)).
  change 0x0000000000800000 with (2 ^ (8 * N.of_nat 2 + 7)).
  change 0x0000000080000000 with (2 ^ (8 * N.of_nat 3 + 7)).
  change 0x0000008000000000 with (2 ^ (8 * N.of_nat 4 + 7)).
  change 0x0000800000000000 with (2 ^ (8 * N.of_nat 5 + 7)).
  change 0x0080000000000000 with (2 ^ (8 * N.of_nat 6 + 7)).
  rewrite !Hbit by lia.
  assert (Hfin : forall j, (j < 8)%nat -> P j < i -> i <= P (S j) ->
     exists pp, (let* r := tget LT_SEL (N.land (sub64 (add64 (N.land (shr x (8 * N.of_nat j)) 0xFF)
          (shl (sub64 i 1) 8)) (256 * P j)) 0x7FF) in Ret (8 * N.of_nat j + r)) = Ret pp
       /\ pp < 64 /\ N.testbit x pp = true /\ ones_below x pp = i - 1).
  { intros j Hj H1 H2. change (N.land (shr x (8 * N.of_nat j)) 255) with (byte_ x (N.of_nat j)).
    rewrite select_idx; [|apply byte_lt|assumption|rewrite HPS in H2; specialize (Hp j); lia|assumption].
    destruct (select_finish x i j Hx Hj H1 H2) as (q & Hq & Hrest).
    unfold P, p, f. rewrite Hq, bind_ret. eexists; split; [reflexivity|]. exact Hrest. }
  assert (Hmono : forall a b, (a <= b)%nat -> P a <= P b).
  { intros a b Hab. induction Hab; [lia|]. rewrite HPS. lia. }
  rewrite HP8 in Hi2. fold (P 8%nat) in Hi2.
  assert (Hff : forall k, (k < 7)%nat -> N.land (shr s (8 * N.of_nat k)) 0xFF00 = 256 * P (S (S k))).
  { intros k Hk. rewrite shr_ff00. rewrite <- (Hsb (S k)) by lia. do 2 f_equal. lia. }
  destruct (N.leb_spec i (P 4%nat)); [destruct (N.leb_spec i (P 2%nat)); [destruct (N.leb_spec i (P 1%nat))|destruct (N.leb_spec i (P 3%nat))]|
    destruct (N.leb_spec i (P 6%nat)); [destruct (N.leb_spec i (P 5%nat))|destruct (N.leb_spec i (P 7%nat))]].
  - destruct (select_finish x i 0 Hx) as (q & Hq & Hrest);
      [lia|exact (N.lt_le_trans _ _ _ N.lt_0_1 Hi1)|assumption|].
    exists q. split; [|replace q with (8 * N.of_nat 0 + q) by lia; exact Hrest].
    rewrite <- Hq. f_equal.
    rewrite (sub64_small i 1) by (assert (E64 : 2 ^ 64 = 18446744073709551616) by reflexivity; lia).
    assert (E64 : 2 ^ 64 = 18446744073709551616) by reflexivity.
    rewrite shl_mul by (change (2 ^ 8) with 256; lia).
    change (N.land x 255) with (byte_ x (N.of_nat 0)).
    pose proof (byte_lt x (N.of_nat 0)). change (2 ^ 8) with 256.
    unfold add64. rewrite w64_small by lia. rewrite psum_0. lia.
  - assert (E : shl (N.land s 0xFF) 8 = 256 * P 1%nat).
    { change (N.land s 255) with (byte_ s (N.of_nat 0)). rewrite Hsb by lia.
      specialize (HPle 1%nat). rewrite shl_mul; change (2 ^ 8) with 256; [lia|].
      assert (E64 : 2 ^ 64 = 18446744073709551616) by reflexivity. lia. }
    rewrite E. exact (Hfin 1%nat ltac:(lia) H1 H0).
  - assert (E : N.land s 0xFF00 = 256 * P 2%nat) by exact (Hff 0%nat ltac:(lia)).
    rewrite E. exact (Hfin 2%nat ltac:(lia) H0 H1).
  - assert (E : N.land (shr s 8) 0xFF00 = 256 * P 3%nat) by exact (Hff 1%nat ltac:(lia)).
    rewrite E. exact (Hfin 3%nat ltac:(lia) H1 H).
  - assert (E : N.land (shr s 16) 0xFF00 = 256 * P 4%nat) by exact (Hff 2%nat ltac:(lia)).
    rewrite E. exact (Hfin 4%nat ltac:(lia) H H1).
  - assert (E : N.land (shr s 24) 0xFF00 = 256 * P 5%nat) by exact (Hff 3%nat ltac:(lia)).
    rewrite E. exact (Hfin 5%nat ltac:(lia) H1 H0).
  - assert (E : N.land (shr s 32) 0xFF00 = 256 * P 6%nat) by exact (Hff 4%nat ltac:(lia)).
    rewrite E. exact (Hfin 6%nat ltac:(lia) H0 H1).
  - assert (E : N.land (shr s 40) 0xFF00 = 256 * P 7%nat) by exact (Hff 5%nat ltac:(lia)).
    rewrite E. exact (Hfin 7%nat ltac:(lia) H1 Hi2).
Qed.
