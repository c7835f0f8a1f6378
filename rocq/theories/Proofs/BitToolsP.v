From Verif.Proofs Require Export BaseP.
From Verif.Model Require Export BitTools.
From Verif.Props Require Export Spec.
Local Open Scope N_scope.

(** ** Lifting a finite check over [0, n) to a universally quantified statement. *)
Definition check_below (n : nat) (p : N -> bool) : bool :=
  forallb (fun k => p (N.of_nat k)) (seq 0 n).
Lemma check_below_sound n p x :
  check_below n p = true -> x < N.of_nat n -> p x = true.
Proof.
  unfold check_below. rewrite forallb_forall. intros H Hx.
  specialize (H (N.to_nat x)). rewrite N2Nat.id in H. apply H.
  apply in_seq. lia.
Qed.

(** ** get_bit / set_bit *)
Lemma land_pow2_testbit x i : i < 64 ->
  negb (N.land x (shl 1 i) =? 0) = N.testbit x i.
Proof.
  intros Hi. destruct (N.testbit x i) eqn:E.
  - apply negb_true_iff, N.eqb_neq. intros H.
    apply (f_equal (fun y => N.testbit y i)) in H.
    rewrite N.land_spec, E, shl_testbit, N.bits_0, N.sub_diag in H. simpl in H.
    rewrite N.leb_refl in H. simpl in H. apply N.ltb_nlt in H. lia.
  - apply negb_false_iff, N.eqb_eq. apply N.bits_inj_0. intros n.
    rewrite N.land_spec, shl_testbit.
    destruct (N.eq_dec n i) as [->|Hne]; [rewrite E; reflexivity|].
    destruct (N.leb_spec i n); [|simpl; apply andb_false_r].
    replace (N.testbit 1 (n - i)) with false; [simpl; apply andb_false_r|].
    destruct (n - i) eqn:En; [lia|]. reflexivity.
Qed.
Lemma shl1_testbit i n : i < 64 -> N.testbit (shl 1 i) n = (n =? i).
Proof.
  intros Hi. rewrite shl_testbit. destruct (N.eqb_spec n i) as [->|Hne].
  - rewrite N.leb_refl, N.sub_diag. simpl. apply N.ltb_lt, Hi.
  - destruct (N.leb_spec i n); [|reflexivity].
    destruct (n - i) eqn:En; [lia|]. reflexivity.
Qed.
Lemma get_bit_ok w x i : i < w -> w <= 64 -> get_bit w x i = Ret (N.testbit x i).
Proof.
  intros Hi Hw. unfold get_bit. rewrite assert_true by (apply N.ltb_lt, Hi).
  simpl. rewrite land_pow2_testbit by lia. reflexivity.
Qed.
Lemma set_bit_ok w x i b : i < w -> w <= 64 -> x < 2 ^ w ->
  exists y, set_bit w x i b = Ret y /\ y < 2 ^ w /\
    forall n, N.testbit y n = if n =? i then b else N.testbit x n.
Proof.
  intros Hi Hw Hx. unfold set_bit. rewrite assert_true by (apply N.ltb_lt, Hi).
  eexists; split; [reflexivity|].
  assert (Hb : forall n, N.testbit
     (if b then N.lor x (shl 1 i) else N.land x (not64 (shl 1 i))) n
     = if n =? i then b else N.testbit x n).
  { intros n. destruct b.
    - rewrite N.lor_spec, shl1_testbit by lia.
      destruct (N.eqb_spec n i) as [->|]; [apply orb_true_r|apply orb_false_r].
    - rewrite N.land_spec, not64_testbit, shl1_testbit by lia.
      destruct (N.eqb_spec n i) as [->|]; [apply andb_false_r|].
      simpl. destruct (N.ltb_spec n 64); [apply andb_true_r|].
      rewrite (testbit_high x w n Hx) by lia. reflexivity. }
  split; [|exact Hb].
  apply lt_pow2_testbit. intros n Hn. rewrite Hb.
  destruct (N.eqb_spec n i); [lia|]. apply (testbit_high x w n Hx Hn).
Qed.

(** ** ones_below *)
Lemma ones_below_0 x : ones_below x 0 = 0.
Proof. reflexivity. Qed.
Lemma ones_below_succ x n : ones_below x (n + 1) = ones_below x n + b2n (N.testbit x n).
Proof.
  unfold ones_below. replace (N.to_nat (n + 1)) with (N.to_nat n + 1)%nat by lia.
  rewrite seq_app, List.filter_app, app_length. simpl. rewrite N2Nat.id.
  unfold b2n. destruct (N.testbit x n); simpl; lia.
Qed.
Lemma ones_below_le x n : ones_below x n <= n.
Proof.
  induction n as [|n IH] using N.peano_ind; [reflexivity|].
  rewrite <- N.add_1_r, ones_below_succ. unfold b2n. destruct (N.testbit x n); lia.
Qed.
Lemma ones_below_ext x y n :
  (forall i, i < n -> N.testbit x i = N.testbit y i) -> ones_below x n = ones_below y n.
Proof.
  induction n as [|n IH] using N.peano_ind; intros H; [reflexivity|].
  rewrite <- N.add_1_r, !ones_below_succ, IH, H by (intros; try apply H; lia). reflexivity.
Qed.
Lemma ones_below_add x a b :
  ones_below x (a + b) = ones_below x a + ones_below (N.shiftr x a) b.
Proof.
  induction b as [|b IH] using N.peano_ind; [rewrite N.add_0_r, ones_below_0; lia|].
  rewrite <- N.add_1_r, N.add_assoc, !ones_below_succ, IH, N.shiftr_spec'.
  rewrite (N.add_comm b a). lia.
Qed.
Lemma ones_below_mono x a b : a <= b -> ones_below x a <= ones_below x b.
Proof. intros H. replace b with (a + (b - a)) by lia. rewrite ones_below_add. lia. Qed.
Lemma ones_below_high x a b :
  (forall i, a <= i -> N.testbit x i = false) -> a <= b -> ones_below x b = ones_below x a.
Proof.
  intros H Hab. replace b with (a + (b - a)) by lia. rewrite ones_below_add.
  replace (N.shiftr x a) with 0.
  - enough (forall n, ones_below 0 n = 0) as -> by lia.
    intros n; induction n as [|n IH] using N.peano_ind; [reflexivity|].
    rewrite <- N.add_1_r, ones_below_succ, IH, N.bits_0. reflexivity.
  - symmetry. apply N.bits_inj_0. intros n. rewrite N.shiftr_spec'. apply H. lia.
Qed.

(** ** Words as 8-bit digits *)
Definition byte_ (x : N) (k : N) : N := N.land (N.shiftr x (8 * k)) 0xFF.
Lemma byte_testbit x k i : N.testbit (byte_ x k) i = N.testbit x (i + 8 * k) && (i <? 8).
Proof.
  unfold byte_. rewrite N.land_spec, N.shiftr_spec'.
  change 0xFF with (N.ones 8). rewrite ones_testbit. reflexivity.
Qed.
Lemma byte_lt x k : byte_ x k < 256.
Proof. unfold byte_. change 0xFF with (N.ones 8). rewrite N.land_ones. apply N.mod_lt. discriminate. Qed.

(** [dsum n f] is the number whose base-256 digits are [f 0 .. f (n-1)]. *)
Fixpoint dsum (n : nat) (f : nat -> N) : N :=
  match n with O => 0 | S n => f O + 256 * dsum n (fun k => f (S k)) end.
Lemma dsum_ext n f g : (forall k, (k < n)%nat -> f k = g k) -> dsum n f = dsum n g.
Proof.
  revert f g; induction n as [|n IH]; intros f g H; [reflexivity|].
  simpl. rewrite (H O) by lia. rewrite (IH _ (fun k => g (S k))); [reflexivity|].
  intros k Hk. apply H. lia.
Qed.
Lemma dsum_testbit n f i : (forall k, (k < n)%nat -> f k < 256) ->
  N.testbit (dsum n f) i =
  (i / 8 <? N.of_nat n) && N.testbit (f (N.to_nat (i / 8))) (i mod 8).
Proof.
  revert f i; induction n as [|n IH]; intros f i H.
  - simpl dsum. rewrite N.bits_0. destruct (N.ltb_spec (i / 8) (N.of_nat 0)); [lia|reflexivity].
  - simpl dsum. rewrite N.add_comm, N.mul_comm.
    change 256 with (2 ^ 8).
    rewrite <- lor_add_disjoint by (apply (H O); lia).
    rewrite N.lor_spec.
    destruct (N.lt_ge_cases i 8) as [Hi|Hi].
    + rewrite N.mul_pow2_bits_low by assumption.
      rewrite N.div_small, N.mod_small by assumption. reflexivity.
    + replace i with (i - 8 + 8) at 1 by lia. rewrite N.mul_pow2_bits_add.
      rewrite (testbit_high (f O) 8 i) by (try (apply (H O); lia); assumption).
      rewrite orb_false_r, IH by (intros k Hk; apply H; lia).
      assert (E : i / 8 = (i - 8) / 8 + 1).
      { replace i with (i - 8 + 1 * 8) at 1 by lia. apply N.div_add. discriminate. }
      assert (E2 : i mod 8 = (i - 8) mod 8).
      { replace i with (i - 8 + 1 * 8) at 1 by lia. apply N.mod_add. discriminate. }
      rewrite E, E2. replace (N.to_nat ((i - 8) / 8 + 1)) with (S (N.to_nat ((i - 8) / 8))) by lia.
      f_equal. destruct (N.ltb_spec ((i-8)/8) (N.of_nat n)), (N.ltb_spec ((i-8)/8+1) (N.of_nat (S n))); lia || reflexivity.
Qed.
Lemma div_mod_8 i : i = 8 * (i / 8) + i mod 8.
Proof. apply N.div_mod. discriminate. Qed.
Lemma mod_8_lt i : i mod 8 < 8.
Proof. apply N.mod_lt. discriminate. Qed.
Lemma div_8_lt i n : i / 8 < n <-> i < 8 * n.
Proof. assert (H := div_mod_8 i). assert (H2 := mod_8_lt i). lia. Qed.
Lemma dsum_bytes n x : x < 2 ^ (8 * N.of_nat n) ->
  x = dsum n (fun k => byte_ x (N.of_nat k)).
Proof.
  intros Hx. apply N.bits_inj. intros i.
  rewrite dsum_testbit by (intros; apply byte_lt).
  rewrite byte_testbit, N2Nat.id.
  rewrite (proj2 (N.ltb_lt _ _) (mod_8_lt i)), andb_true_r.
  rewrite N.add_comm, <- div_mod_8.
  destruct (N.ltb_spec (i / 8) (N.of_nat n)) as [H|H]; [reflexivity|].
  apply (testbit_high x _ i Hx). destruct (N.lt_ge_cases i (8 * N.of_nat n)) as [H'|H']; [|exact H'].
  apply div_8_lt in H'. lia.
Qed.
Lemma dsum_land n f g : (forall k, (k < n)%nat -> f k < 256) -> (forall k, (k < n)%nat -> g k < 256) ->
  N.land (dsum n f) (dsum n g) = dsum n (fun k => N.land (f k) (g k)).
Proof.
  intros Hf Hg. apply N.bits_inj. intros i.
  rewrite N.land_spec, !dsum_testbit; try assumption.
  - rewrite N.land_spec. destruct (i / 8 <? N.of_nat n); [simpl; reflexivity|reflexivity].
  - intros k Hk. change 256 with (2^8). apply lt_pow2_testbit. intros j Hj.
    rewrite N.land_spec, (testbit_high (f k) 8 j (Hf k Hk) Hj). reflexivity.
Qed.
Lemma dsum_add n f g : dsum n f + dsum n g = dsum n (fun k => f k + g k).
Proof.
  revert f g; induction n as [|n IH]; intros f g; [reflexivity|].
  simpl. rewrite <- IH. lia.
Qed.
Lemma dsum_lt n f : (forall k, (k < n)%nat -> f k < 256) -> dsum n f < 2 ^ (8 * N.of_nat n).
Proof.
  intros Hf. apply lt_pow2_testbit. intros i Hi. rewrite dsum_testbit by exact Hf.
  destruct (N.ltb_spec (i / 8) (N.of_nat n)) as [H|H]; [|reflexivity].
  apply div_8_lt in H. lia.
Qed.
(** Shifting right by [s <= 8]: digit [k] takes the low bits of digit [k+1]. *)
Lemma dsum_shr n f s : s <= 8 -> (forall k, (k < n)%nat -> f k < 256) ->
  N.shiftr (dsum n f) s =
  dsum n (fun k => N.lor (N.shiftr (f k) s)
     (if (S k <? n)%nat then N.land (N.shiftl (f (S k)) (8 - s)) 255 else 0)).
Proof.
  intros Hs Hf. apply N.bits_inj. intros i. rewrite N.shiftr_spec'.
  assert (HB : forall k, (k < n)%nat -> N.lor (N.shiftr (f k) s)
     (if (S k <? n)%nat then N.land (N.shiftl (f (S k)) (8 - s)) 255 else 0) < 256).
  { intros k Hk. change 256 with (2 ^ 8). apply lt_pow2_testbit. intros j Hj.
    rewrite N.lor_spec, N.shiftr_spec'.
    rewrite (testbit_high (f k) 8) by (try apply Hf; lia). simpl.
    destruct (S k <? n)%nat; [|apply N.bits_0].
    rewrite N.land_spec. change 255 with (N.ones 8). rewrite ones_testbit.
    destruct (N.ltb_spec j 8); [lia|apply andb_false_r]. }
  rewrite !dsum_testbit by assumption.
  assert (Hd := div_mod_8 i). assert (Hm := mod_8_lt i).
  set (q := i / 8) in *. set (r := i mod 8) in *.
  rewrite N.lor_spec, N.shiftr_spec'.
  destruct (N.lt_ge_cases (r + s) 8) as [Hrs|Hrs].
  - assert (Hq : (i + s) / 8 = q) by (symmetry; apply N.div_unique with (r + s); lia).
    assert (Hr : (i + s) mod 8 = r + s) by (symmetry; apply N.mod_unique with q; lia).
    rewrite Hq, Hr. destruct (N.ltb_spec q (N.of_nat n)) as [Hqn|]; [|reflexivity].
    simpl. destruct (S (N.to_nat q) <? n)%nat; [|rewrite N.bits_0, orb_false_r; reflexivity].
    rewrite N.land_spec, N.shiftl_spec_low by lia. simpl. rewrite orb_false_r. reflexivity.
  - assert (Hq : (i + s) / 8 = q + 1) by (symmetry; apply N.div_unique with (r + s - 8); lia).
    assert (Hr : (i + s) mod 8 = r + s - 8) by (symmetry; apply N.mod_unique with (q + 1); lia).
    rewrite Hq, Hr.
    destruct (N.ltb_spec q (N.of_nat n)) as [Hqn|Hqn].
    + rewrite (testbit_high (f (N.to_nat q)) 8) by (try apply Hf; lia). simpl.
      destruct (Nat.ltb_spec (S (N.to_nat q)) n) as [H1|H1];
      destruct (N.ltb_spec (q + 1) (N.of_nat n)) as [H2|H2]; try lia.
      * rewrite N.land_spec, N.shiftl_spec_high' by lia.
        change 255 with (N.ones 8). rewrite ones_testbit, (proj2 (N.ltb_lt _ _) Hm), andb_true_r.
        simpl. replace (N.to_nat (q + 1)) with (S (N.to_nat q)) by lia.
        f_equal. lia.
      * rewrite N.bits_0. reflexivity.
    + destruct (N.ltb_spec (q + 1) (N.of_nat n)); [lia|reflexivity].
Qed.
(** Shift followed by a mask that keeps only bits coming from the same digit. *)
Lemma dsum_shr_mask n f s m : s <= 8 -> (forall k, (k < n)%nat -> f k < 256) ->
  m < 2 ^ (8 - s) ->
  N.land (N.shiftr (dsum n f) s) (dsum n (fun _ => m)) =
  dsum n (fun k => N.land (N.shiftr (f k) s) m).
Proof.
  intros Hs Hf Hm.
  assert (Hm8 : m < 256).
  { eapply N.lt_le_trans; [exact Hm|]. change 256 with (2^8). apply pow2_le. lia. }
  apply N.bits_inj. intros i. rewrite N.land_spec, dsum_shr by assumption.
  rewrite !dsum_testbit; auto.
  - destruct (i / 8 <? N.of_nat n); [|reflexivity]. simpl.
    rewrite N.lor_spec, N.land_spec. set (q := N.to_nat (i / 8)). set (r := i mod 8).
    destruct (N.lt_ge_cases r (8 - s)) as [Hr|Hr].
    + destruct (S q <? n)%nat; [|rewrite N.bits_0, orb_false_r; reflexivity].
      rewrite N.land_spec, N.shiftl_spec_low by exact Hr. simpl. rewrite orb_false_r. reflexivity.
    + rewrite (testbit_high m (8 - s) r Hm Hr), !andb_false_r. reflexivity.
  - intros k Hk. change 256 with (2^8). apply lt_pow2_testbit. intros j Hj.
    rewrite N.land_spec, (testbit_high m 8 j Hm8 Hj). apply andb_false_r.
  - intros k Hk. change 256 with (2 ^ 8). apply lt_pow2_testbit. intros j Hj.
    rewrite N.lor_spec, N.shiftr_spec'.
    rewrite (testbit_high (f k) 8) by (try apply Hf; lia). simpl.
    destruct (S k <? n)%nat; [|apply N.bits_0].
    rewrite N.land_spec. change 255 with (N.ones 8). rewrite ones_testbit.
    destruct (N.ltb_spec j 8); [lia|apply andb_false_r].
Qed.
(** Mask first, then shift. *)
Lemma dsum_mask_shr n f s m : s <= 8 -> (forall k, (k < n)%nat -> f k < 256) ->
  N.shiftl (N.shiftr m s) s = m -> m < 256 ->
  N.shiftr (N.land (dsum n f) (dsum n (fun _ => m))) s =
  dsum n (fun k => N.shiftr (N.land (f k) m) s).
Proof.
  intros Hs Hf Hm Hm8.
  assert (Hlow : forall j, j < s -> N.testbit m j = false).
  { intros j Hj. rewrite <- Hm. apply N.shiftl_spec_low, Hj. }
  assert (HB : forall k, (k < n)%nat -> N.land (f k) m < 256).
  { intros k Hk. change 256 with (2^8). apply lt_pow2_testbit. intros j Hj.
    rewrite N.land_spec, (testbit_high m 8 j Hm8 Hj). apply andb_false_r. }
  rewrite dsum_land by auto. rewrite dsum_shr by assumption.
  apply dsum_ext. intros k Hk.
  destruct (S k <? n)%nat; [|apply N.lor_0_r].
  replace (N.land (N.shiftl (N.land (f (S k)) m) (8 - s)) 255) with 0; [apply N.lor_0_r|].
  symmetry. apply N.bits_inj_0. intros j. rewrite N.land_spec.
  change 255 with (N.ones 8). rewrite ones_testbit.
  destruct (N.ltb_spec j 8); [|apply andb_false_r]. rewrite andb_true_r.
  destruct (N.lt_ge_cases j (8 - s)); [apply N.shiftl_spec_low; assumption|].
  rewrite N.shiftl_spec_high' by assumption.
  rewrite N.land_spec, Hlow by lia. apply andb_false_r.
Qed.
Lemma dsum_ones_below n f i : (forall k, (k < n)%nat -> f k < 256) -> (i <= n)%nat ->
  ones_below (dsum n f) (8 * N.of_nat i) =
  fold_right N.add 0 (map (fun k => ones_below (f k) 8) (seq 0 i)).
Proof.
  intros Hf. induction i as [|i IH]; intros Hi; [reflexivity|].
  rewrite seq_S, map_app, fold_right_app. simpl.
  assert (E : forall l a, fold_right N.add a l = fold_right N.add 0 l + a).
  { induction l as [|b l IHl]; intros a; simpl; [reflexivity|]. rewrite (IHl a). lia. }
  rewrite E, <- IH by lia.
  replace (8 * N.pos (Pos.of_succ_nat i)) with (8 * N.of_nat i + 8) by lia.
  rewrite ones_below_add, N.add_0_r. f_equal.
  apply ones_below_ext. intros j Hj. rewrite N.shiftr_spec', dsum_testbit by exact Hf.
  replace (j + 8 * N.of_nat i) with (8 * N.of_nat i + j) by lia.
  assert (Hq : (8 * N.of_nat i + j) / 8 = N.of_nat i) by (symmetry; apply N.div_unique with j; lia).
  assert (Hr : (8 * N.of_nat i + j) mod 8 = j) by (symmetry; apply N.mod_unique with (N.of_nat i); lia).
  rewrite Hq, Hr, Nat2N.id. destruct (N.ltb_spec (N.of_nat i) (N.of_nat n)); [reflexivity|lia].
Qed.
