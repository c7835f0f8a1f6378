(** The slot words of compact_hash_table: quotient, value, virgin bit, change bit. *)
From Verif.Proofs Require Export ChtLinP HashP MaxSizeP CompactVectorP.
From Verif.Model Require Export CompactHashTable.
Local Open Scope N_scope.

Record fields := mkF { f_q : N; f_v : N; f_b : bool; f_c : bool }.
Definition dec (vb w : N) : fields :=
  mkF (shr w (2 + vb)) (N.land (shr w 2) (N.ones vb)) (N.testbit w 1) (N.testbit w 0).

Ltac tb := repeat rewrite ?N.lor_spec, ?N.land_spec, ?shl_testbit, ?shr_testbit, ?not64_testbit, ?ones_testbit.
Ltac cmp := repeat match goal with
  | |- context [?a <=? ?b] => destruct (N.leb_spec a b); try lia
  | |- context [?a <? ?b] => destruct (N.ltb_spec a b); try lia
  end; simpl; rewrite ?andb_true_r, ?andb_false_r, ?orb_false_r, ?orb_true_r; simpl.

Section hash.
Context {HB : bij_hasher} {HO : bij_ok HB}.
Section word.
  Context (vb qb : N).
  Hypothesis Hw : qb + vb + 2 < 64.

  Lemma b2n_testbit b n : N.testbit (b2n b) n = b && (n =? 0).
  Proof.
    destruct b; [|apply N.bits_0]. destruct (N.eqb_spec n 0) as [->|]; [reflexivity|].
    change (b2n true) with (2 ^ 0). rewrite N.pow2_bits_false; [reflexivity|lia].
  Qed.
  Lemma two_testbit n : N.testbit 2 n = (n =? 1).
  Proof.
    destruct (N.eqb_spec n 1) as [->|]; [reflexivity|]. change 2 with (2 ^ 1). apply N.pow2_bits_false. lia.
  Qed.
  Lemma one_testbit n : N.testbit 1 n = (n =? 0).
  Proof.
    destruct (N.eqb_spec n 0) as [->|]; [reflexivity|]. change 1 with (2 ^ 0). apply N.pow2_bits_false. lia.
  Qed.
  Lemma dec_q_lt w : w < 2 ^ (qb + vb + 2) -> f_q (dec vb w) < 2 ^ qb.
  Proof.
    intros H. apply lt_pow2_testbit. intros n Hn. simpl. rewrite shr_testbit. apply (testbit_high w _ _ H). lia.
  Qed.
  Lemma dec_v_lt w : f_v (dec vb w) < 2 ^ vb.
  Proof. simpl. rewrite land_ones_mod. apply N.mod_lt. apply N.pow_nonzero. discriminate. Qed.

  Lemma dec_set_quo w q : w < 2 ^ (qb + vb + 2) -> q < 2 ^ qb ->
    let w' := N.lor (N.land w (not64 (shl (N.ones qb) (2 + vb)))) (shl q (2 + vb)) in
    w' < 2 ^ (qb + vb + 2) /\ dec vb w' = mkF q (f_v (dec vb w)) (f_b (dec vb w)) (f_c (dec vb w)).
  Proof.
    intros Hlt Hq w'.
    assert (Hhi : forall n, qb + vb + 2 <= n -> N.testbit w n = false) by (intros; eapply testbit_high; eassumption).
    assert (Hqh : forall n, qb <= n -> N.testbit q n = false) by (intros; eapply testbit_high; eassumption).
    split.
    - apply lt_pow2_testbit. intros n Hn. unfold w'. tb. rewrite Hhi, (Hqh (n - (2 + vb))) by lia. cmp; reflexivity.
    - unfold dec, w'. cbn [f_v f_b f_c]. f_equal.
      + apply N.bits_inj. intros n. tb. destruct (N.lt_ge_cases n qb).
        * replace (n + (2 + vb) - (2 + vb)) with n by lia. cmp; reflexivity.
        * rewrite Hhi, (Hqh n) by lia. rewrite (Hqh (n + (2 + vb) - (2 + vb))) by lia. cmp; reflexivity.
      + apply N.bits_inj. intros n. tb. destruct (N.ltb_spec n vb); rewrite ?andb_false_r; [|reflexivity].
        cmp; reflexivity.
      + tb. cmp; reflexivity.
      + tb. cmp; reflexivity.
  Qed.
  Lemma dec_set_val w v : w < 2 ^ (qb + vb + 2) -> v < 2 ^ vb ->
    let w' := N.lor (N.land w (not64 (shl (N.ones vb) 2))) (shl v 2) in
    w' < 2 ^ (qb + vb + 2) /\ dec vb w' = mkF (f_q (dec vb w)) v (f_b (dec vb w)) (f_c (dec vb w)).
  Proof.
    intros Hlt Hv w'.
    assert (Hhi : forall n, qb + vb + 2 <= n -> N.testbit w n = false) by (intros; eapply testbit_high; eassumption).
    assert (Hvh : forall n, vb <= n -> N.testbit v n = false) by (intros; eapply testbit_high; eassumption).
    split.
    - apply lt_pow2_testbit. intros n Hn. unfold w'. tb. rewrite Hhi, (Hvh (n - 2)) by lia. cmp; reflexivity.
    - unfold dec, w'. cbn [f_q f_b f_c]. f_equal.
      + apply N.bits_inj. intros n. tb. rewrite (Hvh (n + (2 + vb) - 2)) by lia.
        destruct (N.lt_ge_cases n qb); [cmp; reflexivity|]. rewrite Hhi by lia. cmp; reflexivity.
      + apply N.bits_inj. intros n. tb. replace (n + 2 - 2) with n by lia.
        destruct (N.ltb_spec n vb); rewrite ?andb_false_r; [|symmetry; apply Hvh; lia]. cmp; reflexivity.
      + tb. cmp; reflexivity.
      + tb. cmp; reflexivity.
  Qed.
  Lemma dec_set_vbit w b : w < 2 ^ (qb + vb + 2) ->
    let w' := N.lor (N.land w (not64 2)) (shl (b2n b) 1) in
    w' < 2 ^ (qb + vb + 2) /\ dec vb w' = mkF (f_q (dec vb w)) (f_v (dec vb w)) b (f_c (dec vb w)).
  Proof.
    intros Hlt w'.
    assert (Hhi : forall n, qb + vb + 2 <= n -> N.testbit w n = false) by (intros; eapply testbit_high; eassumption).
    assert (Hbit : forall n, N.testbit w' n = if n =? 1 then b else N.testbit w n).
    { intros n. unfold w'. tb. rewrite b2n_testbit, two_testbit. destruct (N.eqb_spec n 1) as [->|].
      - simpl. rewrite !andb_true_r, andb_false_r. reflexivity.
      - simpl. destruct (N.ltb_spec n 64).
        + rewrite !andb_true_r. destruct (N.leb_spec 1 n); [|rewrite orb_false_r; reflexivity].
          rewrite (proj2 (N.eqb_neq (n - 1) 0)) by lia. rewrite andb_false_r, orb_false_r. reflexivity.
        + rewrite !andb_false_r. symmetry. apply Hhi. lia. }
    split.
    - apply lt_pow2_testbit. intros n Hn. rewrite Hbit. rewrite (proj2 (N.eqb_neq n 1)) by lia. apply Hhi, Hn.
    - unfold dec. cbn [f_q f_v f_c]. f_equal.
      + apply N.bits_inj. intros n. rewrite !shr_testbit, Hbit, (proj2 (N.eqb_neq _ 1)) by lia. reflexivity.
      + apply N.bits_inj. intros n. rewrite !N.land_spec, !shr_testbit, Hbit, (proj2 (N.eqb_neq _ 1)) by lia. reflexivity.
      + rewrite Hbit. reflexivity.
      + rewrite Hbit. reflexivity.
  Qed.
  Lemma dec_set_cbit w b : w < 2 ^ (qb + vb + 2) ->
    let w' := N.lor (N.land w (not64 1)) (b2n b) in
    w' < 2 ^ (qb + vb + 2) /\ dec vb w' = mkF (f_q (dec vb w)) (f_v (dec vb w)) (f_b (dec vb w)) b.
  Proof.
    intros Hlt w'.
    assert (Hhi : forall n, qb + vb + 2 <= n -> N.testbit w n = false) by (intros; eapply testbit_high; eassumption).
    assert (Hbit : forall n, N.testbit w' n = if n =? 0 then b else N.testbit w n).
    { intros n. unfold w'. tb. rewrite b2n_testbit, one_testbit. destruct (N.eqb_spec n 0) as [->|].
      - simpl. rewrite !andb_true_r, andb_false_r. reflexivity.
      - rewrite andb_false_r, orb_false_r. simpl. destruct (N.ltb_spec n 64); [apply andb_true_r|].
        rewrite andb_false_r. symmetry. apply Hhi. lia. }
    split.
    - apply lt_pow2_testbit. intros n Hn. rewrite Hbit. rewrite (proj2 (N.eqb_neq n 0)) by lia. apply Hhi, Hn.
    - unfold dec. cbn [f_q f_v f_b]. f_equal.
      + apply N.bits_inj. intros n. rewrite !shr_testbit, Hbit, (proj2 (N.eqb_neq _ 0)) by lia. reflexivity.
      + apply N.bits_inj. intros n. rewrite !N.land_spec, !shr_testbit, Hbit, (proj2 (N.eqb_neq _ 0)) by lia. reflexivity.
      + rewrite Hbit. reflexivity.
      + rewrite Hbit. reflexivity.
  Qed.
  Lemma dec_update q v b c : q < 2 ^ qb -> v < 2 ^ vb ->
    let w' := N.lor (N.lor (N.lor (shl q (2 + vb)) (shl v 2)) (shl (b2n b) 1)) (b2n c) in
    w' < 2 ^ (qb + vb + 2) /\ dec vb w' = mkF q v b c.
  Proof.
    intros Hq Hv w'.
    assert (Hqh : forall n, qb <= n -> N.testbit q n = false) by (intros; eapply testbit_high; eassumption).
    assert (Hvh : forall n, vb <= n -> N.testbit v n = false) by (intros; eapply testbit_high; eassumption).
    assert (Hhi : forall n, 2 <= n -> N.testbit w' n = ((2 + vb <=? n) && N.testbit q (n - (2 + vb)) && (n <? 64)) || (N.testbit v (n - 2) && (n <? 64))).
    { intros n Hn. unfold w'. tb. rewrite !b2n_testbit. rewrite (proj2 (N.eqb_neq (n - 1) 0)) by lia.
      rewrite (proj2 (N.eqb_neq n 0)) by lia. rewrite !andb_false_r, andb_false_l, !orb_false_r.
      rewrite (proj2 (N.leb_le 2 n)) by lia. reflexivity. }
    split.
    - apply lt_pow2_testbit. intros n Hn. rewrite Hhi by lia. rewrite Hqh, Hvh by lia. rewrite andb_false_r. reflexivity.
    - unfold dec. f_equal.
      + apply N.bits_inj. intros n. rewrite shr_testbit, Hhi by lia. rewrite (Hvh (n + (2 + vb) - 2)) by lia.
        replace (n + (2 + vb) - (2 + vb)) with n by lia. destruct (N.lt_ge_cases n qb); [cmp; reflexivity|].
        rewrite Hqh by lia. rewrite andb_false_r. reflexivity.
      + apply N.bits_inj. intros n. rewrite N.land_spec, shr_testbit, Hhi, ones_testbit by lia.
        replace (n + 2 - 2) with n by lia. destruct (N.ltb_spec n vb); rewrite ?andb_false_r, ?andb_true_r; [|symmetry; apply Hvh; lia].
        cmp; reflexivity.
      + unfold w'. tb. rewrite !b2n_testbit. rewrite (proj2 (N.leb_gt (2 + vb) 1)) by lia. simpl. destruct b, c; reflexivity.
      + unfold w'. tb. rewrite !b2n_testbit. rewrite (proj2 (N.leb_gt (2 + vb) 0)) by lia. simpl. destruct b, c; reflexivity.
  Qed.
  Lemma dec_init : let w' := N.lor (shl (N.ones vb) 2) 1 in
    w' < 2 ^ (qb + vb + 2) /\ dec vb w' = mkF 0 (N.ones vb) false true.
  Proof.
    assert (Hv : N.ones vb < 2 ^ vb) by (rewrite N.ones_equiv; pose proof (pow2_pos vb); lia).
    destruct (dec_update 0 (N.ones vb) false true (pow2_pos qb) Hv) as [H1 H2].
    assert (E : N.lor (N.lor (N.lor (shl 0 (2 + vb)) (shl (N.ones vb) 2)) (shl (b2n false) 1)) (b2n true) = N.lor (shl (N.ones vb) 2) 1).
    { replace (shl 0 (2 + vb)) with 0 by (unfold shl; rewrite N.shiftl_0_l; reflexivity). rewrite N.lor_0_l.
      change (shl (b2n false) 1) with 0. rewrite N.lor_0_r. reflexivity. }
    rewrite E in H1, H2. split; assumption.
  Qed.
  Lemma vbit_test w : (N.land w 2 =? 2) = N.testbit w 1.
  Proof.
    assert (E : N.land w 2 = if N.testbit w 1 then 2 else 0).
    { apply N.bits_inj. intros n. rewrite N.land_spec, two_testbit. destruct (N.eqb_spec n 1) as [->|].
      - rewrite andb_true_r. destruct (N.testbit w 1); reflexivity.
      - rewrite andb_false_r. destruct (N.testbit w 1); [|symmetry; apply N.bits_0]. rewrite two_testbit. symmetry. apply N.eqb_neq. assumption. }
    rewrite E. destruct (N.testbit w 1); reflexivity.
  Qed.
  Lemma cbit_test w : (N.land w 1 =? 1) = N.testbit w 0.
  Proof.
    assert (E : N.land w 1 = if N.testbit w 0 then 1 else 0).
    { apply N.bits_inj. intros n. rewrite N.land_spec, one_testbit. destruct (N.eqb_spec n 0) as [->|].
      - rewrite andb_true_r. destruct (N.testbit w 0); reflexivity.
      - rewrite andb_false_r. destruct (N.testbit w 0); [|symmetry; apply N.bits_0]. rewrite one_testbit. symmetry. apply N.eqb_neq. assumption. }
    rewrite E. destruct (N.testbit w 0); reflexivity.
  Qed.
End word.
End hash.
