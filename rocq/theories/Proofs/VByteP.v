From Verif.Proofs Require Export BitTools2P.
From Verif.Model Require Export VByte.
Local Open Scope N_scope.

Fixpoint vbf (n : nat) (val : N) : list N :=
  match n with
  | O => [N.land val 127]
  | S n => if 127 <? val then N.lor (N.land val 127) 0x80 :: vbf n (shr val 7)
           else [N.land val 127]
  end.
(** The encoding of a value, as a pure function. *)
Definition vb (val : N) : list N := vbf (N.to_nat (N.size val)) val.

Lemma shr7_lt val : 127 < val -> shr val 7 < val.
Proof. intros H. rewrite shr_div. apply N.div_lt; [lia|reflexivity]. Qed.
Lemma vbf_irrel n m val : val < 2 ^ N.of_nat n -> val < 2 ^ N.of_nat m -> vbf n val = vbf m val.
Proof.
  revert m val; induction n as [|n IH]; intros m val Hn Hm.
  - change (2 ^ N.of_nat 0) with 1 in Hn. replace val with 0 in * by lia. destruct m; reflexivity.
  - destruct m as [|m].
    + change (2 ^ N.of_nat 0) with 1 in Hm. replace val with 0 in * by lia. reflexivity.
    + simpl. destruct (N.ltb_spec 127 val) as [H|H]; [|reflexivity]. f_equal.
      rewrite !Nat2N.inj_succ, !N.pow_succ_r' in Hn, Hm.
      assert (shr val 7 <= val / 2).
      { rewrite shr_div. change (2 ^ 7) with (2 * 64). rewrite <- N.div_div by discriminate.
        apply N.div_le_upper_bound; [discriminate|]. lia. }
      assert (forall x, val < 2 * x -> val / 2 < x) by (intros; apply N.div_lt_upper_bound; lia).
      apply IH; eapply N.le_lt_trans; eauto.
Qed.
Lemma size_lt val : val < 2 ^ N.size val.
Proof. apply N.size_gt. Qed.
Lemma vb_eq val : vb val =
  if 127 <? val then N.lor (N.land val 127) 0x80 :: vb (shr val 7) else [N.land val 127].
Proof.
  unfold vb at 1. destruct (N.to_nat (N.size val)) as [|n] eqn:E.
  - assert (N.size val = 0) by lia. pose proof (size_lt val) as Hs. rewrite H in Hs.
    change (2 ^ 0) with 1 in Hs. replace val with 0 by lia. reflexivity.
  - simpl. destruct (N.ltb_spec 127 val) as [H|H]; [|reflexivity]. f_equal.
    apply vbf_irrel; rewrite ?N2Nat.id.
    + pose proof (size_lt val) as Hs. replace (N.size val) with (N.succ (N.of_nat n)) in Hs by lia.
      rewrite N.pow_succ_r' in Hs. rewrite shr_div. change (2 ^ 7) with (2 * 64).
      rewrite <- N.div_div by discriminate. eapply N.le_lt_trans.
      * apply N.div_le_upper_bound with (q := val / 2); [discriminate|]. lia.
      * apply N.div_lt_upper_bound; lia.
    + apply size_lt.
Qed.
Lemma vb_ind (P : N -> Prop) :
  (forall v, (127 < v -> P (shr v 7)) -> P v) -> forall v, P v.
Proof.
  intros H v. induction v as [v IH] using (well_founded_induction N.lt_wf_0).
  apply H. intros Hv. apply IH, shr7_lt, Hv.
Qed.
Lemma byte_hi_lor x : x < 128 -> N.lor x 0x80 = x + 128.
Proof.
  intros H. assert (E : check_below 128 (fun x => N.lor x 0x80 =? x + 128) = true) by (vm_compute; reflexivity).
  apply (check_below_sound _ _ x) in E; [|exact H]. apply N.eqb_eq, E.
Qed.
Lemma byte_hi_props x : x < 128 ->
  N.land (N.lor x 0x80) 127 = x /\ (N.land (N.lor x 0x80) 0x80 =? 0) = false /\ N.lor x 0x80 < 256
  /\ N.land x 127 = x /\ (N.land x 0x80 =? 0) = true.
Proof.
  intros H. assert (E : check_below 128 (fun x => (N.land (N.lor x 0x80) 127 =? x) &&
    negb (N.land (N.lor x 0x80) 0x80 =? 0) && (N.lor x 0x80 <? 256) && (N.land x 127 =? x) && (N.land x 0x80 =? 0)) = true)
    by (vm_compute; reflexivity).
  apply (check_below_sound _ _ x) in E; [|exact H].
  rewrite !andb_true_iff, negb_true_iff, !N.eqb_eq, N.ltb_lt in E.
  destruct E as [[[[E1 E2] E3] E4] E5]. rewrite E5. auto.
Qed.
Lemma land127_lt v : N.land v 127 < 128.
Proof. change 127 with (N.ones 7). rewrite land_ones_mod. apply N.mod_lt. discriminate. Qed.
Lemma vb_bytes val : Forall (fun c => c < 256) (vb val).
Proof.
  induction val as [v IH] using vb_ind. rewrite vb_eq. pose proof (land127_lt v) as Hl.
  destruct (N.ltb_spec 127 v) as [H|H].
  - constructor; [apply byte_hi_props, Hl|]. apply IH, H.
  - constructor; [lia|constructor].
Qed.
Lemma vb_nonempty val : (1 <= length (vb val))%nat.
Proof. rewrite vb_eq. destruct (127 <? val); simpl; lia. Qed.
Lemma vb_length_le val n : val < 2 ^ (7 * N.of_nat n) -> (1 <= n)%nat -> (length (vb val) <= n)%nat.
Proof.
  revert val; induction n as [|n IH]; intros val Hv Hn; [lia|]. rewrite vb_eq.
  destruct (N.ltb_spec 127 val) as [H|H]; simpl; [|lia].
  destruct n as [|n].
  - change (2 ^ (7 * N.of_nat 1)) with 128 in Hv. lia.
  - specialize (IH (shr val 7)). assert ((length (vb (shr val 7)) <= S n)%nat); [|lia].
    apply IH; [|lia]. apply shr_lt. replace (7 + 7 * N.of_nat (S n)) with (7 * N.of_nat (S (S n))) by lia. exact Hv.
Qed.

Lemma wp_eq {A} (m : outcome A) a : wp m (fun x => x = a) -> m = Ret a.
Proof. destruct m; simpl; try tauto. congruence. Qed.

Lemma vbyte_encode_loop buf val : val < 2 ^ 64 ->
  loop (fun st : list N * N =>
          let '(out, val) := st in
          if 127 <? val then
            Ret (inl (out ++ [N.lor (N.land val 127) 0x80], shr val 7))
          else Ret (inr (out ++ [N.land val 127]))) (buf, val) = Ret (buf ++ vb val).
Proof.
  intros Hv. apply wp_eq.
  apply wp_loop with (I := fun '(out, v) => out ++ vb v = buf ++ vb val) (mu := fun '(_, v) => v).
  - reflexivity.
  - exact Hv.
  - intros [out v] HI. rewrite vb_eq in HI. destruct (N.ltb_spec 127 v) as [H|H]; simpl.
    + split; [rewrite <- app_assoc; exact HI|apply shr7_lt, H].
    + exact HI.
Qed.
Lemma vbyte_encode_ok val : val < 2 ^ 64 -> vbyte_encode val = Ret (vb val).
Proof. intros H. unfold vbyte_encode. rewrite vbyte_encode_loop by exact H. reflexivity. Qed.
Lemma vbyte_append_ok buf val : val < 2 ^ 64 ->
  vbyte_append buf val = Ret (buf ++ vb val, N.of_nat (length (vb val))).
Proof.
  intros H. unfold vbyte_append. rewrite vbyte_encode_loop by exact H. rewrite bind_ret.
  rewrite app_length. do 2 f_equal. lia.
Qed.
Lemma vbyte_size_ok val : val < 2 ^ 64 -> vbyte_size val = Ret (N.of_nat (length (vb val))).
Proof.
  intros Hv. unfold vbyte_size. apply wp_eq.
  apply wp_loop with (I := fun '(n, v) => n + N.of_nat (length (vb v)) = N.of_nat (length (vb val)) + 1)
    (mu := fun '(_, v) => v).
  - lia.
  - exact Hv.
  - intros [n v] HI. rewrite vb_eq in HI. destruct (N.ltb_spec 127 v) as [H|H]; simpl in *.
    + split; [lia|apply shr7_lt, H].
    + lia.
Qed.
Lemma vbyte_decode_ok_ val rest acc i shift :
  shift < 64 -> acc < 2 ^ shift -> val < 2 ^ (64 - shift) ->
  vbyte_decode_ (vb val ++ rest) acc i shift = Ret (acc + val * 2 ^ shift, i + N.of_nat (length (vb val))).
Proof.
  revert acc i shift. induction val as [v IH] using vb_ind. intros acc i shift Hs Ha Hv.
  assert (Hpow : 2 ^ 64 = 2 ^ (64 - shift) * 2 ^ shift) by (rewrite <- N.pow_add_r; f_equal; lia).
  pose proof (pow2_pos shift) as Hp.
  assert (Hvs : v * 2 ^ shift < 2 ^ 64) by (rewrite Hpow; apply N.mul_lt_mono_pos_r; assumption).
  rewrite vb_eq. pose proof (land127_lt v) as Hl.
  destruct (byte_hi_props _ Hl) as (B1 & B2 & _ & B3 & B4).
  destruct (N.ltb_spec 127 v) as [H|H].
  - rewrite <- app_comm_cons. simpl vbyte_decode_. destruct (N.leb_spec 64 shift); [lia|].
    rewrite B1, B2.
    assert (Hs7 : 7 < 64 - shift).
    { destruct (N.lt_ge_cases 7 (64 - shift)) as [|Hle]; [assumption|].
      apply pow2_le in Hle. change (2 ^ 7) with 128 in Hle. lia. }
    assert (Hd : v = 128 * shr v 7 + N.land v 127).
    { rewrite shr_div. change 127 with (N.ones 7). rewrite land_ones_mod. apply N.div_mod. discriminate. }
    assert (Hlt : N.land v 127 * 2 ^ shift < 2 ^ 64).
    { eapply N.le_lt_trans; [|exact Hvs]. apply N.mul_le_mono_r. lia. }
    rewrite shl_mul by exact Hlt. rewrite N.lor_comm, lor_add_disjoint by exact Ha.
    rewrite IH; [|exact H|lia| |].
    + f_equal. f_equal.
      * rewrite N.pow_add_r. change (2 ^ 7) with 128. rewrite Hd at 3. lia.
      * simpl length. lia.
    + rewrite N.pow_add_r. change (2 ^ 7) with 128.
      assert (N.land v 127 * 2 ^ shift <= 127 * 2 ^ shift) by (apply N.mul_le_mono_r; lia). lia.
    + apply shr_lt. replace (7 + (64 - (shift + 7))) with (64 - shift) by lia. exact Hv.
  - simpl. destruct (N.leb_spec 64 shift); [lia|].
    assert (E : N.land v 127 = v).
    { change 127 with (N.ones 7). rewrite land_ones_mod. apply N.mod_small. change (2 ^ 7) with 128. lia. }
    rewrite E in *. rewrite B3, B4, shl_mul by exact Hvs.
    rewrite N.lor_comm, lor_add_disjoint by exact Ha. do 2 f_equal. lia.
Qed.
Lemma vbyte_decode_ok val rest : val < 2 ^ 64 ->
  vbyte_decode (vb val ++ rest) = Ret (val, N.of_nat (length (vb val))).
Proof.
  intros H. unfold vbyte_decode. rewrite vbyte_decode_ok_; [|lia|reflexivity|exact H].
  change (2 ^ 0) with 1. do 2 f_equal; lia.
Qed.
