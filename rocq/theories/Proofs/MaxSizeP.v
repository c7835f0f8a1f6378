From Verif.Proofs Require Export BitTools2P.
From Verif.Model Require Export MaxSize.
Local Open Scope N_scope.

Definition ms_ok (b f : N) : bool :=
  let m := max_size_of (2 ^ b) (f + 1) in
  (m <? 2 ^ b) && ((49 <? b) || (m =? 2 ^ b * (f + 1) / 100)).
Lemma ms_check_true : check_below 58 (fun b => check_below 99 (ms_ok b)) = true.
Proof. vm_compute. reflexivity. Qed.
Lemma ms_ok_true b f : b <= 57 -> 1 <= f <= 99 -> ms_ok b (f - 1) = true.
Proof.
  intros Hb Hf. assert (H1 : b < N.of_nat 58) by lia. assert (H2 : f - 1 < N.of_nat 99) by lia.
  exact (check_below_sound 99 (ms_ok b) (f - 1)
           (check_below_sound 58 (fun b => check_below 99 (ms_ok b)) b ms_check_true H1) H2).
Qed.
Lemma max_size_exact b f : b <= 49 -> 1 <= f <= 99 -> max_size_of (2 ^ b) f = 2 ^ b * f / 100.
Proof.
  intros Hb Hf. assert (Hb' : b <= 57) by lia. pose proof (ms_ok_true b f Hb' Hf) as H.
  assert (E : f - 1 + 1 = f) by lia. assert (Hn : (49 <? b) = false) by (apply N.ltb_ge, Hb).
  unfold ms_ok in H. rewrite E in H. cbv zeta in H.
  apply andb_true_iff in H as [_ H]. rewrite Hn in H. apply N.eqb_eq, H.
Qed.
Lemma max_size_lt b f : b <= 57 -> 1 <= f <= 99 -> max_size_of (2 ^ b) f < 2 ^ b.
Proof.
  intros Hb Hf. pose proof (ms_ok_true b f Hb Hf) as H.
  assert (E : f - 1 + 1 = f) by lia.
  unfold ms_ok in H. rewrite E in H. cbv zeta in H.
  apply andb_true_iff in H as [H _]. apply N.ltb_lt, H.
Qed.
Lemma max_size_inexact : max_size_of (2 ^ 50) 54 = 2 ^ 50 * 54 / 100 + 1.
Proof. vm_compute. reflexivity. Qed.

(** Growth of the load limit with the capacity, and room left above it. *)
Definition ms_ok2 (b f : N) : bool :=
  let m := max_size_of (2 ^ b) (f + 1) in
  let m' := max_size_of (2 ^ (b + 1)) (f + 1) in
  (m <=? m') && ((b <? 6) || (m <? m')) && ((b <? 16) || ((655 <=? m) && (m + 600 <? 2 ^ b))).
Lemma ms_check2_true : check_below 57 (fun b => check_below 99 (ms_ok2 b)) = true.
Proof. vm_compute. reflexivity. Qed.
Lemma ms_ok2_true b f : b <= 56 -> 1 <= f <= 99 -> ms_ok2 b (f - 1) = true.
Proof.
  intros Hb Hf. assert (H1 : b < N.of_nat 57) by lia. assert (H2 : f - 1 < N.of_nat 99) by lia.
  exact (check_below_sound 99 (ms_ok2 b) (f - 1)
           (check_below_sound 57 (fun b => check_below 99 (ms_ok2 b)) b ms_check2_true H1) H2).
Qed.
Lemma ms_ok2_facts b f : b <= 56 -> 1 <= f <= 99 ->
  (max_size_of (2 ^ b) f <= max_size_of (2 ^ (b + 1)) f) /\
  (6 <= b -> max_size_of (2 ^ b) f < max_size_of (2 ^ (b + 1)) f) /\
  (16 <= b -> 655 <= max_size_of (2 ^ b) f /\ max_size_of (2 ^ b) f + 600 < 2 ^ b).
Proof.
  intros Hb Hf. pose proof (ms_ok2_true b f Hb Hf) as H.
  assert (E : f - 1 + 1 = f) by lia.
  unfold ms_ok2 in H. rewrite E in H. cbv zeta in H.
  apply andb_true_iff in H as [H H3]. apply andb_true_iff in H as [H1 H2].
  apply N.leb_le in H1. split; [exact H1|]. split.
  - intros H6. apply orb_true_iff in H2 as [H2|H2]; apply N.ltb_lt in H2; [lia|exact H2].
  - intros H16. apply orb_true_iff in H3 as [H3|H3]; [apply N.ltb_lt in H3; lia|].
    apply andb_true_iff in H3 as [H3 H4]. apply N.leb_le in H3. apply N.ltb_lt in H4. auto.
Qed.
Lemma max_size_mono b b' f : b <= b' -> b' <= 57 -> 1 <= f <= 99 ->
  max_size_of (2 ^ b) f <= max_size_of (2 ^ b') f.
Proof.
  intros Hb Hb' Hf. revert Hb'. pattern b'. revert b' Hb. apply N.right_induction.
  - intros x y ->. reflexivity.
  - intros _. reflexivity.
  - intros n Hn IH Hb'. rewrite <- N.add_1_r in *. etransitivity; [apply IH; lia|].
    apply ms_ok2_facts; lia.
Qed.
Lemma ms_check3_true : check_below 57 (fun b => 2 ^ b <=? max_size_of (2 ^ (b + 1)) 90) = true.
Proof. vm_compute. reflexivity. Qed.
Lemma max_size_half b : b <= 56 -> 2 ^ b <= max_size_of (2 ^ (b + 1)) 90.
Proof.
  intros Hb. assert (H1 : b < N.of_nat 57) by lia.
  pose proof (check_below_sound 57 (fun b => 2 ^ b <=? max_size_of (2 ^ (b + 1)) 90) b ms_check3_true H1) as H.
  apply N.leb_le in H. exact H.
Qed.
Lemma ms_check4_true : check_below 57 (fun b => (b <? 16) || (3 * 2 ^ b + 8 <=? 4 * max_size_of (2 ^ b) 80)) = true.
Proof. vm_compute. reflexivity. Qed.
Lemma max_size_34 b : 16 <= b <= 56 -> 3 * 2 ^ b + 8 <= 4 * max_size_of (2 ^ b) 80.
Proof.
  intros [Hb Hb2]. assert (H1 : b < N.of_nat 57) by lia.
  pose proof (check_below_sound 57 (fun b => (b <? 16) || (3 * 2 ^ b + 8 <=? 4 * max_size_of (2 ^ b) 80)) b ms_check4_true H1) as H.
  cbv beta in H. apply orb_true_iff in H as [H|H]; [apply N.ltb_lt in H; lia|]. apply N.leb_le in H. exact H.
Qed.
(** A larger factor gives no smaller limit. *)
Lemma ms_check6_true : check_below 58 (fun b => 9 * 2 ^ b <=? 10 * max_size_of (2 ^ b) 90 + 9) = true.
Proof. vm_compute. reflexivity. Qed.
Lemma max_size_ge b : b <= 57 -> 9 * 2 ^ b <= 10 * max_size_of (2 ^ b) 90 + 9.
Proof.
  intros Hb. assert (H1 : b < N.of_nat 58) by lia.
  pose proof (check_below_sound 58 (fun b => 9 * 2 ^ b <=? 10 * max_size_of (2 ^ b) 90 + 9) b ms_check6_true H1) as H.
  apply N.leb_le in H. exact H.
Qed.
Lemma ms_check5_true : check_below 58 (fun b => check_below 98 (fun f => max_size_of (2 ^ b) (f + 1) <=? max_size_of (2 ^ b) (f + 2))) = true.
Proof. vm_compute. reflexivity. Qed.
Lemma max_size_factor b f f' : b <= 57 -> 1 <= f <= f' -> f' <= 99 -> max_size_of (2 ^ b) f <= max_size_of (2 ^ b) f'.
Proof.
  intros Hb [Hf Hff]. pattern f'. revert f' Hff. apply N.right_induction.
  - intros x y ->. reflexivity.
  - intros _. reflexivity.
  - intros n Hn IH Hl. rewrite <- N.add_1_r in *. etransitivity; [apply IH; lia|].
    assert (H1 : b < N.of_nat 58) by lia. assert (H2 : n - 1 < N.of_nat 98) by lia.
    pose proof (check_below_sound 98 _ (n - 1) (check_below_sound 58 (fun b => check_below 98 (fun f => max_size_of (2 ^ b) (f + 1) <=? max_size_of (2 ^ b) (f + 2))) b ms_check5_true H1) H2) as H.
    cbv beta in H. apply N.leb_le in H. replace (n - 1 + 1) with n in H by lia. replace (n - 1 + 2) with (n + 1) in H by lia. exact H.
Qed.
(** Bounds for every factor. *)
Lemma ms_check7_true : check_below 8 (fun d => check_below 99 (fun f =>
  (2 ^ (d + 49) * (f + 1) / 100 <=? max_size_of (2 ^ (d + 49 + 1)) (f + 1)) &&
  (2 ^ (d + 49) * (f + 1) <=? 100 * (max_size_of (2 ^ (d + 49)) (f + 1) + 8)))) = true.
Proof. vm_compute. reflexivity. Qed.
Lemma ms_check7_facts b f : 49 <= b <= 56 -> 1 <= f <= 99 ->
  2 ^ b * f / 100 <= max_size_of (2 ^ (b + 1)) f /\ 2 ^ b * f <= 100 * (max_size_of (2 ^ b) f + 8).
Proof.
  intros Hb Hf. assert (H1 : b - 49 < N.of_nat 8) by lia. assert (H2 : f - 1 < N.of_nat 99) by lia.
  pose proof (check_below_sound _ _ (f - 1) (check_below_sound 8 _ (b - 49) ms_check7_true H1) H2) as H.
  cbv beta in H. apply andb_true_iff in H as [H H3]. apply N.leb_le in H. apply N.leb_le in H3.
  replace (f - 1 + 1) with f in * by lia. replace (b - 49 + 49) with b in * by lia. auto.
Qed.
Lemma max_size_twice b f : b <= 56 -> 1 <= f <= 99 -> 2 ^ b * f / 100 <= max_size_of (2 ^ (b + 1)) f.
Proof.
  intros Hb Hf. destruct (N.le_gt_cases 49 b) as [Hge|Hlt]; [apply ms_check7_facts; lia|].
  rewrite max_size_exact by lia. apply N.div_le_mono; [discriminate|]. apply N.mul_le_mono_r, N.pow_le_mono_r; lia.
Qed.
Lemma max_size_near b f : b <= 56 -> 1 <= f <= 99 -> 2 ^ b * f <= 100 * (max_size_of (2 ^ b) f + 8).
Proof.
  intros Hb Hf. destruct (N.le_gt_cases 49 b) as [Hge|Hlt]; [apply ms_check7_facts; lia|].
  rewrite max_size_exact by lia. set (x := 2 ^ b * f). pose proof (N.div_mod x 100 ltac:(discriminate)) as E.
  pose proof (N.mod_lt x 100 ltac:(discriminate)). lia.
Qed.
#[global] Opaque max_size_of.
