(** Reasoning principles for the base of the model. *)
From Verif.Model Require Export Base.
From Coq Require Export ZifyBool ZifyNat ZifyN.
Local Open Scope N_scope.

(** Weakest precondition: the run returns normally and the result satisfies [Q]. *)
Definition wp {A} (m : outcome A) (Q : A -> Prop) : Prop :=
  match m with Ret a => Q a | _ => False end.

Lemma wp_ret {A} (a : A) (Q : A -> Prop) : Q a -> wp (Ret a) Q.
Proof. exact (fun H => H). Qed.
Lemma wp_bind {A B} (m : outcome A) (f : A -> outcome B) Q :
  wp m (fun a => wp (f a) Q) -> wp (bind m f) Q.
Proof. destruct m; simpl; auto. Qed.
Lemma wp_bind_inv {A B} (m : outcome A) (f : A -> outcome B) Q :
  wp (bind m f) Q -> wp m (fun a => wp (f a) Q).
Proof. destruct m; simpl; auto. Qed.
Lemma wp_mono {A} (m : outcome A) (P Q : A -> Prop) :
  wp m P -> (forall a, P a -> Q a) -> wp m Q.
Proof. destruct m; simpl; auto. Qed.
Lemma wp_inv {A} (m : outcome A) Q : wp m Q -> exists a, m = Ret a /\ Q a.
Proof. destruct m; simpl; try tauto. eauto. Qed.
Lemma wp_intro {A} (m : outcome A) a (Q : A -> Prop) : m = Ret a -> Q a -> wp m Q.
Proof. intros -> H. exact H. Qed.
Lemma wp_assert c (Q : unit -> Prop) : c = true -> Q tt -> wp (assert_ c) Q.
Proof. intros ->. auto. Qed.
Lemma bind_ret {A B} (a : A) (f : A -> outcome B) : bind (Ret a) f = f a.
Proof. reflexivity. Qed.
Lemma bind_ret_inv {A B} (m : outcome A) (f : A -> outcome B) b :
  bind m f = Ret b -> exists a, m = Ret a /\ f a = Ret b.
Proof. destruct m; simpl; try discriminate. eauto. Qed.
Lemma bind_assoc {A B C} (m : outcome A) (f : A -> outcome B) (g : B -> outcome C) :
  bind (bind m f) g = bind m (fun a => bind (f a) g).
Proof. destruct m; reflexivity. Qed.
Lemma assert_true c : c = true -> assert_ c = Ret tt.
Proof. intros ->. reflexivity. Qed.
Lemma throw_if_false c e : c = false -> throw_if c e = Ret tt.
Proof. intros ->. reflexivity. Qed.

(** ** Loop rules *)
Section loops.
  Context {S R : Type} (f : S -> outcome (S + R)).

  Fixpoint nloop (n : nat) (s : S) : outcome (S + R) :=
    match n with
    | O => Ret (inl s)
    | Datatypes.S n => match f s with Ret (inl s') => nloop n s' | r => r end
    end.

  Lemma nloop_add a b s :
    nloop (a + b) s = match nloop a s with Ret (inl s') => nloop b s' | r => r end.
  Proof.
    revert s; induction a as [|a IH]; intros s; simpl; [reflexivity|].
    destruct (f s) as [[s'|r]|e| | |]; simpl; auto.
  Qed.

  Lemma ploop_nloop p s : ploop p f s = nloop (Pos.to_nat p) s.
  Proof.
    revert s; induction p as [p IH|p IH|]; intros s; simpl ploop.
    - rewrite Pos2Nat.inj_xI. replace (Datatypes.S (2 * Pos.to_nat p))%nat
        with (Datatypes.S (Pos.to_nat p + Pos.to_nat p))%nat by lia. simpl nloop.
      destruct (f s) as [[s'|r]|e| | |]; auto.
      rewrite nloop_add, IH. destruct (nloop (Pos.to_nat p) s') as [[s''|r]|e| | |]; auto.
    - rewrite Pos2Nat.inj_xO. replace (2 * Pos.to_nat p)%nat
        with (Pos.to_nat p + Pos.to_nat p)%nat by lia.
      rewrite nloop_add, IH. destruct (nloop (Pos.to_nat p) s) as [[s''|r]|e| | |]; auto.
    - change (Pos.to_nat 1) with 1%nat. simpl.
      destruct (f s) as [[s'|r]|e| | |]; auto.
  Qed.

  Lemma wp_nloop (I : S -> Prop) (mu : S -> N) (Q : R -> Prop) n s :
    (forall s, I s -> wp (f s) (fun x => match x with
        | inl s' => I s' /\ mu s' < mu s | inr r => Q r end)) ->
    I s -> (N.to_nat (mu s) < n)%nat ->
    wp (nloop n s) (fun x => match x with inl _ => False | inr r => Q r end).
  Proof.
    intros Hf. revert s; induction n as [|n IH]; intros s HI Hn; [lia|].
    simpl. specialize (Hf s HI).
    destruct (f s) as [[s'|r]|e| | |]; simpl in *; auto.
    destruct Hf as [HI' Hmu]. apply IH; [exact HI'|lia].
  Qed.

  Lemma wp_loop (I : S -> Prop) (mu : S -> N) (Q : R -> Prop) s :
    I s -> mu s < 2 ^ 64 ->
    (forall s, I s -> wp (f s) (fun x => match x with
        | inl s' => I s' /\ mu s' < mu s | inr r => Q r end)) ->
    wp (loop f s) Q.
  Proof.
    intros HI Hmu Hf. unfold loop. rewrite ploop_nloop.
    assert (H := wp_nloop I mu Q (Pos.to_nat fuel64) s Hf HI).
    assert (Hlt : (N.to_nat (mu s) < Pos.to_nat fuel64)%nat).
    { unfold fuel64. change (2^64) with 18446744073709551616 in Hmu.
      rewrite <- positive_N_nat. lia. }
    specialize (H Hlt).
    destruct (nloop (Pos.to_nat fuel64) s) as [[s'|r]|e| | |]; simpl in *; auto.
  Qed.

  (** A loop whose invariant never leaves diverges. *)
  Lemma loop_diverges (I : S -> Prop) s :
    I s -> (forall s, I s -> exists s', f s = Ret (inl s') /\ I s') -> loop f s = Diverge.
  Proof.
    intros HI Hf. unfold loop. rewrite ploop_nloop.
    assert (H : forall n s, I s -> exists s', nloop n s = Ret (inl s')).
    { induction n as [|n IH]; intros x Hx; simpl; [eauto|].
      destruct (Hf x Hx) as (x' & -> & Hx'). apply IH, Hx'. }
    destruct (H (Pos.to_nat fuel64) s HI) as (s' & ->). reflexivity.
  Qed.

  (** Unfolding one iteration, when the loop is known to finish. *)
  Lemma loop_unroll_exit s r : f s = Ret (inr r) -> loop f s = Ret r.
  Proof.
    intros H. unfold loop. rewrite ploop_nloop.
    destruct (Pos2Nat.is_succ fuel64) as [n ->]. simpl. rewrite H. reflexivity.
  Qed.

  (** Any non-returning outcome of the first iteration is the outcome of the loop. *)
  Lemma loop_unroll_bad s (o : outcome (S + R)) :
    f s = o -> (forall x, o <> Ret x) ->
    loop f s = match o with Ret _ => Diverge | Throw e => Throw e | UB => UB
                 | AssertFail => AssertFail | Diverge => Diverge end.
  Proof.
    intros H Ho. unfold loop. rewrite ploop_nloop.
    destruct (Pos2Nat.is_succ fuel64) as [n ->]. simpl. rewrite H.
    destruct o; try reflexivity. exfalso; eapply Ho; reflexivity.
  Qed.
End loops.

Lemma wp_for_range {S} (I : N -> S -> Prop) a b body (s : S) (Q : S -> Prop) :
  a <= b -> b < 2 ^ 64 ->
  I a s ->
  (forall i s, a <= i < b -> I i s -> wp (body i s) (I (i + 1))) ->
  (forall s, I b s -> Q s) ->
  wp (for_range a b body s) Q.
Proof.
  intros Hab Hb HI Hbody HQ. unfold for_range.
  apply wp_loop with (I := fun '(i, s) => a <= i <= b /\ I i s)
                     (mu := fun '(i, s) => b - i).
  - split; [lia|exact HI].
  - lia.
  - intros [i s'] [Hi HI']. destruct (N.ltb_spec i b) as [Hlt|Hge].
    + apply wp_bind. eapply wp_mono; [apply Hbody; [lia|exact HI']|].
      intros s'' HI''. simpl. split; [split; [lia|exact HI'']|lia].
    + simpl. apply HQ. replace b with i by lia. exact HI'.
Qed.

(** ** Words *)
Lemma UINT64_MAX_ones : UINT64_MAX = N.ones 64.
Proof. reflexivity. Qed.
Lemma w64_mod x : w64 x = x mod 2 ^ 64.
Proof. unfold w64. rewrite UINT64_MAX_ones. apply N.land_ones. Qed.
Lemma w64_small x : x < 2 ^ 64 -> w64 x = x.
Proof. intros. rewrite w64_mod. apply N.mod_small. assumption. Qed.
Lemma w64_lt x : w64 x < 2 ^ 64.
Proof. rewrite w64_mod. apply N.mod_lt. discriminate. Qed.
Lemma w64_testbit x n : N.testbit (w64 x) n = N.testbit x n && (n <? 64).
Proof.
  unfold w64. rewrite N.land_spec, UINT64_MAX_ones.
  destruct (N.ltb_spec n 64).
  - rewrite N.ones_spec_low by assumption. reflexivity.
  - rewrite N.ones_spec_high by assumption. reflexivity.
Qed.
Lemma ones_testbit k n : N.testbit (N.ones k) n = (n <? k).
Proof.
  destruct (N.ltb_spec n k).
  - apply N.ones_spec_low; assumption.
  - apply N.ones_spec_high; assumption.
Qed.
Lemma UMAX_testbit n : N.testbit UINT64_MAX n = (n <? 64).
Proof. rewrite UINT64_MAX_ones. apply ones_testbit. Qed.
Lemma shl_testbit a k n :
  N.testbit (shl a k) n = (k <=? n) && N.testbit a (n - k) && (n <? 64).
Proof.
  unfold shl. rewrite w64_testbit. f_equal.
  destruct (N.leb_spec k n).
  - rewrite N.shiftl_spec_high' by assumption. reflexivity.
  - rewrite N.shiftl_spec_low by assumption. reflexivity.
Qed.
Lemma shr_testbit a k n : N.testbit (shr a k) n = N.testbit a (n + k).
Proof. apply N.shiftr_spec'. Qed.
Lemma not64_testbit a n : N.testbit (not64 a) n = negb (N.testbit a n) && (n <? 64).
Proof.
  unfold not64. rewrite N.lxor_spec, w64_testbit, UMAX_testbit.
  destruct (N.testbit a n), (n <? 64); reflexivity.
Qed.
(** [x < 2^k] iff all bits from [k] on are zero. *)
Lemma lt_pow2_testbit x k : x < 2 ^ k <-> forall n, k <= n -> N.testbit x n = false.
Proof.
  split.
  - intros Hx n Hn. destruct (N.eq_dec x 0) as [->|Hz]; [apply N.bits_0|].
    apply N.bits_above_log2. apply N.lt_le_trans with k; [|exact Hn].
    apply N.log2_lt_pow2; lia.
  - intros H. destruct (N.eq_dec x 0) as [->|Hz].
    + apply N.neq_0_lt_0. apply N.pow_nonzero. discriminate.
    + apply N.log2_lt_pow2; [lia|].
      destruct (N.lt_ge_cases (N.log2 x) k) as [|Hge]; [assumption|].
      specialize (H _ Hge). rewrite N.bit_log2 in H by assumption. discriminate.
Qed.
Lemma testbit_high x k n : x < 2 ^ k -> k <= n -> N.testbit x n = false.
Proof. intros H. apply (proj1 (lt_pow2_testbit x k) H). Qed.
Lemma pow2_pos k : 0 < 2 ^ k.
Proof. apply N.neq_0_lt_0. apply N.pow_nonzero. discriminate. Qed.
Lemma pow2_le a b : a <= b -> 2 ^ a <= 2 ^ b.
Proof. intros. apply N.pow_le_mono_r; [discriminate|assumption]. Qed.
Lemma pow2_lt a b : a < b -> 2 ^ a < 2 ^ b.
Proof. intros. apply N.pow_lt_mono_r; [lia|assumption]. Qed.
Lemma pow2_succ a : 2 ^ (a + 1) = 2 * 2 ^ a.
Proof. rewrite N.add_1_r, N.pow_succ_r'. reflexivity. Qed.
Lemma shr_div a k : shr a k = a / 2 ^ k.
Proof. apply N.shiftr_div_pow2. Qed.
Lemma shl_mul a k : a * 2 ^ k < 2 ^ 64 -> shl a k = a * 2 ^ k.
Proof. intros H. unfold shl. rewrite N.shiftl_mul_pow2. apply w64_small, H. Qed.
Lemma land_ones_mod a k : N.land a (N.ones k) = a mod 2 ^ k.
Proof. apply N.land_ones. Qed.
Lemma lor_add_disjoint a b k : b < 2 ^ k -> N.lor (a * 2 ^ k) b = a * 2 ^ k + b.
Proof.
  intros Hb. symmetry.
  rewrite <- N.lxor_lor.
  - apply N.add_nocarry_lxor.
    apply N.bits_inj_0. intros n. rewrite N.land_spec.
    destruct (N.lt_ge_cases n k).
    + rewrite N.mul_pow2_bits_low by assumption. reflexivity.
    + rewrite (testbit_high b k n Hb) by assumption. apply andb_false_r.
  - apply N.bits_inj_0. intros n. rewrite N.land_spec.
    destruct (N.lt_ge_cases n k).
    + rewrite N.mul_pow2_bits_low by assumption. reflexivity.
    + rewrite (testbit_high b k n Hb) by assumption. apply andb_false_r.
Qed.

Lemma p2_new_eq bits : bits < 64 -> p2_new bits = Ret (mkP2 bits (N.ones bits)).
Proof.
  intros H. unfold p2_new. rewrite (proj2 (N.ltb_lt _ _) H). do 2 f_equal.
  unfold sub64. rewrite shl_mul.
  2:{ rewrite N.mul_1_l. apply pow2_lt. assumption. }
  rewrite N.mul_1_l, N.ones_equiv.
  assert (H1 := pow2_lt bits 64 H). assert (H2 := pow2_pos bits).
  change (UINT64_MAX + 1 - 1) with (2 ^ 64 - 1).
  rewrite w64_mod.
  replace (2 ^ bits + (2 ^ 64 - 1)) with (N.pred (2 ^ bits) + 1 * 2 ^ 64) by lia.
  rewrite N.mod_add by discriminate. apply N.mod_small. lia.
Qed.
Lemma p2_size_ones bits m :
  bits < 64 -> p2_size (mkP2 m (N.ones bits)) = 2 ^ bits.
Proof.
  intros H. unfold p2_size, add64; simpl p2_mask. rewrite N.ones_equiv.
  assert (H1 := pow2_lt bits 64 H). assert (H2 := pow2_pos bits).
  rewrite w64_small by lia. lia.
Qed.

(** ** Vectors *)
Lemma vnth_new {A} n (d : A) i : vnth (vnew n d) i = d.
Proof. unfold vnth, vnew; simpl. rewrite PositiveMap.gempty. reflexivity. Qed.
Lemma succ_pos_inj i j : N.succ_pos i = N.succ_pos j -> i = j.
Proof.
  intros H. assert (N.pos (N.succ_pos i) = N.pos (N.succ_pos j)) by (rewrite H; reflexivity).
  rewrite !N.succ_pos_spec in *. lia.
Qed.
Lemma vnth_upd {A} (v : vec A) i j x :
  vnth (vupd v i x) j = if j =? i then x else vnth v j.
Proof.
  unfold vnth, vupd; simpl. destruct (N.eqb_spec j i) as [->|Hne].
  - rewrite PositiveMap.gss. reflexivity.
  - rewrite PositiveMap.gso; [reflexivity|]. intros H; apply Hne, succ_pos_inj, H.
Qed.
Lemma vnth_upd_eq {A} (v : vec A) i x : vnth (vupd v i x) i = x.
Proof. rewrite vnth_upd, N.eqb_refl. reflexivity. Qed.
Lemma vnth_upd_ne {A} (v : vec A) i j x : j <> i -> vnth (vupd v i x) j = vnth v j.
Proof. intros H. rewrite vnth_upd. rewrite (proj2 (N.eqb_neq _ _) H). reflexivity. Qed.
Lemma vlen_upd {A} (v : vec A) i x : vlen (vupd v i x) = vlen v.
Proof. reflexivity. Qed.
Lemma vlen_new {A} n (d : A) : vlen (vnew n d) = n.
Proof. reflexivity. Qed.
Lemma vget_ok {A} (v : vec A) i : i < vlen v -> vget v i = Ret (vnth v i).
Proof. intros H. unfold vget. rewrite (proj2 (N.ltb_lt _ _) H). reflexivity. Qed.
Lemma vset_ok {A} (v : vec A) i x : i < vlen v -> vset v i x = Ret (vupd v i x).
Proof. intros H. unfold vset. rewrite (proj2 (N.ltb_lt _ _) H). reflexivity. Qed.
Lemma vlen_push {A} (v : vec A) x : vlen (vpush v x) = vlen v + 1.
Proof. reflexivity. Qed.
Lemma vnth_push {A} (v : vec A) x i :
  vnth (vpush v x) i = if i =? vlen v then x else vnth v i.
Proof.
  unfold vnth, vpush; simpl. destruct (N.eqb_spec i (vlen v)) as [->|Hne].
  - rewrite PositiveMap.gss. reflexivity.
  - rewrite PositiveMap.gso; [reflexivity|]. intros H; apply Hne, succ_pos_inj, H.
Qed.
Lemma vlen_resize {A} (v : vec A) n : vlen (vresize v n) = n.
Proof. reflexivity. Qed.
Lemma vnth_resize {A} (v : vec A) n i :
  vnth (vresize v n) i = if i <? N.min n (vlen v) then vnth v i else vdef v.
Proof.
  unfold vresize, vnth at 1; cbn [vmap vdef].
  assert (H : forall k, let r := N.iter k (fun '(i, m) =>
      (i + 1, PositiveMap.add (N.succ_pos i) (vnth v i) m)) (0, PositiveMap.empty A) in
      fst r = k /\ forall i, PositiveMap.find (N.succ_pos i) (snd r) =
         if i <? k then Some (vnth v i) else None).
  { intros k. induction k as [|k IH] using N.peano_ind; cbn zeta.
    - simpl. split; [reflexivity|]. intros j. rewrite PositiveMap.gempty.
      destruct (N.ltb_spec j 0); [lia|reflexivity].
    - rewrite N.iter_succ. destruct IH as [IH1 IH2].
      destruct (N.iter k _ _) as [a m]; simpl in *. subst a. split; [lia|].
      intros j. destruct (N.eq_dec j k) as [->|Hne].
      + rewrite PositiveMap.gss. destruct (N.ltb_spec k (N.succ k)); [reflexivity|lia].
      + rewrite PositiveMap.gso by (intros H; apply Hne, succ_pos_inj, H).
        rewrite IH2. destruct (N.ltb_spec j k), (N.ltb_spec j (N.succ k)); try lia; reflexivity. }
  destruct (H (N.min n (vlen v))) as [_ H2]. rewrite H2.
  destruct (i <? N.min n (vlen v)); reflexivity.
Qed.
#[global] Opaque vnth vupd vpush vresize.
#[global] Arguments vnth : simpl never.
#[global] Arguments vupd : simpl never.
#[global] Arguments vget : simpl never.
#[global] Arguments vset : simpl never.
#[global] Arguments w64 : simpl never.
#[global] Arguments shl : simpl never.
#[global] Arguments shr : simpl never.
#[global] Arguments add64 : simpl never.
#[global] Arguments sub64 : simpl never.
#[global] Arguments mul64 : simpl never.
#[global] Arguments not64 : simpl never.
#[global] Arguments loop : simpl never.
#[global] Arguments for_range : simpl never.
#[global] Arguments N.add : simpl never.
#[global] Arguments N.sub : simpl never.
#[global] Arguments N.mul : simpl never.
#[global] Arguments N.div : simpl never.
#[global] Arguments N.modulo : simpl never.
#[global] Arguments N.pow : simpl never.
#[global] Arguments N.shiftl : simpl never.
#[global] Arguments N.shiftr : simpl never.
#[global] Arguments N.land : simpl never.
#[global] Arguments N.lor : simpl never.
#[global] Arguments N.lxor : simpl never.
#[global] Arguments N.testbit : simpl never.
#[global] Arguments N.eqb : simpl never.
#[global] Arguments N.ltb : simpl never.
#[global] Arguments N.leb : simpl never.
#[global] Arguments N.ones : simpl never.
#[global] Opaque loop for_range ploop.
