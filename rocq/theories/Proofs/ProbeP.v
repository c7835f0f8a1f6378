(** Linear probing: the search loop, its invariant, insertion, counting. *)
From Verif.Proofs Require Export BaseP.
Local Open Scope N_scope.

(** ** Weakest precondition tolerating a failed assertion when [L] holds. *)
Definition wpx {A} (L : Prop) (m : outcome A) (Q : A -> Prop) : Prop :=
  match m with Ret a => Q a | AssertFail => L | _ => False end.
Lemma wpx_wp {A} (m : outcome A) Q : wpx False m Q <-> wp m Q.
Proof. destruct m; simpl; tauto. Qed.
Lemma wp_wpx {A} L (m : outcome A) Q : wp m Q -> wpx L m Q.
Proof. destruct m; simpl; tauto. Qed.
Lemma wpx_ret {A} L (a : A) (Q : A -> Prop) : Q a -> wpx L (Ret a) Q.
Proof. exact (fun H => H). Qed.
Lemma wpx_bind {A B} L (m : outcome A) (f : A -> outcome B) Q :
  wpx L m (fun a => wpx L (f a) Q) -> wpx L (bind m f) Q.
Proof. destruct m; simpl; auto. Qed.
Lemma wpx_mono {A} L (m : outcome A) (P Q : A -> Prop) :
  wpx L m P -> (forall a, P a -> Q a) -> wpx L m Q.
Proof. destruct m; simpl; auto. Qed.
Lemma wpx_intro {A} L (m : outcome A) a (Q : A -> Prop) : m = Ret a -> Q a -> wpx L m Q.
Proof. intros -> H. exact H. Qed.
Lemma wpx_limit {A} (L L' : Prop) (m : outcome A) Q : (L -> L') -> wpx L m Q -> wpx L' m Q.
Proof. destruct m; simpl; auto. Qed.

Lemma wpx_loop {S R} (f : S -> outcome (S + R)) L (I : S -> Prop) (mu : S -> N) (Q : R -> Prop) s :
  I s -> mu s < 2 ^ 64 ->
  (forall s, I s -> wpx L (f s) (fun x => match x with
      | inl s' => I s' /\ mu s' < mu s | inr r => Q r end)) ->
  wpx L (loop f s) Q.
Proof.
  intros HI Hmu Hf.
  assert (H : forall n s, I s -> (N.to_nat (mu s) < n)%nat ->
     wpx L (nloop f n s) (fun x => match x with inl _ => False | inr r => Q r end)).
  { induction n as [|n IH]; intros x Hx Hn; [lia|]. simpl. specialize (Hf x Hx).
    destruct (f x) as [[s'|r]|e| | |]; simpl in *; auto.
    destruct Hf as [HI' Hmu']. apply IH; [exact HI'|lia]. }
  Transparent loop. unfold loop. Opaque loop. rewrite ploop_nloop.
  assert (Hlt : (N.to_nat (mu s) < Pos.to_nat fuel64)%nat).
  { unfold fuel64. change (2^64) with 18446744073709551616 in Hmu.
    rewrite <- positive_N_nat. lia. }
  specialize (H _ s HI Hlt).
  destruct (nloop f (Pos.to_nat fuel64) s) as [[s'|r]|e| | |]; simpl in *; auto.
Qed.
Lemma wpx_for_range {S} L (I : N -> S -> Prop) a b body (s : S) (Q : S -> Prop) :
  a <= b -> b < 2 ^ 64 ->
  I a s ->
  (forall i s, a <= i < b -> I i s -> wpx L (body i s) (I (i + 1))) ->
  (forall s, I b s -> Q s) ->
  wpx L (for_range a b body s) Q.
Proof.
  intros Hab Hb HI Hbody HQ. Transparent for_range. unfold for_range. Opaque for_range.
  apply wpx_loop with (I := fun '(i, s) => a <= i <= b /\ I i s)
                     (mu := fun '(i, s) => b - i).
  - split; [lia|exact HI].
  - lia.
  - intros [i s'] [Hi HI']. destruct (N.ltb_spec i b) as [Hlt|Hge].
    + apply wpx_bind. eapply wpx_mono; [apply Hbody; [lia|exact HI']|].
      intros s'' HI''. simpl. split; [split; [lia|exact HI'']|lia].
    + simpl. apply HQ. replace b with i by lia. exact HI'.
Qed.

(** ** Scanning loops: the outcome is the one of the first stopping index. *)
Definition finish {S R} (o : outcome (S + R)) : outcome R :=
  match o with
  | Ret (inr r) => Ret r | Ret (inl _) => Diverge
  | Throw e => Throw e | UB => UB | AssertFail => AssertFail | Diverge => Diverge
  end.
Definition stops {S R} (o : outcome (S + R)) : Prop := forall s, o <> Ret (inl s).

Lemma loop_at {S R} (f : S -> outcome (S + R)) (st : N -> S) d :
  d < 2 ^ 64 -> (forall d', d' < d -> f (st d') = Ret (inl (st (d' + 1)))) ->
  stops (f (st d)) -> loop f (st 0) = finish (f (st d)).
Proof.
  intros Hd Hstep Hstop. Transparent loop. unfold loop. Opaque loop. rewrite ploop_nloop.
  assert (Hsp : exists m, Pos.to_nat fuel64 = (N.to_nat d + Datatypes.S m)%nat).
  { exists (Pos.to_nat fuel64 - N.to_nat d - 1)%nat.
    assert ((N.to_nat d < Pos.to_nat fuel64)%nat); [|lia].
    unfold fuel64. change (2^64) with 18446744073709551616 in Hd.
    rewrite <- positive_N_nat. lia. }
  destruct Hsp as [m ->]. rewrite nloop_add.
  assert (H : forall k, (k <= N.to_nat d)%nat -> nloop f k (st 0) = Ret (inl (st (N.of_nat k)))).
  { induction k as [|k IH]; intros Hk; [reflexivity|].
    replace (Datatypes.S k) with (k + 1)%nat by lia. rewrite nloop_add, IH by lia. simpl.
    rewrite Hstep by lia. do 3 f_equal. lia. }
  rewrite (H _ (Nat.le_refl _)), N2Nat.id. simpl. specialize (Hstop).
  destruct (f (st d)) as [[s'|r]|e| | |]; try reflexivity. exfalso. eapply Hstop. reflexivity.
Qed.

(** Least index satisfying a decidable predicate. *)
Lemma least_index (p : N -> bool) n : p n = true ->
  exists d, d <= n /\ p d = true /\ forall d', d' < d -> p d' = false.
Proof.
  induction n as [n IH] using (well_founded_induction N.lt_wf_0). intros Hn.
  assert (Hd : (forall d', d' < n -> p d' = false) \/ exists d', d' < n /\ p d' = true).
  { clear IH. assert (H : forall m, (forall d', d' < m -> p d' = false) \/ exists d', d' < m /\ p d' = true).
    { induction m as [|m IHm] using N.peano_ind; [left; lia|].
      destruct IHm as [H|(d' & H1 & H2)]; [|right; exists d'; split; [lia|exact H2]].
      destruct (p m) eqn:E; [right; exists m; split; [lia|exact E]|].
      left. intros d' Hd'. destruct (N.eq_dec d' m) as [->|]; [exact E|apply H; lia]. }
    apply H. }
  destruct Hd as [H|(d' & Hlt & Hp)].
  - exists n. repeat split; auto; lia.
  - destruct (IH d' Hlt Hp) as (d & H1 & H2 & H3). exists d. repeat split; auto; lia.
Qed.

(** ** Cells of a table of [M] slots *)
Inductive cell := Skip | Vac | Full (k : N).

Definition cell_upd (c : N -> cell) (i : N) (x : cell) : N -> cell :=
  fun j => if j =? i then x else c j.
Definition is_vac (x : cell) : bool := match x with Vac => true | _ => false end.
Definition is_full (x : cell) : bool := match x with Full _ => true | _ => false end.

Section slots.
  Context (M : N).
  Hypothesis HM : 0 < M.

  Definition slot (h d : N) : N := (h + d) mod M.
  Definition dist (h i : N) : N := (i + M - h) mod M.

  Lemma slot_lt h d : slot h d < M.
  Proof. apply N.mod_lt. lia. Qed.
  Lemma dist_lt h i : dist h i < M.
  Proof. apply N.mod_lt. lia. Qed.
  Lemma slot_dist h i : h < M -> i < M -> slot h (dist h i) = i.
  Proof.
    intros Hh Hi. unfold slot, dist.
    destruct (N.le_gt_cases h i).
    - replace (i + M - h) with (i - h + 1 * M) by lia. rewrite N.mod_add by lia.
      rewrite (N.mod_small (i - h)) by lia. rewrite N.mod_small by lia. lia.
    - rewrite (N.mod_small (i + M - h)) by lia. replace (h + (i + M - h)) with (i + 1 * M) by lia.
      rewrite N.mod_add by lia. apply N.mod_small. lia.
  Qed.
  Lemma dist_slot h d : h < M -> d < M -> dist h (slot h d) = d.
  Proof.
    intros Hh Hd. unfold slot, dist.
    destruct (N.lt_ge_cases (h + d) M).
    - rewrite (N.mod_small (h + d)) by lia. replace (h + d + M - h) with (d + 1 * M) by lia.
      rewrite N.mod_add by lia. apply N.mod_small. lia.
    - replace (h + d) with (h + d - M + 1 * M) at 1 by lia. rewrite N.mod_add by lia.
      rewrite (N.mod_small (h + d - M)) by lia. rewrite N.mod_small by lia. lia.
  Qed.
  Lemma slot_succ h d : (slot h d + 1) mod M = slot h (d + 1).
  Proof.
    unfold slot. rewrite N.add_mod_idemp_l by lia. f_equal. lia.
  Qed.
  Lemma slot_0 h : h < M -> slot h 0 = h.
  Proof. intros. unfold slot. rewrite N.add_0_r. apply N.mod_small; assumption. Qed.
  Lemma slot_inj h d d' : h < M -> d < M -> d' < M -> slot h d = slot h d' -> d = d'.
  Proof. intros Hh H1 H2 E. rewrite <- (dist_slot h d), <- (dist_slot h d') by assumption. congruence. Qed.

End slots.

Section probe.
  Context (M : N) (home : N -> N).
  Hypothesis HM : 0 < M.
  Hypothesis Hhome : forall k, home k < M.
  Notation slot := (slot M).
  Notation dist := (dist M).
  Local Hint Resolve HM : core.

  (** No vacant slot between the home of a stored key and its position; keys are stored once. *)
  Record pinv (c : N -> cell) : Prop := {
    pi_path : forall i k d, i < M -> c i = Full k -> d < dist (home k) i -> c (slot (home k) d) <> Vac;
    pi_uniq : forall i j k, i < M -> j < M -> c i = Full k -> c j = Full k -> i = j }.

  (** [probed c k d]: scanning from the home of [k], [d] slots were passed without finding [k] or
      a vacancy. *)
  Definition probed (c : N -> cell) (k d : N) : Prop :=
    forall d', d' < d -> c (slot (home k) d') <> Vac /\ c (slot (home k) d') <> Full k.

  Definition pass (c : N -> cell) (k d : N) : bool :=
    match c (slot (home k) d) with Skip => true | Vac => false | Full k' => negb (k' =? k) end.

  Lemma pass_false c k d : pass c k d = false ->
    c (slot (home k) d) = Vac \/ c (slot (home k) d) = Full k.
  Proof.
    unfold pass. destruct (c _) as [| |k']; try discriminate; auto.
    destruct (N.eqb_spec k' k) as [->|]; [auto|discriminate].
  Qed.
  Lemma pass_true c k d : pass c k d = true ->
    c (slot (home k) d) <> Vac /\ c (slot (home k) d) <> Full k.
  Proof.
    unfold pass. destruct (c _) as [| |k']; try discriminate; [split; discriminate|].
    destruct (N.eqb_spec k' k) as [->|Hne]; [discriminate|]. split; congruence.
  Qed.

  Lemma absent_of_vac c k d : pinv c -> d < M -> c (slot (home k) d) = Vac -> probed c k d ->
    forall j, j < M -> c j <> Full k.
  Proof.
    intros [Hp _] Hd Hv Hpr j Hj Hc.
    assert (Hs := slot_dist M HM (home k) j (Hhome k) Hj).
    destruct (N.lt_trichotomy d (dist (home k) j)) as [Hlt|[E|Hgt]].
    - apply (Hp j k d Hj Hc Hlt Hv).
    - rewrite E, Hs in Hv. congruence.
    - destruct (Hpr _ Hgt) as [_ H]. rewrite Hs in H. apply H, Hc.
  Qed.

  (** The search loop: it stops at the first slot that is vacant or holds the key. *)
  Lemma probe_loop {S R} (f : S -> outcome (S + R)) (st : N -> S) c k :
    M <= 2 ^ 64 -> pinv c -> (exists v, v < M /\ c v = Vac) ->
    (forall d, d < M -> c (slot (home k) d) <> Vac -> c (slot (home k) d) <> Full k ->
       f (st d) = Ret (inl (st (d + 1)))) ->
    exists d, d < M /\ probed c k d /\
      (c (slot (home k) d) = Full k \/
       (c (slot (home k) d) = Vac /\ forall j, j < M -> c j <> Full k)) /\
      (stops (f (st d)) -> loop f (st 0) = finish (f (st d))).
  Proof.
    intros HM64 Hinv (v & Hv & Ev) Hstep.
    destruct (least_index (fun d => negb (pass c k d)) (dist (home k) v)) as (d & Hd & Hpd & Hmin).
    { unfold pass. rewrite slot_dist, Ev by (assumption || apply Hhome). reflexivity. }
    pose proof (dist_lt M HM (home k) v) as HdM.
    assert (Hpr : probed c k d).
    { intros d' Hd'. apply pass_true. apply negb_false_iff, Hmin, Hd'. }
    exists d. split; [lia|]. split; [exact Hpr|]. apply negb_true_iff, pass_false in Hpd. split.
    - destruct Hpd as [Hvac|Hf]; [right|left; exact Hf].
      split; [exact Hvac|]. apply (absent_of_vac c k d); auto. lia.
    - intros Hstop. apply loop_at; [lia| |exact Hstop].
      intros d' Hd'. destruct (Hpr d' Hd'). apply Hstep; [lia|assumption|assumption].
  Qed.

  (** Loops that only look for a vacancy (re-insertion during growth). *)
  Lemma probe_vac_loop {S R} (f : S -> outcome (S + R)) (st : N -> S) c k :
    M <= 2 ^ 64 -> (exists v, v < M /\ c v = Vac) ->
    (forall d, d < M -> c (slot (home k) d) <> Vac -> f (st d) = Ret (inl (st (d + 1)))) ->
    exists d, d < M /\ (forall d', d' < d -> c (slot (home k) d') <> Vac) /\
      c (slot (home k) d) = Vac /\
      (stops (f (st d)) -> loop f (st 0) = finish (f (st d))).
  Proof.
    intros HM64 (v & Hv & Ev) Hstep.
    destruct (least_index (fun d => is_vac (c (slot (home k) d))) (dist (home k) v)) as (d & Hd & Hpd & Hmin).
    { rewrite slot_dist, Ev by (assumption || apply Hhome). reflexivity. }
    pose proof (dist_lt M HM (home k) v) as HdM.
    assert (Hpr : forall d', d' < d -> c (slot (home k) d') <> Vac).
    { intros d' Hd' E. specialize (Hmin d' Hd'). rewrite E in Hmin. discriminate. }
    exists d. split; [lia|]. split; [exact Hpr|]. split.
    { destruct (c (slot (home k) d)); simpl in Hpd; congruence. }
    intros Hstop. apply loop_at; [lia| |exact Hstop].
    intros d' Hd'. apply Hstep; [lia|apply Hpr, Hd'].
  Qed.

  Lemma pinv_insert c k d : pinv c -> d < M -> c (slot (home k) d) = Vac ->
    (forall d', d' < d -> c (slot (home k) d') <> Vac) ->
    (forall j, j < M -> c j <> Full k) ->
    pinv (cell_upd c (slot (home k) d) (Full k)).
  Proof.
    intros [Hp Hu] Hd Hv Hpr Hab. unfold cell_upd. split.
    - intros i k' d' Hi Hc Hd'.
      destruct (N.eqb_spec (slot (home k') d') (slot (home k) d)) as [|Hne]; [discriminate|].
      destruct (N.eqb_spec i (slot (home k) d)) as [->|Hni].
      + injection Hc as <-. rewrite dist_slot in Hd' by (assumption || apply Hhome).
        apply Hpr, Hd'.
      + apply (Hp i k' d' Hi Hc Hd').
    - intros i j k' Hi Hj H1 H2.
      destruct (N.eqb_spec i (slot (home k) d)) as [->|Hni], (N.eqb_spec j (slot (home k) d)) as [->|Hnj]; auto.
      + injection H1 as <-. exfalso. apply (Hab j Hj H2).
      + injection H2 as <-. exfalso. apply (Hab i Hi H1).
      + apply (Hu i j k'); assumption.
  Qed.

  (** Only the cells below [M] matter. *)
  Lemma pinv_ext c c' : (forall i, i < M -> c i = c' i) -> pinv c -> pinv c'.
  Proof.
    intros He [Hp Hu]. split.
    - intros i k d Hi Hc Hd. rewrite <- He by (apply slot_lt; assumption). apply (Hp i k d Hi); [|exact Hd].
      rewrite He; assumption.
    - intros i j k Hi Hj H1 H2. rewrite <- He in H1, H2 by assumption. eauto.
  Qed.
  Lemma pinv_empty c : (forall i k, i < M -> c i <> Full k) -> pinv c.
  Proof.
    intros H. split.
    - intros i k d Hi Hc. exfalso. apply (H i k Hi Hc).
    - intros i j k Hi _ Hc. exfalso. apply (H i k Hi Hc).
  Qed.
End probe.

(** ** Counting *)
Definition countb (p : N -> bool) (n : N) : N :=
  N.recursion 0 (fun i acc => acc + b2n (p i)) n.
Lemma countb_0 p : countb p 0 = 0.
Proof. reflexivity. Qed.
Lemma countb_succ p n : countb p (n + 1) = countb p n + b2n (p n).
Proof.
  unfold countb. rewrite N.add_1_r. rewrite N.recursion_succ; [reflexivity|reflexivity|].
  intros x y -> a b ->. reflexivity.
Qed.
Lemma countb_ext p q n : (forall i, i < n -> p i = q i) -> countb p n = countb q n.
Proof.
  induction n as [|n IH] using N.peano_ind; intros H; [reflexivity|].
  rewrite <- N.add_1_r, !countb_succ. rewrite IH by (intros; apply H; lia). rewrite H by lia. reflexivity.
Qed.
Lemma countb_le p n : countb p n <= n.
Proof.
  induction n as [|n IH] using N.peano_ind; [reflexivity|].
  rewrite <- N.add_1_r, !countb_succ. destruct (p n); simpl; lia.
Qed.
Lemma countb_lt_ex p n : countb p n < n -> exists i, i < n /\ p i = false.
Proof.
  induction n as [|n IH] using N.peano_ind; intros H; [lia|].
  rewrite <- N.add_1_r, countb_succ in H. destruct (p n) eqn:E; simpl in H.
  - destruct IH as (i & Hi & Hp); [lia|]. exists i. split; [lia|exact Hp].
  - exists n. split; [lia|exact E].
Qed.
Lemma countb_upd p q n i : i < n -> p i = false -> q i = true ->
  (forall j, j < n -> j <> i -> q j = p j) -> countb q n = countb p n + 1.
Proof.
  induction n as [|n IH] using N.peano_ind; intros Hi Hp Hq He; [lia|].
  rewrite <- N.add_1_r, !countb_succ. destruct (N.eq_dec i n) as [->|Hne].
  - rewrite Hp, Hq. simpl. rewrite (countb_ext q p n); [lia|]. intros j Hj. apply He; lia.
  - rewrite IH by (try assumption; try lia; intros; apply He; lia). rewrite He by lia. lia.
Qed.
Lemma countb_const_false p n : (forall i, i < n -> p i = false) -> countb p n = 0.
Proof.
  induction n as [|n IH] using N.peano_ind; intros H; [reflexivity|].
  rewrite <- N.add_1_r, countb_succ, IH by (intros; apply H; lia). rewrite H by lia. reflexivity.
Qed.
Lemma countb_pos p n i : i < n -> p i = true -> 0 < countb p n.
Proof.
  intros Hi Hp. rewrite (countb_upd (fun j => if j =? i then false else p j) p n i); try assumption.
  - lia.
  - rewrite N.eqb_refl. reflexivity.
  - intros j _ Hj. rewrite (proj2 (N.eqb_neq _ _) Hj). reflexivity.
Qed.
Lemma countb_mono p q n : (forall i, i < n -> p i = true -> q i = true) -> countb p n <= countb q n.
Proof.
  induction n as [|n IH] using N.peano_ind; intros H; [reflexivity|].
  rewrite <- N.add_1_r, !countb_succ. assert (countb p n <= countb q n) by (apply IH; intros; apply H; [lia|assumption]).
  destruct (p n) eqn:E; [rewrite (H n) by (lia || assumption); simpl; lia|simpl; lia].
Qed.
#[global] Opaque countb.

(** ** Sizes of finite maps *)
Lemma map_size_lt {K V} `{Countable K} (m' m : gmap K V) k v :
  m' ⊆ m -> m' !! k = None -> m !! k = Some v -> (size m' < size m)%nat.
Proof.
  intros Hs H1 H2. rewrite <- !size_dom. apply subset_size. split.
  - apply subseteq_dom, Hs.
  - intros Hd. apply (not_elem_of_dom_2 m' k H1), Hd. apply elem_of_dom. eauto.
Qed.
Lemma map_size_le {K V} `{Countable K} (m' m : gmap K V) :
  m' ⊆ m -> (size m' <= size m)%nat.
Proof. intros Hs. rewrite <- !size_dom. apply subseteq_size, subseteq_dom, Hs. Qed.
