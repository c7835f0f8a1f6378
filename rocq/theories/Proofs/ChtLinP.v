(** Quotienting with bidirectional displacement, on a line: a table of [M] positions whose collision groups
    never cross position 0.  An element sits at or left of its home. *)
From Verif.Proofs Require Export ProbeP.
Local Open Scope N_scope.

Record el := mkEl { e_h : N; e_q : N; e_v : N }.
Definition same (B : N -> option el) (p : N) : bool :=
  match B p, B (p + 1) with Some a, Some a' => e_h a =? e_h a' | _, _ => false end.

Record lin (M : N) (B : N -> option el) (vb cb : N -> bool) : Prop := {
  li_rng : forall p a, p < M -> B p = Some a -> p <= e_h a < M;
  li_next : forall p a, p < M -> B p = Some a -> p < e_h a ->
    exists a', B (p + 1) = Some a' /\ e_h a <= e_h a';
  li_cb0 : cb 0 = true;
  li_cbM : cb M = true;
  li_cb : forall p, p + 1 < M -> cb (p + 1) = negb (same B p);
  li_vb : forall y, y < M -> vb y = true <-> exists p a, p < M /\ B p = Some a /\ e_h a = y;
  li_uniq : forall p p' a a', p < M -> p' < M -> B p = Some a -> B p' = Some a' ->
    e_h a = e_h a' -> e_q a = e_q a' -> p = p' }.

Section lin.
  Context (M : N) (B : N -> option el) (vb cb : N -> bool).
  Hypothesis HM : 0 < M.
  Hypothesis L : lin M B vb cb.

  Lemma lin_chain p a x : p < M -> B p = Some a -> p <= x <= e_h a ->
    exists a', B x = Some a' /\ e_h a <= e_h a'.
  Proof.
    intros Hp Ha [Hx1 Hx2]. revert Hx2. pattern x. revert x Hx1. apply N.right_induction.
    - intros x y ->. reflexivity.
    - intros _. exists a. split; [exact Ha|lia].
    - intros x Hx IH Hle. destruct IH as (a' & Ha' & Hh); [lia|].
      pose proof (li_rng _ _ _ _ L p a Hp Ha).
      destruct (li_next _ _ _ _ L x a') as (a'' & Ha'' & Hh'); [lia|exact Ha'|lia|].
      exists a''. rewrite <- N.add_1_r. split; [exact Ha''|lia].
  Qed.
  Lemma lin_mono p a a' : p + 1 < M -> B p = Some a -> B (p + 1) = Some a' -> e_h a <= e_h a'.
  Proof.
    intros Hp Ha Ha'. destruct (li_rng _ _ _ _ L p a) as [H1 H2]; [lia|exact Ha|].
    destruct (li_rng _ _ _ _ L (p + 1) a') as [H3 H4]; [lia|exact Ha'|].
    destruct (N.eq_dec p (e_h a)) as [E|Hne]; [lia|].
    destruct (li_next _ _ _ _ L p a) as (a2 & Ha2 & Hle); [lia|exact Ha|lia|]. congruence.
  Qed.
  (** Homes increase along occupied positions. *)
  Lemma lin_mono_run p a x a' : p <= x -> x < M -> (forall y, p <= y <= x -> B y <> None) ->
    B p = Some a -> B x = Some a' -> e_h a <= e_h a'.
  Proof.
    intros Hpx. revert a'. pattern x. revert x Hpx. apply N.right_induction.
    - intros x y ->. reflexivity.
    - intros a' _ _ H1 H2. rewrite H1 in H2. injection H2 as ->. lia.
    - intros x Hx IH a' HM' Hocc Ha Ha'. rewrite <- N.add_1_r in *.
      destruct (B x) as [b|] eqn:Eb.
      + assert (e_h a <= e_h b) by (apply IH; [lia|intros y Hy; apply Hocc; lia|exact Ha|reflexivity]).
        assert (e_h b <= e_h a') by (apply (lin_mono x); [lia|exact Eb|exact Ha']). lia.
      + exfalso. apply (Hocc x); [lia|exact Eb].
  Qed.
  (** No home lies strictly between those of two neighbours. *)
  Lemma lin_gap x a a' y : x + 1 < M -> B x = Some a -> B (x + 1) = Some a' -> e_h a < y < e_h a' -> vb y = false.
  Proof.
    intros Hx Ha Ha' [Hy1 Hy2]. destruct (vb y) eqn:E; [|reflexivity]. exfalso.
    destruct (li_rng _ _ _ _ L (x + 1) a') as [H3 H4]; [lia|exact Ha'|].
    destruct (li_rng _ _ _ _ L x a) as [H5 H6]; [lia|exact Ha|].
    apply (li_vb _ _ _ _ L) in E as (q & b & Hq & Hb & <-); [|lia].
    destruct (li_rng _ _ _ _ L q b Hq Hb) as [H1 H2].
    destruct (N.le_gt_cases (x + 1) q) as [Hle|Hgt].
    - destruct (lin_chain (x + 1) a' q) as (b' & Hb' & Hh); [lia|exact Ha'|lia|].
      rewrite Hb in Hb'. injection Hb' as <-. lia.
    - destruct (lin_chain q b x) as (b' & Hb' & Hh); [lia|exact Hb|lia|].
      rewrite Ha in Hb'. injection Hb' as <-. lia.
  Qed.

  Hypothesis H0 : B 0 = None.
  Lemma lin_pos p a : B p = Some a -> 1 <= p.
  Proof. intros Ha. destruct (N.eq_dec p 0) as [->|]; [congruence|lia]. Qed.
  Lemma lin_vb0 : vb 0 = false.
  Proof.
    destruct (vb 0) eqn:E; [|reflexivity]. apply (li_vb _ _ _ _ L) in E as (q & b & Hq & Hb & E); [|lia].
    pose proof (lin_pos _ _ Hb). pose proof (li_rng _ _ _ _ L q b Hq Hb). lia.
  Qed.
  Lemma lin_first a y : 1 < M -> B 1 = Some a -> y < e_h a -> vb y = false.
  Proof.
    intros H1 Ha Hy. destruct (vb y) eqn:E; [|reflexivity]. exfalso.
    destruct (li_rng _ _ _ _ L 1 a) as [H5 H6]; [lia|exact Ha|].
    apply (li_vb _ _ _ _ L) in E as (q & b & Hq & Hb & <-); [|lia].
    destruct (li_rng _ _ _ _ L q b Hq Hb) as [H7 H8]. pose proof (lin_pos _ _ Hb).
    destruct (lin_chain 1 a q) as (b' & Hb' & Hh); [lia|exact Ha|lia|]. rewrite Hb in Hb'. injection Hb' as <-. lia.
  Qed.

  (** Numbers of homes up to [y] and of group starts in [1..x]. *)
  Definition cV (y : N) : N := countb vb (y + 1).
  Definition cC (x : N) : N := countb (fun i => cb (i + 1)) x.
  Lemma cC_succ x : cC (x + 1) = cC x + b2n (cb (x + 1)).
  Proof. unfold cC. rewrite countb_succ. reflexivity. Qed.
  Lemma cV_succ y : cV (y + 1) = cV y + b2n (vb (y + 1)).
  Proof. unfold cV. rewrite countb_succ. reflexivity. Qed.
  Lemma cV_mono y y' : y <= y' -> cV y <= cV y'.
  Proof.
    intros Hle. pattern y'. revert y' Hle. apply N.right_induction.
    - intros x z ->. reflexivity.
    - lia.
    - intros x Hx IH. rewrite <- N.add_1_r, cV_succ. lia.
  Qed.
  Lemma cV_const y y' : y <= y' -> (forall z, y < z <= y' -> vb z = false) -> cV y' = cV y.
  Proof.
    intros Hle. pattern y'. revert y' Hle. apply N.right_induction.
    - intros x z ->. reflexivity.
    - reflexivity.
    - intros x Hx IH Hz. rewrite <- N.add_1_r in *. rewrite cV_succ, Hz by lia. simpl.
      rewrite IH; [lia|]. intros z Hzz. apply Hz. lia.
  Qed.
  Lemma cV_strict y y' : y < y' -> vb y' = true -> cV y < cV y'.
  Proof.
    intros Hlt Hv. replace y' with (y' - 1 + 1) in * by lia. rewrite cV_succ, Hv. simpl.
    assert (cV y <= cV (y' - 1)) by (apply cV_mono; lia). lia.
  Qed.
  Lemma cV_zero y : (forall z, z <= y -> vb z = false) -> cV y = 0.
  Proof. intros Hz. apply countb_const_false. intros i Hi. apply Hz. lia. Qed.
  Lemma cb_occ p : p + 1 < M -> cb (p + 1) = false ->
    exists a a', B p = Some a /\ B (p + 1) = Some a' /\ e_h a = e_h a'.
  Proof.
    intros Hp Hc. rewrite (li_cb _ _ _ _ L p Hp) in Hc. unfold same in Hc.
    destruct (B p) as [a|], (B (p + 1)) as [a'|]; try discriminate.
    exists a, a'. repeat split. apply N.eqb_eq. destruct (e_h a =? e_h a'); [reflexivity|discriminate].
  Qed.

  Lemma count_eq x a : 1 <= x -> x < M -> (forall y, 1 <= y <= x -> B y <> None) -> B x = Some a ->
    cV (e_h a) = cC x.
  Proof.
    intros Hx. revert a. pattern x. revert x Hx. apply N.right_induction.
    - intros x y ->. reflexivity.
    - intros a HxM Hocc Ha. change 1 with (0 + 1) at 1. rewrite cC_succ. change (cC 0) with 0.
      destruct (li_rng _ _ _ _ L 1 a HxM Ha) as [Hr1 Hr2].
      rewrite (li_cb _ _ _ _ L) by exact HxM. unfold same. rewrite H0. simpl.
      replace (e_h a) with (e_h a - 1 + 1) by lia. rewrite cV_succ. rewrite cV_zero.
      + replace (e_h a - 1 + 1) with (e_h a) by lia.
        rewrite (proj2 (li_vb _ _ _ _ L (e_h a) Hr2)); [reflexivity|]. exists 1, a. auto.
      + intros z Hz. apply (lin_first a z HxM Ha). lia.
    - intros x Hx IH a HxM Hocc Ha. rewrite <- N.add_1_r in *. rewrite cC_succ.
      destruct (B x) as [b|] eqn:Eb; [|exfalso; apply (Hocc x); [lia|exact Eb]].
      rewrite <- (IH b); [|lia|intros y Hy; apply Hocc; lia|reflexivity].
      rewrite (li_cb _ _ _ _ L) by exact HxM. unfold same. rewrite Eb, Ha.
      destruct (li_rng _ _ _ _ L (x + 1) a HxM Ha) as [Hr1 Hr2].
      pose proof (lin_mono x b a HxM Eb Ha). destruct (N.eqb_spec (e_h b) (e_h a)) as [E|Hne].
      + rewrite E. simpl. lia.
      + simpl. replace (e_h a) with (e_h a - 1 + 1) by lia. rewrite cV_succ.
        rewrite (cV_const (e_h b) (e_h a - 1)).
        * replace (e_h a - 1 + 1) with (e_h a) by lia.
          rewrite (proj2 (li_vb _ _ _ _ L (e_h a) Hr2)); [reflexivity|]. exists (x + 1), a. auto.
        * lia.
        * intros z Hz. apply (lin_gap x b a z HxM Eb Ha). lia.
  Qed.

  Lemma cV_pos_max m : 0 < cV m -> exists y, y <= m /\ vb y = true /\ forall z, y < z <= m -> vb z = false.
  Proof.
    induction m as [|m IH] using N.peano_ind; intros Hp.
    - exists 0. unfold cV in Hp. rewrite countb_succ in Hp. change (countb vb 0) with 0 in Hp.
      destruct (vb 0) eqn:E; [|simpl in Hp; lia]. split; [lia|]. split; [reflexivity|]. intros z Hz. lia.
    - rewrite <- N.add_1_r in *. rewrite cV_succ in Hp. destruct (vb (m + 1)) eqn:E.
      + exists (m + 1). split; [lia|]. split; [exact E|]. intros z Hz. lia.
      + simpl in Hp. destruct IH as (y & Hy & Hv & Hz); [lia|]. exists y. split; [lia|]. split; [exact Hv|].
        intros z Hz'. destruct (N.eq_dec z (m + 1)) as [->|]; [exact E|]. apply Hz. lia.
  Qed.

  (** The group found by counting. *)
  Lemma find_group m : m < M -> (forall y, 1 <= y <= m -> B y <> None) -> 0 < cV m ->
    exists x a, 1 <= x <= m /\ cC x = cV m /\ (forall k, k < x -> cC k < cV m) /\ B x = Some a /\ cb x = true /\
      e_h a <= m /\ vb (e_h a) = true /\ forall y, e_h a < y <= m -> vb y = false.
  Proof.
    intros Hm Hocc Hpos. destruct (cV_pos_max m Hpos) as (y & Hy & Hvy & Hmax).
    destruct (proj1 (li_vb _ _ _ _ L y ltac:(lia)) Hvy) as (q & b & Hq & Hb & Ehb).
    pose proof (lin_pos _ _ Hb) as Hq1. destruct (li_rng _ _ _ _ L q b Hq Hb) as [Hr1 Hr2].
    assert (EV : cV m = cV y) by (apply cV_const; assumption).
    assert (ECq : cC q = cV m).
    { rewrite EV, <- Ehb. symmetry. apply count_eq; [lia|lia|intros z Hz; apply Hocc; lia|exact Hb]. }
    destruct (least_index (fun x => cC x =? cV m) q) as (x & Hxq & Hx & Hleast).
    { apply N.eqb_eq, ECq. }
    apply N.eqb_eq in Hx.
    assert (Hx1 : 1 <= x). { destruct (N.eq_dec x 0) as [->|]; [change (cC 0) with 0 in Hx; lia|lia]. }
    assert (Hcm : forall k, k <= x -> cC k <= cC x).
    { intros k Hk. pattern x. revert Hk. generalize x. apply N.right_induction.
      - intros u v ->. reflexivity.
      - reflexivity.
      - intros u Hu IH. rewrite <- N.add_1_r, cC_succ. lia. }
    assert (Hlt : forall k, k < x -> cC k < cV m).
    { intros k Hk. specialize (Hleast k Hk). apply N.eqb_neq in Hleast. specialize (Hcm k ltac:(lia)). lia. }
    destruct (B x) as [a|] eqn:Ea; [|exfalso; apply (Hocc x); [lia|exact Ea]].
    destruct (li_rng _ _ _ _ L x a ltac:(lia) Ea) as [Hr3 Hr4].
    assert (Hva : vb (e_h a) = true) by (apply (li_vb _ _ _ _ L); [lia|]; exists x, a; auto with lia).
    assert (EVa : cV (e_h a) = cV y).
    { rewrite <- EV, <- Hx. apply count_eq; [lia|lia|intros z Hz; apply Hocc; lia|exact Ea]. }
    assert (Eha : e_h a = y).
    { destruct (N.lt_trichotomy (e_h a) y) as [Hc|[Hc|Hc]]; [|exact Hc|].
      - pose proof (cV_strict _ _ Hc Hvy). lia.
      - pose proof (cV_strict _ _ Hc Hva). lia. }
    exists x, a. split; [lia|]. split; [exact Hx|]. split; [exact Hlt|]. split; [exact Ea|].
    split.
    { replace x with (x - 1 + 1) in Hx by lia. rewrite cC_succ in Hx. specialize (Hlt (x - 1) ltac:(lia)).
      replace (x - 1 + 1) with x in Hx by lia. destruct (cb x); [reflexivity|simpl in Hx; lia]. }
    split; [lia|]. split; [exact Hva|]. rewrite Eha. exact Hmax.
  Qed.

  (** A group is an interval between two starts. *)
  Lemma group_all x g a q b : cb x = true -> cb g = true -> x < g -> g <= M -> B x = Some a ->
    (forall p, x <= p < g -> exists a', B p = Some a' /\ e_h a' = e_h a) ->
    q < M -> B q = Some b -> e_h b = e_h a -> x <= q < g.
  Proof.
    intros Hcx Hcg Hxg HgM Ha Hall Hq Hb Eh.
    assert (Hx1 := lin_pos _ _ Ha). assert (Hq1 := lin_pos _ _ Hb).
    destruct (li_rng _ _ _ _ L x a ltac:(lia) Ha) as [Hr1 Hr2]. destruct (li_rng _ _ _ _ L q b Hq Hb) as [Hr3 Hr4].
    assert (Hcase : forall p, p + 1 < M -> cb (p + 1) = true -> forall a1 a2, B p = Some a1 -> B (p + 1) = Some a2 -> e_h a1 <> e_h a2).
    { intros p Hp Hc a1 a2 E1 E2 Ee. rewrite (li_cb _ _ _ _ L) in Hc by exact Hp. unfold same in Hc.
      rewrite E1, E2, Ee, N.eqb_refl in Hc. discriminate. }
    split.
    - destruct (N.le_gt_cases x q) as [|Hlt]; [assumption|]. exfalso.
      destruct (lin_chain q b (x - 1)) as (b' & Hb' & Hle); [lia|exact Hb|lia|].
      assert (Hx : x - 1 + 1 = x) by lia.
      assert (e_h b' <= e_h a) by (apply (lin_mono (x - 1)); [lia|exact Hb'|rewrite Hx; exact Ha]).
      apply (Hcase (x - 1) ltac:(lia) ltac:(rewrite Hx; exact Hcx) b' a Hb'); [rewrite Hx; exact Ha|lia].
    - destruct (N.lt_ge_cases q g) as [|Hge]; [assumption|]. exfalso.
      destruct (Hall (g - 1)) as (a1 & Ha1 & Eh1); [lia|].
      assert (Hg : g - 1 + 1 = g) by lia.
      destruct (lin_chain x a g) as (a2 & Ha2 & Hle); [lia|exact Ha|lia|].
      assert (Hge2 : e_h a2 <= e_h b).
      { apply (lin_mono_run g a2 q b); [lia|lia| |exact Ha2|exact Hb].
        intros y Hy E. destruct (lin_chain x a y) as (a3 & Ha3 & _); [lia|exact Ha|lia|]. congruence. }
      apply (Hcase (g - 1) ltac:(lia) ltac:(rewrite Hg; exact Hcg) a1 a2 Ha1); [rewrite Hg; exact Ha2|lia].
  Qed.

  (** Insertion of an element with home [m] at position [x], shifting [1..x] to the left. *)
  Definition ins_B (x : N) (a : el) (p : N) : option el :=
    if p <? x then B (p + 1) else if p =? x then Some a else B p.
  Definition ins_cb (x : N) (c : bool) (p : N) : bool :=
    if p <? x then cb (p + 1) else if p =? x then c else cb p.
  Definition ins_vb (m : N) (y : N) : bool := if y =? m then true else vb y.
  Lemma ins_lin m x a c : m < M -> (forall y, 1 <= y <= m -> B y <> None) -> x <= m -> e_h a = m ->
    (forall p b, 1 <= p <= x -> B p = Some b -> e_h b <= m) ->
    (forall p b, x < p <= m -> B p = Some b -> m < e_h b) ->
    (forall p b, p < M -> B p = Some b -> e_h b = m -> e_q b <> e_q a) ->
    c = negb (vb m) ->
    lin M (ins_B x a) (ins_vb m) (ins_cb x c).
  Proof.
    intros Hm Hocc Hxm Ea Hlo Hhi Hfr Hc.
    (* what position p of the new table holds *)
    assert (Hold : forall p b, p < M -> ins_B x a p = Some b -> (p = x /\ b = a) \/
              (p < x /\ B (p + 1) = Some b) \/ (x < p /\ B p = Some b)).
    { intros p b Hp. unfold ins_B. destruct (N.ltb_spec p x); [auto|].
      destruct (N.eqb_spec p x) as [->|]; [intros [= <-]; auto|]. intros E. right. right. split; [lia|exact E]. }
    assert (HxM : x < M) by lia.
    assert (HB1 : forall p, p < x -> ins_B x a p = B (p + 1)).
    { intros p Hp. unfold ins_B. rewrite (proj2 (N.ltb_lt _ _) Hp). reflexivity. }
    assert (HB2 : ins_B x a x = Some a).
    { unfold ins_B. rewrite N.ltb_irrefl, N.eqb_refl. reflexivity. }
    assert (HB3 : forall p, x < p -> ins_B x a p = B p).
    { intros p Hp. unfold ins_B. rewrite (proj2 (N.ltb_ge _ _)) by lia. rewrite (proj2 (N.eqb_neq _ _)) by lia. reflexivity. }
    assert (HC1 : forall p, p < x -> ins_cb x c p = cb (p + 1)).
    { intros p Hp. unfold ins_cb. rewrite (proj2 (N.ltb_lt _ _) Hp). reflexivity. }
    assert (HC2 : ins_cb x c x = c).
    { unfold ins_cb. rewrite N.ltb_irrefl, N.eqb_refl. reflexivity. }
    assert (HC3 : forall p, x < p -> ins_cb x c p = cb p).
    { intros p Hp. unfold ins_cb. rewrite (proj2 (N.ltb_ge _ _)) by lia. rewrite (proj2 (N.eqb_neq _ _)) by lia. reflexivity. }
    assert (Hocc' : forall p, 1 <= p <= m -> exists b, B p = Some b).
    { intros p Hp. destruct (B p) as [b|] eqn:E; [eauto|]. exfalso. apply (Hocc p Hp E). }
    (* whether the group exists is seen at position x *)
    assert (Hgrp : vb m = true -> 1 <= x /\ exists b, B x = Some b /\ e_h b = m).
    { intros Hv. apply (li_vb _ _ _ _ L) in Hv as (q & b & Hq & Hb & Eb); [|lia].
      pose proof (lin_pos _ _ Hb). destruct (li_rng _ _ _ _ L q b Hq Hb) as [Hr1 Hr2].
      assert (Hqx : q <= x). { destruct (N.le_gt_cases q x); [assumption|]. specialize (Hhi q b ltac:(lia) Hb). lia. }
      split; [lia|]. destruct (Hocc' x ltac:(lia)) as [b' Hb']. exists b'. split; [exact Hb'|].
      specialize (Hlo x b' ltac:(lia) Hb').
      assert (e_h b <= e_h b'); [|lia].
      apply (lin_mono_run q b x b'); [lia|lia| |exact Hb|exact Hb'].
      intros y Hy. apply Hocc. lia. }
    split.
    - intros p b Hp Hb. destruct (Hold p b Hp Hb) as [[-> ->]|[[H1 H2]|[H1 H2]]].
      + lia.
      + destruct (li_rng _ _ _ _ L (p + 1) b ltac:(lia) H2). lia.
      + apply (li_rng _ _ _ _ L p b Hp H2).
    - intros p b Hp Hb Hlt. destruct (Hold p b Hp Hb) as [[-> ->]|[[H1 H2]|[H1 H2]]].
      + rewrite HB3 by lia. destruct (Hocc' (x + 1) ltac:(lia)) as [b Hb']. exists b. split; [exact Hb'|].
        specialize (Hhi (x + 1) b ltac:(lia) Hb'). lia.
      + destruct (N.eq_dec (p + 1) x) as [E|Hne].
        * rewrite E, HB2. exists a. split; [reflexivity|]. rewrite E in H2. rewrite Ea. apply (Hlo x b); [lia|exact H2].
        * rewrite HB1 by lia. destruct (Hocc' (p + 1 + 1) ltac:(lia)) as [b' Hb']. exists b'. split; [exact Hb'|].
          apply (lin_mono (p + 1)); [lia|exact H2|exact Hb'].
      + rewrite HB3 by lia. apply (li_next _ _ _ _ L p b Hp H2 Hlt).
    - destruct (N.eq_dec x 0) as [->|Hx].
      + rewrite HC2, Hc. destruct (vb m) eqn:Ev; [|reflexivity]. destruct (Hgrp eq_refl) as [? _]. lia.
      + rewrite HC1 by lia. rewrite (li_cb _ _ _ _ L) by lia. unfold same. rewrite H0. reflexivity.
    - rewrite HC3 by exact HxM. apply (li_cbM _ _ _ _ L).
    - intros p Hp. unfold same. destruct (N.lt_trichotomy (p + 1) x) as [H1|[H1|H1]].
      + rewrite HC1 by lia. rewrite !HB1 by lia. apply (li_cb _ _ _ _ L). lia.
      + rewrite H1, HC2, HB2, HB1 by lia. rewrite H1, Hc.
        destruct (Hocc' x ltac:(lia)) as [b Hb]. rewrite Hb. rewrite Ea. f_equal.
        destruct (vb m) eqn:Ev.
        * destruct (Hgrp eq_refl) as (_ & b' & Hb' & E'). rewrite Hb in Hb'. injection Hb' as <-. symmetry. apply N.eqb_eq, E'.
        * symmetry. apply N.eqb_neq. intros E. enough (vb m = true) by congruence. apply (li_vb _ _ _ _ L); [lia|].
          exists x, b. auto.
      + rewrite HC3 by lia. rewrite (HB3 (p + 1)) by lia. destruct (N.eq_dec p x) as [->|Hne].
        * rewrite HB2. rewrite (li_cb _ _ _ _ L) by exact Hp. unfold same. f_equal.
          destruct (B (x + 1)) as [b'|] eqn:Eb'.
          -- assert (Hbig : m < e_h b').
             { destruct (N.le_gt_cases (x + 1) m) as [|]; [apply (Hhi (x + 1)); [lia|exact Eb']|].
               pose proof (li_rng _ _ _ _ L (x + 1) b' Hp Eb'). lia. }
             rewrite (proj2 (N.eqb_neq (e_h a) _)) by lia.
             destruct (B x) as [b|] eqn:Eb; [|reflexivity].
             pose proof (lin_pos _ _ Eb). specialize (Hlo x b ltac:(lia) Eb). apply N.eqb_neq. lia.
          -- destruct (B x); reflexivity.
        * rewrite HB3 by lia. apply (li_cb _ _ _ _ L). exact Hp.
    - intros y Hy. unfold ins_vb. destruct (N.eqb_spec y m) as [->|Hne].
      + split; [|reflexivity]. intros _. exists x, a. auto.
      + rewrite (li_vb _ _ _ _ L y Hy). split; intros (p & b & Hp & Hb & E).
        * pose proof (lin_pos _ _ Hb). destruct (N.le_gt_cases p x).
          -- exists (p - 1), b. rewrite HB1 by lia. replace (p - 1 + 1) with p by lia. repeat split; [lia|exact Hb|exact E].
          -- exists p, b. rewrite HB3 by lia. auto.
        * destruct (Hold p b Hp Hb) as [[-> ->]|[[H1 H2]|[H1 H2]]]; [congruence| |].
          -- exists (p + 1), b. repeat split; [lia|exact H2|exact E].
          -- exists p, b. auto.
    - intros p p' b b' Hp Hp' Hb Hb' Eh Eq.
      destruct (Hold p b Hp Hb) as [[-> ->]|[[H1 H2]|[H1 H2]]], (Hold p' b' Hp' Hb') as [[-> ->]|[[H3 H4]|[H3 H4]]];
        try reflexivity.
      + exfalso. apply (Hfr (p' + 1) b' ltac:(lia) H4); congruence.
      + exfalso. apply (Hfr p' b' Hp' H4); congruence.
      + exfalso. apply (Hfr (p + 1) b ltac:(lia) H2); congruence.
      + pose proof (li_uniq _ _ _ _ L (p + 1) (p' + 1) b b' ltac:(lia) ltac:(lia) H2 H4 Eh Eq). lia.
      + pose proof (li_uniq _ _ _ _ L (p + 1) p' b b' ltac:(lia) Hp' H2 H4 Eh Eq). lia.
      + exfalso. apply (Hfr p b Hp H2); congruence.
      + pose proof (li_uniq _ _ _ _ L p (p' + 1) b b' Hp ltac:(lia) H2 H4 Eh Eq). lia.
      + apply (li_uniq _ _ _ _ L p p' b b'); assumption.
  Qed.
End lin.

Section lin2.
  Context (M : N) (B : N -> option el) (vb cb : N -> bool).
  Hypothesis HM : 0 < M.
  Hypothesis L : lin M B vb cb.

  Definition setp {A} (f : N -> A) (i : N) (x : A) : N -> A := fun j => if j =? i then x else f j.
  Lemma setp_eq {A} (f : N -> A) i x : setp f i x i = x.
  Proof. unfold setp. rewrite N.eqb_refl. reflexivity. Qed.
  Lemma setp_ne {A} (f : N -> A) i x j : j <> i -> setp f i x j = f j.
  Proof. intros H. unfold setp. rewrite (proj2 (N.eqb_neq _ _) H). reflexivity. Qed.

  (** A vacant home: the element is stored there. *)
  Lemma put_lin m a : m < M -> B m = None -> e_h a = m -> lin M (setp B m (Some a)) (setp vb m true) (setp cb m true).
  Proof.
    intros Hm Hn Ea.
    assert (Hnov : vb m = false).
    { destruct (vb m) eqn:E; [|reflexivity]. exfalso.
      apply (li_vb _ _ _ _ L) in E as (q & b & Hq & Hb & Eh); [|exact Hm].
      destruct (li_rng _ _ _ _ L q b Hq Hb). destruct (lin_chain M B vb cb HM L q b m Hq Hb) as (b' & Hb' & _); [lia|congruence]. }
    assert (Hcm : cb m = true).
    { destruct (N.eq_dec m 0) as [->|Hz]; [apply (li_cb0 _ _ _ _ L)|].
      replace m with (m - 1 + 1) by lia. rewrite (li_cb _ _ _ _ L) by lia. unfold same. replace (m - 1 + 1) with m by lia.
      rewrite Hn. destruct (B (m - 1)); reflexivity. }
    assert (Hold : forall p b, setp B m (Some a) p = Some b -> (p = m /\ b = a) \/ (p <> m /\ B p = Some b)).
    { intros p b. unfold setp. destruct (N.eqb_spec p m) as [->|]; [intros [= <-]; auto|auto]. }
    split.
    - intros p b Hp Hb. destruct (Hold p b Hb) as [[-> ->]|[_ H2]]; [lia|apply (li_rng _ _ _ _ L p b Hp H2)].
    - intros p b Hp Hb Hlt. destruct (Hold p b Hb) as [[-> ->]|[H1 H2]]; [lia|].
      destruct (li_next _ _ _ _ L p b Hp H2 Hlt) as (b' & Hb' & Hle). exists b'. split; [|exact Hle].
      rewrite setp_ne; [exact Hb'|]. intros E. congruence.
    - unfold setp. destruct (0 =? m); [reflexivity|apply (li_cb0 _ _ _ _ L)].
    - rewrite setp_ne by lia. apply (li_cbM _ _ _ _ L).
    - intros p Hp. unfold same. destruct (N.eq_dec (p + 1) m) as [E|Hne].
      + rewrite E. rewrite !setp_eq. rewrite setp_ne by lia. destruct (B p) as [b|] eqn:Eb; [|reflexivity].
        symmetry. apply negb_true_iff, N.eqb_neq. intros Eh. rewrite Ea in Eh.
        destruct (li_next _ _ _ _ L p b) as (b' & Hb' & _); [lia|exact Eb|lia|]. rewrite E in Hb'. congruence.
      + rewrite (setp_ne cb) by exact Hne. rewrite (li_cb _ _ _ _ L) by exact Hp. unfold same.
        rewrite (setp_ne B m _ (p + 1)) by exact Hne. f_equal. destruct (N.eq_dec p m) as [->|Hpm].
        * rewrite setp_eq, Hn. destruct (B (m + 1)) as [b|] eqn:Eb; [|reflexivity].
          destruct (li_rng _ _ _ _ L (m + 1) b Hp Eb). symmetry. apply N.eqb_neq. lia.
        * rewrite setp_ne by exact Hpm. reflexivity.
    - intros y Hy. destruct (N.eq_dec y m) as [->|Hne].
      + rewrite setp_eq. split; [|reflexivity]. intros _. exists m, a. rewrite setp_eq. auto.
      + rewrite setp_ne by exact Hne. rewrite (li_vb _ _ _ _ L y Hy). split; intros (p & b & Hp & Hb & E).
        * exists p, b. rewrite setp_ne by congruence. auto.
        * destruct (Hold p b Hb) as [[-> ->]|[H1 H2]]; [congruence|]. exists p, b. auto.
    - intros p p' b b' Hp Hp' Hb Hb' Eh Eq.
      assert (Hno : forall q d, q < M -> B q = Some d -> e_h d <> m).
      { intros q d Hq Hd E. enough (vb m = true) by congruence. apply (li_vb _ _ _ _ L); [lia|]. eauto. }
      destruct (Hold p b Hb) as [[-> ->]|[H1 H2]], (Hold p' b' Hb') as [[-> ->]|[H3 H4]]; try reflexivity.
      + exfalso. apply (Hno p' b' Hp' H4). congruence.
      + exfalso. apply (Hno p b Hp H2). congruence.
      + apply (li_uniq _ _ _ _ L p p' b b'); assumption.
  Qed.

  (** A new value. *)
  Lemma val_lin p a v : p < M -> B p = Some a -> lin M (setp B p (Some (mkEl (e_h a) (e_q a) v))) vb cb.
  Proof.
    intros Hp Ha. set (a' := mkEl (e_h a) (e_q a) v).
    assert (Hold : forall x b, setp B p (Some a') x = Some b -> exists b0, B x = Some b0 /\ e_h b = e_h b0 /\ e_q b = e_q b0).
    { intros x b. unfold setp. destruct (N.eqb_spec x p) as [->|]; [intros [= <-]; eauto|eauto]. }
    assert (Hnew : forall x b0, B x = Some b0 -> exists b, setp B p (Some a') x = Some b /\ e_h b = e_h b0).
    { intros x b0 Hx. unfold setp. destruct (N.eqb_spec x p) as [->|]; [|eauto]. rewrite Ha in Hx. injection Hx as <-. exists a'. auto. }
    assert (Hnone : forall x, B x = None -> setp B p (Some a') x = None).
    { intros x Hx. rewrite setp_ne; [exact Hx|congruence]. }
    destruct L as [L1 L2 L3 L4 L5 L6 L7]. split; auto.
    - intros x b Hx Hb. destruct (Hold x b Hb) as (b0 & H1 & -> & _). eauto.
    - intros x b Hx Hb Hlt. destruct (Hold x b Hb) as (b0 & H1 & E & _). rewrite E in *.
      destruct (L2 x b0 Hx H1 Hlt) as (b1 & H2 & Hle). destruct (Hnew _ _ H2) as (b2 & H3 & E3). exists b2. rewrite E3. auto.
    - intros x Hx. rewrite L5 by exact Hx. f_equal. unfold same.
      destruct (B x) as [b|] eqn:E1; [|rewrite (Hnone x E1); reflexivity].
      destruct (Hnew _ _ E1) as (b1 & -> & Eh1).
      destruct (B (x + 1)) as [b'|] eqn:E2; [|rewrite (Hnone _ E2); reflexivity].
      destruct (Hnew _ _ E2) as (b2 & -> & Eh2). rewrite Eh1, Eh2. reflexivity.
    - intros y Hy. rewrite (L6 y Hy). split; intros (x & b & Hx & Hb & E).
      + destruct (Hnew _ _ Hb) as (b1 & Hb1 & E1). exists x, b1. rewrite E1. auto.
      + destruct (Hold _ _ Hb) as (b1 & Hb1 & E1 & _). exists x, b1. rewrite <- E1. auto.
    - intros x x' b b' Hx Hx' Hb Hb' Eh Eq. destruct (Hold _ _ Hb) as (b1 & Hb1 & E1 & E2).
      destruct (Hold _ _ Hb') as (b2 & Hb2 & E3 & E4). apply (L7 x x' b1 b2); congruence.
  Qed.

  (** Turning the line at a vacant position [k]. *)
  Definition rot_p (k q : N) : N := if q <? M - k then k + q else k + q - M.
  Definition rot_h (k h : N) : N := if h <? k then h + M - k else h - k.
  Definition rot_B (k q : N) : option el :=
    match B (rot_p k q) with Some a => Some (mkEl (rot_h k (e_h a)) (e_q a) (e_v a)) | None => None end.
  Definition rot_b (f : N -> bool) (k q : N) : bool := f (rot_p k q).
  Lemma rot_lin k : k < M -> B k = None -> lin M (rot_B k) (rot_b vb k) (rot_b cb k) /\ rot_B k 0 = None.
  Proof.
    intros Hk Hn.
    assert (Hside : forall p a, p < k -> B p = Some a -> e_h a < k).
    { intros p a Hp Ha. destruct (N.lt_ge_cases (e_h a) k); [assumption|]. exfalso.
      destruct (lin_chain M B vb cb HM L p a k) as (a' & Ha' & _); [lia|exact Ha|lia|congruence]. }
    assert (Hside2 : forall p a, k <= p -> p < M -> B p = Some a -> k < p /\ p <= e_h a < M).
    { intros p a Hp HpM Ha. split; [|apply (li_rng _ _ _ _ L p a HpM Ha)].
      destruct (N.eq_dec p k) as [->|]; [congruence|lia]. }
    assert (Hrp : forall q, q < M -> rot_p k q < M).
    { intros q Hq. unfold rot_p. destruct (N.ltb_spec q (M - k)); lia. }
    assert (HB : forall q b, q < M -> rot_B k q = Some b -> exists a, B (rot_p k q) = Some a /\
        e_h b = rot_h k (e_h a) /\ e_q b = e_q a).
    { intros q b Hq. unfold rot_B. destruct (B (rot_p k q)) as [a|]; [|discriminate]. intros [= <-]. eauto. }
    assert (Hrh : forall q a, q < M -> B (rot_p k q) = Some a ->
        (q < M - k /\ rot_p k q = k + q /\ k < e_h a < M /\ rot_h k (e_h a) = e_h a - k) \/
        (M - k <= q /\ rot_p k q = k + q - M /\ e_h a < k /\ rot_h k (e_h a) = e_h a + M - k)).
    { intros q a Hq Ha. unfold rot_p in *. destruct (N.ltb_spec q (M - k)) as [H1|H1].
      - left. destruct (Hside2 (k + q) a) as [H2 H3]; [lia|lia|exact Ha|]. split; [exact H1|]. split; [reflexivity|].
        split; [lia|]. unfold rot_h. rewrite (proj2 (N.ltb_ge _ _)) by lia. reflexivity.
      - right. assert (e_h a < k) by (apply (Hside (k + q - M) a); [lia|exact Ha]). split; [exact H1|].
        split; [reflexivity|]. split; [assumption|]. unfold rot_h. rewrite (proj2 (N.ltb_lt _ _)) by assumption. reflexivity. }
    assert (Hr0 : rot_B k 0 = None).
    { unfold rot_B, rot_p. rewrite (proj2 (N.ltb_lt _ _)) by lia. rewrite N.add_0_r, Hn. reflexivity. }
    split; [|exact Hr0]. split.
    - intros q b Hq Hb. destruct (HB q b Hq Hb) as (a & Ha & -> & _).
      pose proof (li_rng _ _ _ _ L _ a (Hrp q Hq) Ha).
      destruct (Hrh q a Hq Ha) as [(H1 & H2 & H3 & ->)|(H1 & H2 & H3 & ->)]; lia.
    - intros q b Hq Hb Hlt. destruct (HB q b Hq Hb) as (a & Ha & E & _). rewrite E in *.
      pose proof (li_rng _ _ _ _ L _ a (Hrp q Hq) Ha) as Hr.
      destruct (Hrh q a Hq Ha) as [(H1 & H2 & H3 & E3)|(H1 & H2 & H3 & E3)]; rewrite E3 in *.
      + destruct (li_next _ _ _ _ L _ a (Hrp q Hq) Ha) as (a' & Ha' & Hle); [lia|].
        assert (Hr1 : rot_p k q + 1 < M) by lia. pose proof (li_rng _ _ _ _ L _ a' Hr1 Ha'). assert (Erp : rot_p k (q + 1) = rot_p k q + 1).
        { unfold rot_p. rewrite !(proj2 (N.ltb_lt _ _)) by lia. lia. }
        unfold rot_B. rewrite Erp, Ha'. eexists. split; [reflexivity|]. simpl. unfold rot_h.
        rewrite (proj2 (N.ltb_ge _ _)) by lia. lia.
      + destruct (li_next _ _ _ _ L _ a (Hrp q Hq) Ha) as (a' & Ha' & Hle); [lia|].
        assert (Erp : rot_p k (q + 1) = rot_p k q + 1).
        { unfold rot_p. rewrite !(proj2 (N.ltb_ge _ _)) by lia. lia. }
        assert (e_h a' < k) by (apply (Hside (rot_p k q + 1) a'); [lia|exact Ha']).
        unfold rot_B. rewrite Erp, Ha'. eexists. split; [reflexivity|]. simpl. unfold rot_h.
        rewrite (proj2 (N.ltb_lt _ _)) by lia. lia.
    - unfold rot_b, rot_p. rewrite (proj2 (N.ltb_lt _ _)) by lia. rewrite N.add_0_r.
      destruct (N.eq_dec k 0) as [->|Hz]; [apply (li_cb0 _ _ _ _ L)|].
      replace k with (k - 1 + 1) by lia. rewrite (li_cb _ _ _ _ L) by lia. unfold same. replace (k - 1 + 1) with k by lia.
      rewrite Hn. destruct (B (k - 1)); reflexivity.
    - unfold rot_b, rot_p. rewrite (proj2 (N.ltb_ge _ _)) by lia. replace (k + M - M) with k by lia.
      destruct (N.eq_dec k 0) as [->|Hz]; [apply (li_cb0 _ _ _ _ L)|].
      replace k with (k - 1 + 1) by lia. rewrite (li_cb _ _ _ _ L) by lia. unfold same. replace (k - 1 + 1) with k by lia.
      rewrite Hn. destruct (B (k - 1)); reflexivity.
    - intros q Hq. unfold rot_b. destruct (N.eq_dec (q + 1) (M - k)) as [E|Hne].
      + assert (E1 : rot_p k (q + 1) = 0).
        { unfold rot_p. rewrite (proj2 (N.ltb_ge _ _)) by lia. lia. }
        assert (E2 : rot_p k q = M - 1).
        { unfold rot_p. rewrite (proj2 (N.ltb_lt _ _)) by lia. lia. }
        rewrite E1, (li_cb0 _ _ _ _ L). unfold same, rot_B. rewrite E1, E2.
        destruct (B (M - 1)) as [a|] eqn:Ea; [|reflexivity]. destruct (B 0) as [a'|] eqn:Ea'; [|reflexivity]. simpl.
        pose proof (li_rng _ _ _ _ L (M - 1) a ltac:(lia) Ea).
        assert (e_h a' < k) by (apply (Hside 0 a'); [lia|exact Ea']).
        assert (k <= M - 1) by lia. symmetry. apply negb_true_iff, N.eqb_neq. unfold rot_h.
        rewrite (proj2 (N.ltb_lt (e_h a') _)) by lia. rewrite (proj2 (N.ltb_ge (e_h a) _)) by lia. lia.
      + assert (Erp : rot_p k (q + 1) = rot_p k q + 1).
        { unfold rot_p. destruct (N.ltb_spec q (M - k)), (N.ltb_spec (q + 1) (M - k)); lia. }
        assert (Hlt : rot_p k q + 1 < M).
        { unfold rot_p. destruct (N.ltb_spec q (M - k)); lia. }
        rewrite Erp. rewrite (li_cb _ _ _ _ L) by exact Hlt. f_equal. unfold same, rot_B. rewrite Erp.
        destruct (B (rot_p k q)) as [a|] eqn:Ea; [|reflexivity]. destruct (B (rot_p k q + 1)) as [a'|] eqn:Ea'; [|reflexivity].
        simpl. rewrite <- Erp in Ea'.
        destruct (Hrh q a ltac:(lia) Ea) as [(H1 & H2 & H3 & E1)|(H1 & H2 & H3 & E1)], (Hrh (q + 1) a' Hq Ea') as [(H4 & H5 & H6 & E2)|(H4 & H5 & H6 & E2)];
          rewrite E1, E2; lia.
    - intros y Hy. unfold rot_b. rewrite (li_vb _ _ _ _ L) by (apply Hrp, Hy). split.
      + intros (p & a & Hp & Ha & E). exists (rot_h k p).
        assert (Hq : rot_h k p < M). { unfold rot_h. destruct (N.ltb_spec p k); lia. }
        assert (Erp : rot_p k (rot_h k p) = p).
        { unfold rot_p, rot_h. destruct (N.ltb_spec p k).
          - rewrite (proj2 (N.ltb_ge _ _)) by lia. lia.
          - rewrite (proj2 (N.ltb_lt _ _)) by lia. lia. }
        unfold rot_B. rewrite Erp, Ha. eexists. split; [exact Hq|]. split; [reflexivity|]. simpl. rewrite E.
        unfold rot_h, rot_p. destruct (N.ltb_spec y (M - k)).
        * rewrite (proj2 (N.ltb_ge _ _)) by lia. lia.
        * rewrite (proj2 (N.ltb_lt _ _)) by lia. lia.
      + intros (q & b & Hq & Hb & E). destruct (HB q b Hq Hb) as (a & Ha & E2 & _). exists (rot_p k q), a.
        split; [apply Hrp, Hq|]. split; [exact Ha|]. rewrite <- E, E2.
        pose proof (li_rng _ _ _ _ L _ a (Hrp q Hq) Ha). unfold rot_h, rot_p.
        destruct (N.ltb_spec (e_h a) k).
        * rewrite (proj2 (N.ltb_ge _ _)) by lia. lia.
        * rewrite (proj2 (N.ltb_lt _ _)) by lia. lia.
    - intros q q' b b' Hq Hq' Hb Hb' Eh Eq. destruct (HB q b Hq Hb) as (a & Ha & E1 & E2).
      destruct (HB q' b' Hq' Hb') as (a' & Ha' & E3 & E4).
      assert (Ep : rot_p k q = rot_p k q').
      { apply (li_uniq _ _ _ _ L _ _ a a' (Hrp q Hq) (Hrp q' Hq') Ha Ha'); [|congruence].
        rewrite E1, E3 in Eh.
        destruct (Hrh q a Hq Ha) as [(H1 & H2 & H3 & E5)|(H1 & H2 & H3 & E5)], (Hrh q' a' Hq' Ha') as [(H4 & H5 & H6 & E6)|(H4 & H5 & H6 & E6)];
          rewrite E5, E6 in Eh; lia. }
      unfold rot_p in Ep. destruct (N.ltb_spec q (M - k)), (N.ltb_spec q' (M - k)); lia.
  Qed.
End lin2.
