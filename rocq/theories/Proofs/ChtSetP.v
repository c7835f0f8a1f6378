(** compact_hash_table: construction, growth, [set], [clone]. *)
From Verif.Proofs Require Export ChtP.
Local Open Scope N_scope.

Section hash.
Context {HB : bij_hasher} {HO : bij_ok HB}.

Lemma max_size_pos b mf : 12 <= b <= 57 -> 1 <= mf <= 99 -> 0 < max_size_of (2 ^ b) mf.
Proof.
  intros Hb Hmf. assert (40 <= max_size_of (2 ^ 12) mf).
  { rewrite max_size_exact by lia. change (2 ^ 12) with 4096. apply N.div_le_lower_bound; lia. }
  pose proof (max_size_mono 12 b mf ltac:(lia) ltac:(lia) Hmf). lia.
Qed.
Lemma max_size_strict b b' mf : 12 <= b -> b < b' -> b' <= 57 -> 1 <= mf <= 99 ->
  max_size_of (2 ^ b) mf < max_size_of (2 ^ b') mf.
Proof.
  intros Hb Hlt Hb' Hmf. destruct (ms_ok2_facts b mf ltac:(lia) Hmf) as (_ & H & _). specialize (H ltac:(lia)).
  pose proof (max_size_mono (b + 1) b' mf ltac:(lia) Hb' Hmf). lia.
Qed.

Section cht.
  Context (vb mf : N).
  Hypothesis Hvb : 1 <= vb.
  Hypothesis Hmf : 1 <= mf <= 99.

  Definition fits (u : N) : Prop := 12 <= u <= 57 /\ u - 12 + vb + 2 < 64.
  Record ch_invc (u c : N) (t : cht) (m : gmap N N) : Prop := {
    ci_c : 12 <= c <= u;
    ci_rep : ch_rep vb mf u c t m;
    ci_max : ch_size t <= ch_max t }.
  Definition ch_inv (u : N) (t : cht) (m : gmap N N) : Prop := exists c, ch_invc u c t m.

  Section u.
    Context (u : N).
    Hypothesis Hu : fits u.
    Lemma inv_shape c t m : ch_invc u c t m -> ch_shape vb mf u c t.
    Proof. intros I. destruct Hu as [Hu1 Hu2]. apply (rep_shape vb mf u c t m). apply (ci_rep _ _ _ _ I). Qed.
    Lemma inv_lt c t m : ch_invc u c t m -> ch_size t < 2 ^ c.
    Proof.
      intros I. pose proof (ci_max _ _ _ _ I) as H. rewrite (cs_max _ _ _ _ _ (inv_shape c t m I)) in H.
      pose proof (ci_c _ _ _ _ I). destruct Hu. pose proof (max_size_lt c mf ltac:(lia) Hmf). lia.
    Qed.
    Lemma inv_vals t m k v : ch_inv u t m -> m !! k = Some v -> k < 2 ^ u /\ v < N.ones vb.
    Proof.
      intros [c I] E. destruct (cr_frm _ _ _ _ _ _ (ci_rep _ _ _ _ I)) as (e & B & vbf & cbf & F & Hm).
      apply (proj1 (Hm k v)) in E. destruct E as (Hk & p & a & Hp & Ha & _ & Ev). subst v. split; [exact Hk|].
      pose proof (fr_at _ _ _ _ _ _ _ _ _ F p Hp) as H. rewrite Ha in H. apply H.
    Qed.
    Lemma ch_new_ok cb : N.max 12 cb <= u -> exists t, ch_new vb mf u cb = Ret t /\ ch_invc u (N.max 12 cb) t ∅.
    Proof.
      intros Hcb. set (c := N.max 12 cb) in *. assert (Hc : 12 <= c <= u) by lia. destruct Hu as [Hu1 Hu2].
      unfold ch_new. rewrite p2_new_eq, bind_ret by lia. change (N.max ch_min_capa_bits cb) with c. rewrite p2_new_eq, bind_ret by lia.
      cbn [p2_bits p2_mask]. rewrite assert_true by (apply N.leb_le; lia). rewrite bind_ret. rewrite p2_new_eq, bind_ret by lia.
      cbn [p2_bits p2_mask]. rewrite hasher_new_ok, bind_ret by lia. rewrite p2_size_ones by lia.
      assert (Hw : u - c + vb + 2 < 64) by lia.
      rewrite (val_mask_ones vb u c Hvb ltac:(lia) ltac:(lia) Hw).
      destruct (dec_init vb (u - c) Hw) as [Hi1 Hi2].
      destruct (cv_new_init_ok (2 ^ c) (u - c + vb + 2) (N.lor (shl (N.ones vb) 2) 1)) as (cv & E & Hwf & Hs & Hwd & Hv & _).
      { lia. } { exact Hw. }
      { assert (2 ^ c <= 2 ^ 57) by (apply pow2_le; lia). change (2 ^ 64) with (2 ^ 57 * 128).
        assert (2 ^ c * (u - c + vb + 2) <= 2 ^ 57 * 63) by (apply N.mul_le_mono; lia). change (2 ^ 57) with 144115188075855872 in *. lia. }
      { exact Hi1. }
      rewrite E, bind_ret. eexists. split; [reflexivity|].
      assert (Hfld : forall i, i < 2 ^ c -> fld vb (mkCht (the_hasher u) cv 0 (max_size_of (2 ^ c) mf) (mkP2 u (N.ones u)) (mkP2 c (N.ones c)) (mkP2 (u - c) (N.ones (u - c))) (2 + vb) (not64 (shl (N.ones (u - c)) (2 + vb)))) i = mkF 0 (N.ones vb) false true).
      { intros i Hi. unfold fld. simpl ch_table. rewrite Hv by exact Hi. exact Hi2. }
      assert (HM : 0 < 2 ^ c) by apply pow2_pos.
      split; [exact Hc| |simpl; lia]. split.
      - exists 0, (fun _ => None), (fun _ => false), (fun _ => true). split.
        + split.
          * split; (reflexivity || assumption).
          * exact HM.
          * split; try discriminate; try reflexivity.
            intros y Hy. split; [discriminate|]. intros (p & a & _ & Ha & _). discriminate.
          * intros p Hp. rewrite Hfld by apply (slot_lt _ HM). reflexivity.
          * intros p Hp. rewrite Hfld by apply (slot_lt _ HM). reflexivity.
          * intros p Hp. rewrite Hfld by apply (slot_lt _ HM). reflexivity.
        + intros k v. rewrite lookup_empty. split; [discriminate|]. intros (_ & p & a & _ & Ha & _). discriminate.
      - apply countb_const_false. intros i Hi. unfold occ. rewrite Hfld by exact Hi. simpl. rewrite N.eqb_refl. reflexivity.
      - reflexivity.
    Qed.
    Lemma inv_get t m key : ch_inv u t m -> key < 2 ^ u -> ch_get vb t key = Ret (default ch_nil (m !! key)).
    Proof.
      intros [c I] Hk. destruct Hu as [Hu1 Hu2]. pose proof (ci_c _ _ _ _ I).
      apply (ch_get_ok vb mf u c); [assumption|lia|lia|lia|apply (ci_rep _ _ _ _ I)|apply (inv_lt c t m I)|exact Hk].
    Qed.
    Lemma inv_size t m : ch_inv u t m -> ch_size t = N.of_nat (size m).
    Proof. intros [c I]. apply (cr_size _ _ _ _ _ _ (ci_rep _ _ _ _ I)). Qed.
    Lemma inv_full c t m : ch_invc u c t m -> max_size_of (2 ^ u) mf <= ch_size t -> c = u.
    Proof.
      intros I Hs. pose proof (ci_max _ _ _ _ I) as H. rewrite (cs_max _ _ _ _ _ (inv_shape c t m I)) in H.
      pose proof (ci_c _ _ _ _ I). destruct Hu. destruct (N.eq_dec c u) as [|Hn]; [assumption|]. exfalso.
      pose proof (max_size_strict c u mf ltac:(lia) ltac:(lia) ltac:(lia) Hmf). lia.
    Qed.

    (** [set] without growth *)
    Lemma set_here fuel c t m key val : ch_invc u c t m -> ch_size t < ch_max t -> key < 2 ^ u -> val < N.ones vb ->
      exists t', ch_set_aux vb mf (S fuel) t key val = Ret (bool_decide (m !! key = None), t') /\ ch_invc u c t' (<[key := val]> m).
    Proof.
      intros I Hs Hk Hv. pose proof (inv_shape c t m I) as Sh. destruct Hu as [Hu1 Hu2]. pose proof (ci_c _ _ _ _ I) as Hc.
      cbn [ch_set_aux]. rewrite (cs_univ _ _ _ _ _ Sh), p2_size_ones by lia. rewrite assert_true by (apply N.ltb_lt, Hk).
      rewrite bind_ret. rewrite (val_mask_ones vb u c Hvb ltac:(lia) ltac:(lia) ltac:(lia)). rewrite assert_true by (apply N.ltb_lt, Hv).
      rewrite bind_ret. rewrite (proj2 (N.leb_gt _ _) Hs), bind_ret.
      destruct (ch_insert_ok vb mf u c Hvb ltac:(lia) ltac:(lia) ltac:(lia) t m key val (ci_rep _ _ _ _ I) (inv_lt c t m I) Hk Hv) as (t' & E & R').
      exists t'. split; [exact E|]. split; [exact Hc|exact R'|].
      pose proof (rep_shape _ _ _ _ _ _ R') as Sh'. rewrite (cs_max _ _ _ _ _ Sh'). rewrite (cs_max _ _ _ _ _ Sh) in Hs.
      rewrite (cr_size _ _ _ _ _ _ R'). rewrite (cr_size _ _ _ _ _ _ (ci_rep _ _ _ _ I)) in Hs. rewrite map_size_insert.
      destruct (m !! key); simpl; lia.
    Qed.
    Lemma clone_ok (set : cht -> N -> N -> outcome (bool * cht)) (RR : cht -> gmap N N -> Prop) t m n :
      ch_inv u t m -> m <> ∅ -> RR n ∅ -> ch_size n = 0 -> ch_size t <= ch_max n ->
      (forall n m', RR n m' -> ch_size n = N.of_nat (base.size m')) ->
      (forall n m' k v, RR n m' -> m' ⊆ m -> m !! k = Some v -> exists b n', set n k v = Ret (b, n') /\ RR n' (<[k := v]> m')) ->
      exists n', ch_clone vb set t n = Ret n' /\ RR n' m.
    Proof.
      intros [c I] Hne HR Hn0 Hmx HRs Hset. destruct Hu as [Hu1 Hu2]. pose proof (ci_c _ _ _ _ I) as Hc.
      unfold ch_clone. rewrite Hn0. change (negb (0 =? 0)) with false. rewrite throw_if_false, bind_ret by reflexivity.
      rewrite throw_if_false by (apply N.ltb_ge, Hmx). rewrite bind_ret.
      destruct (clone_with_ok vb mf u c Hvb ltac:(lia) ltac:(lia) ltac:(lia) (fun n k v => let* r := set n k v in Ret (snd r)) RR t m
        (ci_rep _ _ _ _ I) (inv_lt c t m I) Hne) with (n := n) as (n' & E & HR').
      { intros n1 m' k v H1 H2 H3. destruct (Hset n1 m' k v H1 H2 H3) as (b & n2 & E2 & H4). exists n2. rewrite E2. auto. }
      { exact HR. }
      { change 2 with (2 ^ 1) at 1. apply pow2_le. lia. }
      rewrite E, bind_ret. exists n'. split; [|exact HR']. rewrite assert_true; [reflexivity|].
      apply N.eqb_eq. rewrite (HRs n' m HR'). apply (cr_size _ _ _ _ _ _ (ci_rep _ _ _ _ I)).
    Qed.
    Lemma set_grow fuel c t m key val : ch_invc u c t m -> ch_max t <= ch_size t -> c < u -> key < 2 ^ u -> val < N.ones vb ->
      exists t', ch_set_aux vb mf (S (S fuel)) t key val = Ret (bool_decide (m !! key = None), t') /\ ch_invc u (c + 1) t' (<[key := val]> m).
    Proof.
      intros I Hs Hcu Hk Hv. pose proof (inv_shape c t m I) as Sh. pose proof Hu as [Hu1 Hu2]. pose proof (ci_c _ _ _ _ I) as Hc.
      pose proof (max_size_strict c (c + 1) mf ltac:(lia) ltac:(lia) ltac:(lia) Hmf) as Hst.
      pose proof (max_size_pos c mf ltac:(lia) Hmf) as Hpos.
      pose proof (ci_max _ _ _ _ I) as Hle. rewrite (cs_max _ _ _ _ _ Sh) in Hle, Hs.
      set (f1 := S fuel). cbn [ch_set_aux]. rewrite (cs_univ _ _ _ _ _ Sh), p2_size_ones by lia. rewrite assert_true by (apply N.ltb_lt, Hk).
      rewrite bind_ret. rewrite (val_mask_ones vb u c Hvb ltac:(lia) ltac:(lia) ltac:(lia)). rewrite assert_true by (apply N.ltb_lt, Hv).
      rewrite bind_ret. rewrite (cs_max _ _ _ _ _ Sh), (proj2 (N.leb_le _ _) Hs). rewrite (cs_capa _ _ _ _ _ Sh). cbn [p2_bits].
      destruct (ch_new_ok (c + 1) ltac:(lia)) as (n & En & In). replace (N.max 12 (c + 1)) with (c + 1) in In by lia.
      rewrite En, bind_ret. pose proof (inv_shape (c + 1) n ∅ In) as Shn.
      assert (Hsz : forall n m', ch_invc u (c + 1) n m' -> ch_size n = N.of_nat (base.size m')).
      { intros n1 m1 I1. apply inv_size. eexists; exact I1. }
      assert (Hsm : ch_size t = N.of_nat (base.size m)) by (apply inv_size; eexists; exact I).
      destruct (clone_ok (ch_set_aux vb mf f1) (ch_invc u (c + 1)) t m n) as (n' & Ec & In').
      - eexists; exact I.
      - intros ->. rewrite map_size_empty in Hsm. clear -Hsm Hs Hpos. lia.
      - exact In.
      - rewrite (Hsz n ∅ In), map_size_empty. reflexivity.
      - rewrite (cs_max _ _ _ _ _ Shn). lia.
      - exact Hsz.
      - intros n1 m1 k v I1 Hsub Ekv. destruct (inv_vals t m k v ltac:(eexists; exact I) Ekv) as [Hk1 Hv1].
        destruct (set_here fuel (c + 1) n1 m1 k v I1) as (n2 & E2 & I2); [|exact Hk1|exact Hv1|eauto].
        rewrite (cs_max _ _ _ _ _ (inv_shape (c + 1) n1 m1 I1)), (Hsz n1 m1 I1). pose proof (map_size_le m1 m Hsub).
        rewrite Hsm in Hle. clear -H Hle Hst. lia.
      - rewrite Ec, bind_ret.
        assert (Hlt : ch_size n' < ch_max n').
        { rewrite (cs_max _ _ _ _ _ (inv_shape (c + 1) n' m In')), (Hsz n' m In'). rewrite Hsm in Hle. clear -Hle Hst. lia. }
        destruct (ch_insert_ok vb mf u (c + 1) Hvb ltac:(lia) ltac:(lia) ltac:(lia) n' m key val (ci_rep _ _ _ _ In') (inv_lt _ n' m In') Hk Hv) as (t' & E & R').
        exists t'. split; [exact E|]. split; [clear -Hc Hcu; lia|exact R'|].
        rewrite (cs_max _ _ _ _ _ (inv_shape (c + 1) n' m In')), (Hsz n' m In') in Hlt.
        rewrite (cs_max _ _ _ _ _ (rep_shape _ _ _ _ _ _ R')), (cr_size _ _ _ _ _ _ R'). rewrite map_size_insert.
        clear -Hlt. destruct (m !! key); simpl; lia.
    Qed.
    Lemma set_spec fuel t m key val : ch_inv u t m -> key < 2 ^ u -> val < N.ones vb ->
      N.of_nat (base.size m) < max_size_of (2 ^ u) mf ->
      exists t', ch_set_aux vb mf (S (S fuel)) t key val = Ret (bool_decide (m !! key = None), t') /\ ch_inv u t' (<[key := val]> m).
    Proof.
      intros [c I] Hk Hv Hs. assert (Hsm : ch_size t = N.of_nat (base.size m)) by (apply inv_size; eexists; exact I).
      destruct (N.lt_ge_cases (ch_size t) (ch_max t)) as [Hlt|Hge].
      - destruct (set_here (S fuel) c t m key val I Hlt Hk Hv) as (t' & E & I'). exists t'. split; [exact E|eexists; exact I'].
      - destruct (set_grow fuel c t m key val I Hge) as (t' & E & I'); [|assumption..|exists t'; split; [exact E|eexists; exact I']].
        pose proof (ci_c _ _ _ _ I). destruct (N.eq_dec c u) as [->|]; [|lia]. exfalso.
        rewrite (cs_max _ _ _ _ _ (inv_shape u t m I)) in Hge. lia.
    Qed.
    (** A table that holds the maximum for its universe. *)
    Lemma set_full fuel t m key val : ch_inv u t m -> key < 2 ^ u -> val < N.ones vb ->
      max_size_of (2 ^ u) mf <= N.of_nat (base.size m) -> ch_set_aux vb mf (S fuel) t key val = AssertFail.
    Proof.
      intros [c I] Hk Hv Hs. assert (Hsm : ch_size t = N.of_nat (base.size m)) by (apply inv_size; eexists; exact I).
      assert (E : c = u) by (apply (inv_full c t m I); lia). subst c. pose proof (inv_shape u t m I) as Sh. destruct Hu as [Hu1 Hu2].
      cbn [ch_set_aux]. rewrite (cs_univ _ _ _ _ _ Sh), p2_size_ones by lia. rewrite assert_true by (apply N.ltb_lt, Hk).
      rewrite bind_ret. rewrite (val_mask_ones vb u u Hvb ltac:(lia) ltac:(lia) ltac:(lia)). rewrite assert_true by (apply N.ltb_lt, Hv).
      rewrite bind_ret. rewrite (cs_max _ _ _ _ _ Sh), (proj2 (N.leb_le _ _)) by lia. rewrite (cs_capa _ _ _ _ _ Sh). cbn [p2_bits].
      unfold ch_new. rewrite p2_new_eq, bind_ret by lia. rewrite p2_new_eq, bind_ret by (unfold ch_min_capa_bits; lia). cbn [p2_bits].
      rewrite (proj2 (N.leb_gt (N.max ch_min_capa_bits (u + 1)) u)) by (unfold ch_min_capa_bits; lia). reflexivity.
    Qed.
    Lemma clone_empty set t n : ch_inv u t ∅ -> ch_size n = 0 -> ch_clone vb set t n = Diverge.
    Proof.
      intros [c I] Hn0. pose proof (inv_shape c t ∅ I) as Sh. destruct Hu as [Hu1 Hu2]. pose proof (ci_c _ _ _ _ I) as Hc.
      assert (Hsm : ch_size t = 0). { rewrite (inv_size t ∅) by (eexists; exact I). rewrite map_size_empty. reflexivity. }
      unfold ch_clone. rewrite Hn0. change (negb (0 =? 0)) with false. rewrite throw_if_false, bind_ret by reflexivity.
      rewrite throw_if_false by (apply N.ltb_ge; rewrite Hsm; lia). rewrite bind_ret. unfold ch_clone_with.
      assert (HM : 0 < 2 ^ c) by apply pow2_pos.
      assert (Hvac : forall i, i < 2 ^ c -> ch_is_vacant vb t i = Ret true).
      { intros i Hi. rewrite (is_vacant_ok vb mf u c Hvb ltac:(lia) ltac:(lia) ltac:(lia) t Sh i Hi). do 2 f_equal.
        destruct (f_v (fld vb t i) =? N.ones vb) eqn:E; [reflexivity|]. exfalso.
        assert (Ho : occ vb t i = true) by (unfold occ; rewrite E; reflexivity).
        pose proof (countb_pos (occ vb t) (2 ^ c) i Hi Ho). rewrite (cr_cnt _ _ _ _ _ _ (ci_rep _ _ _ _ I)) in H. lia. }
      assert (Hright : forall i, i < 2 ^ c -> ch_right t i < 2 ^ c).
      { intros i Hi. rewrite (right_mod vb mf u c) by (assumption || lia). apply N.mod_lt. lia. }
      match goal with |- context [loop ?f0 0] => set (f := f0) end.
      assert (Eb : loop f 0 = Ret 0).
      { set (st := fun d : N => d). change (loop f (st 0) = Ret 0). rewrite (loop_at f st 0); unfold f, st.
        - rewrite Hvac by exact HM. reflexivity.
        - reflexivity.
        - intros d Hd. lia.
        - rewrite Hvac by exact HM. intros s. discriminate. }
      rewrite Eb, bind_ret. clear Eb f.
      match goal with |- context [loop ?f0 (ch_right t 0, false, n)] => set (f := f0) end.
      assert (Ef : f (ch_right t 0, false, n) = Diverge).
      { unfold f. match goal with |- context [bind (loop ?f1 _) _] => set (g := f1) end.
        rewrite (loop_diverges g (fun st => fst st < 2 ^ c)); [reflexivity|apply Hright, HM|].
        intros [i cp] Hi. simpl in Hi. unfold g. rewrite Hvac, bind_ret by exact Hi. eexists. split; [reflexivity|]. apply Hright, Hi. }
      set (st := fun _ : N => (ch_right t 0, false, n)). change (ch_right t 0, false, n) with (st 0). rewrite (loop_at f st 0); unfold st.
      - rewrite Ef. reflexivity.
      - reflexivity.
      - intros d Hd. lia.
      - rewrite Ef. intros s. discriminate.
    Qed.
  End u.

  Lemma clone_spec u u' t m n : fits u -> fits u' -> u <= u' -> ch_inv u t m -> m <> ∅ -> ch_inv u' n ∅ ->
    N.of_nat (base.size m) <= ch_max n -> N.of_nat (base.size m) < max_size_of (2 ^ u') mf ->
    exists n', ch_clone vb (ch_set vb mf) t n = Ret n' /\ ch_inv u' n' m.
  Proof.
    intros Hu Hu' Hle It Hne In Hmx Hlt. pose proof (inv_size u t m It) as Est.
    apply (clone_ok u Hu (ch_set vb mf) (ch_inv u') t m n It Hne In).
    - rewrite (inv_size u' n ∅ In), map_size_empty. reflexivity.
    - rewrite Est. exact Hmx.
    - intros n1 m1. apply inv_size.
    - intros n1 m1 k v I1 Hsub E. destruct (inv_vals u t m k v It E) as [Hk Hv].
      destruct (set_spec u' Hu' 62 n1 m1 k v I1) as (n2 & E2 & I2).
      + assert (2 ^ u <= 2 ^ u') by (apply pow2_le, Hle). lia.
      + exact Hv.
      + pose proof (map_size_le m1 m Hsub). lia.
      + eauto.
  Qed.
End cht.
End hash.
