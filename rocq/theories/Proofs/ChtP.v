(** compact_hash_table refines a finite map: accessors, positions, [get] and insertion. *)
From Verif.Proofs Require Export ChtWordP.
Local Open Scope N_scope.

Section hash.
Context {HB : bij_hasher} {HO : bij_ok HB}.

Section cht.
  Context (vb mf : N).

  Record ch_shape (u c : N) (t : cht) : Prop := {
    cs_capa : ch_capa t = mkP2 c (N.ones c);
    cs_univ : ch_univ t = mkP2 u (N.ones u);
    cs_quo : ch_quo t = mkP2 (u - c) (N.ones (u - c));
    cs_shift : ch_quo_shift t = 2 + vb;
    cs_inv : ch_quo_invmask t = not64 (shl (N.ones (u - c)) (2 + vb));
    cs_hash : ch_hasher t = the_hasher u;
    cs_wf : cv_wf (ch_table t);
    cs_size : cv_size (ch_table t) = 2 ^ c;
    cs_width : cv_width (ch_table t) = u - c + vb + 2;
    cs_max : ch_max t = max_size_of (2 ^ c) mf }.
  Definition fld (t : cht) (i : N) : fields := dec vb (cv_val (ch_table t) i).
  #[local] Arguments fld : simpl never.

  Section shape.
    Context (u c : N).
    Hypothesis Hvb : 1 <= vb.
    Hypothesis Hc : 1 <= c <= u.
    Hypothesis Hu : u <= 57.
    Hypothesis Hw : u - c + vb + 2 < 64.
    Let M := 2 ^ c.

    Lemma chM_pos : 0 < M. Proof. apply pow2_pos. Qed.
    Lemma chM_le : M <= 2 ^ 57. Proof. apply pow2_le. lia. Qed.
    Lemma ones_vb_lt : N.ones vb < 2 ^ vb.
    Proof. rewrite N.ones_equiv. pose proof (pow2_pos vb). lia. Qed.
    Lemma val_mask_ones : ch_val_mask vb = N.ones vb.
    Proof.
      assert (H64 : vb < 64) by lia. pose proof (p2_new_eq vb H64) as E. unfold p2_new in E.
      rewrite (proj2 (N.ltb_lt _ _) H64) in E. unfold ch_val_mask. congruence.
    Qed.

    Section get.
      Context (t : cht).
      Hypothesis S : ch_shape u c t.
      Lemma fld_q_lt i : i < M -> f_q (fld t i) < 2 ^ (u - c).
      Proof.
        intros Hi. unfold fld. apply (dec_q_lt vb (u - c) Hw). pose proof (cv_val_lt (ch_table t) i (cs_wf _ _ _ S)) as H.
        rewrite (cs_size _ _ _ S), (cs_width _ _ _ S) in H. apply H, Hi.
      Qed.
      Lemma fld_v_lt i : f_v (fld t i) < 2 ^ vb.
      Proof. apply dec_v_lt. Qed.
      Lemma tab_get i : i < M -> cv_get (ch_table t) i = Ret (cv_val (ch_table t) i).
      Proof. intros Hi. apply cv_get_ok; [apply (cs_wf _ _ _ S)|]. rewrite (cs_size _ _ _ S). exact Hi. Qed.
      Lemma get_quo_ok i : i < M -> ch_get_quo t i = Ret (f_q (fld t i)).
      Proof. intros Hi. unfold ch_get_quo. rewrite tab_get, bind_ret, (cs_shift _ _ _ S) by exact Hi. reflexivity. Qed.
      Lemma get_val_ok i : i < M -> ch_get_val vb t i = Ret (f_v (fld t i)).
      Proof. intros Hi. unfold ch_get_val. rewrite tab_get, bind_ret, val_mask_ones by exact Hi. reflexivity. Qed.
      Lemma get_vbit_ok i : i < M -> ch_get_vbit t i = Ret (f_b (fld t i)).
      Proof. intros Hi. unfold ch_get_vbit. rewrite tab_get, bind_ret by exact Hi; rewrite (vbit_test vb (u - c) Hw). reflexivity. Qed.
      Lemma get_cbit_ok i : i < M -> ch_get_cbit t i = Ret (f_c (fld t i)).
      Proof. intros Hi. unfold ch_get_cbit. rewrite tab_get, bind_ret by exact Hi; rewrite (cbit_test vb (u - c) Hw). reflexivity. Qed.
      Lemma is_vacant_ok i : i < M -> ch_is_vacant vb t i = Ret (f_v (fld t i) =? N.ones vb).
      Proof. intros Hi. unfold ch_is_vacant. rewrite get_val_ok, bind_ret, val_mask_ones by exact Hi. reflexivity. Qed.

      Lemma put_ok i x : i < M -> x < 2 ^ (u - c + vb + 2) ->
        exists t', ch_put t i x = Ret t' /\ ch_shape u c t' /\ ch_size t' = ch_size t /\
          forall j, j < M -> fld t' j = if j =? i then dec vb x else fld t j.
      Proof.
        intros Hi Hx. unfold ch_put.
        destruct (cv_set_ok (ch_table t) i x) as (tab & E & Hwf & Hs & Hwd & Hv).
        { apply (cs_wf _ _ _ S). } { rewrite (cs_size _ _ _ S). exact Hi. } { rewrite (cs_width _ _ _ S). exact Hx. }
        rewrite E, bind_ret. exists (ch_with_table t tab). split; [reflexivity|].
        destruct S as [S1 S2 S3 S4 S5 S6 S7 S8 S9 S10]. rewrite S8 in Hs, Hv. rewrite S9 in Hwd.
        split; [split; assumption|]. split; [reflexivity|]. intros j Hj. unfold fld. simpl. rewrite Hv by exact Hj.
        destruct (j =? i); reflexivity.
      Qed.
      Definition upd_fld (i : N) (x : fields) (t' : cht) : Prop :=
        ch_shape u c t' /\ ch_size t' = ch_size t /\ forall j, j < M -> fld t' j = if j =? i then x else fld t j.
      Lemma w_lt i : i < M -> cv_val (ch_table t) i < 2 ^ (u - c + vb + 2).
      Proof.
        intros Hi. rewrite <- (cs_width _ _ _ S). apply cv_val_lt; [apply (cs_wf _ _ _ S)|]. rewrite (cs_size _ _ _ S). exact Hi.
      Qed.
      Lemma quo_size : p2_size (ch_quo t) = 2 ^ (u - c).
      Proof. rewrite (cs_quo _ _ _ S). apply p2_size_ones. lia. Qed.
      Lemma set_quo_ok i q : i < M -> q < 2 ^ (u - c) ->
        exists t', ch_set_quo t i q = Ret t' /\ upd_fld i (mkF q (f_v (fld t i)) (f_b (fld t i)) (f_c (fld t i))) t'.
      Proof.
        intros Hi Hq. unfold ch_set_quo. rewrite assert_true by (apply N.ltb_lt; rewrite quo_size; exact Hq). rewrite bind_ret, tab_get, bind_ret by exact Hi.
        rewrite (cs_inv _ _ _ S), (cs_shift _ _ _ S).
        destruct (dec_set_quo vb (u - c) Hw _ q (w_lt i Hi) Hq) as [H1 H2].
        destruct (put_ok i _ Hi H1) as (t' & E & Hs & Hn & Hf). exists t'. rewrite E. split; [reflexivity|].
        split; [exact Hs|]. split; [exact Hn|]. intros j Hj. rewrite Hf by exact Hj. rewrite H2. reflexivity.
      Qed.
      Lemma set_val_ok i v : i < M -> v <= N.ones vb ->
        exists t', ch_set_val vb t i v = Ret t' /\ upd_fld i (mkF (f_q (fld t i)) v (f_b (fld t i)) (f_c (fld t i))) t'.
      Proof.
        intros Hi Hv. unfold ch_set_val. rewrite val_mask_ones. rewrite assert_true by (apply N.leb_le; exact Hv).
        rewrite bind_ret, tab_get, bind_ret by exact Hi.
        destruct (dec_set_val vb (u - c) Hw _ v (w_lt i Hi)) as [H1 H2]; [pose proof ones_vb_lt; lia|].
        destruct (put_ok i _ Hi H1) as (t' & E & Hs & Hn & Hf). exists t'. rewrite E. split; [reflexivity|].
        split; [exact Hs|]. split; [exact Hn|]. intros j Hj. rewrite Hf by exact Hj. rewrite H2. reflexivity.
      Qed.
      Lemma set_vbit_ok i b : i < M ->
        exists t', ch_set_vbit t i b = Ret t' /\ upd_fld i (mkF (f_q (fld t i)) (f_v (fld t i)) b (f_c (fld t i))) t'.
      Proof.
        intros Hi. unfold ch_set_vbit. rewrite tab_get, bind_ret by exact Hi.
        destruct (dec_set_vbit vb (u - c) Hw _ b (w_lt i Hi)) as [H1 H2].
        destruct (put_ok i _ Hi H1) as (t' & E & Hs & Hn & Hf). exists t'. rewrite E. split; [reflexivity|].
        split; [exact Hs|]. split; [exact Hn|]. intros j Hj. rewrite Hf by exact Hj. rewrite H2. reflexivity.
      Qed.
      Lemma set_cbit_ok i b : i < M ->
        exists t', ch_set_cbit t i b = Ret t' /\ upd_fld i (mkF (f_q (fld t i)) (f_v (fld t i)) (f_b (fld t i)) b) t'.
      Proof.
        intros Hi. unfold ch_set_cbit. rewrite tab_get, bind_ret by exact Hi.
        destruct (dec_set_cbit vb (u - c) Hw _ b (w_lt i Hi)) as [H1 H2].
        destruct (put_ok i _ Hi H1) as (t' & E & Hs & Hn & Hf). exists t'. rewrite E. split; [reflexivity|].
        split; [exact Hs|]. split; [exact Hn|]. intros j Hj. rewrite Hf by exact Hj. rewrite H2. reflexivity.
      Qed.
      Lemma update_slot_ok i q v b cc : i < M -> q < 2 ^ (u - c) -> v <= N.ones vb ->
        exists t', ch_update_slot vb t i q v b cc = Ret t' /\ upd_fld i (mkF q v b cc) t'.
      Proof.
        intros Hi Hq Hv. unfold ch_update_slot. rewrite assert_true by (apply N.ltb_lt; rewrite quo_size; exact Hq).
        rewrite bind_ret, val_mask_ones. rewrite assert_true by (apply N.leb_le; exact Hv). rewrite bind_ret.
        rewrite (cs_shift _ _ _ S).
        destruct (dec_update vb (u - c) Hw q v b cc Hq) as [H1 H2]; [pose proof ones_vb_lt; lia|].
        destruct (put_ok i _ Hi H1) as (t' & E & Hs & Hn & Hf). exists t'. rewrite E. split; [reflexivity|].
        split; [exact Hs|]. split; [exact Hn|]. intros j Hj. rewrite Hf by exact Hj. rewrite H2. reflexivity.
      Qed.
      Lemma right_mod i : i < M -> ch_right t i = (i + 1) mod M.
      Proof.
        intros Hi. unfold ch_right, add64. rewrite (cs_capa _ _ _ S). simpl p2_mask. rewrite land_ones_mod.
        pose proof chM_le. rewrite w64_small; [reflexivity|]. change (2 ^ 64) with (2 ^ 57 * 128). lia.
      Qed.
      Lemma left_mod i : i < M -> ch_left t i = (i + M - 1) mod M.
      Proof.
        intros Hi. unfold ch_left. rewrite (cs_capa _ _ _ S). simpl p2_mask. rewrite land_ones_mod. fold M.
        unfold sub64. rewrite w64_mod. pose proof chM_pos. change (UINT64_MAX + 1 - 1) with (2 ^ 64 - 1).
        assert (E64 : 2 ^ 64 = M * 2 ^ (64 - c)). { unfold M. rewrite <- N.pow_add_r. f_equal. lia. }
        rewrite E64. rewrite N.mod_mul_r by (try apply N.pow_nonzero; lia).
        rewrite (N.mul_comm M (_ mod _)), N.mod_add by lia. rewrite N.mod_mod by lia.
        pose proof (pow2_pos (64 - c)).
        replace (i + (M * 2 ^ (64 - c) - 1)) with (i + M - 1 + (2 ^ (64 - c) - 1) * M) by nia.
        apply N.mod_add. lia.
      Qed.
      Lemma copy_ok i : i < M ->
        exists t', ch_copy_from_right t i = Ret ((i + 1) mod M, t') /\
          upd_fld i (mkF (f_q (fld t ((i + 1) mod M))) (f_v (fld t ((i + 1) mod M))) (f_b (fld t i)) (f_c (fld t ((i + 1) mod M)))) t'.
      Proof.
        intros Hi. unfold ch_copy_from_right. rewrite right_mod by exact Hi.
        assert (Hr : (i + 1) mod M < M) by (apply N.mod_lt; pose proof chM_pos; lia).
        rewrite tab_get, bind_ret by exact Hr. rewrite get_vbit_ok, bind_ret by exact Hi.
        destruct (dec_set_vbit vb (u - c) Hw _ (f_b (fld t i)) (w_lt _ Hr)) as [H1 H2].
        destruct (put_ok i _ Hi H1) as (t' & E & Hs & Hn & Hf). exists t'. rewrite E. split; [reflexivity|].
        split; [exact Hs|]. split; [exact Hn|]. intros j Hj. rewrite Hf by exact Hj. rewrite H2. reflexivity.
      Qed.
    End get.

    (** The table seen from position [e]. *)
    Definition holds (o : option el) (x : fields) : Prop :=
      match o with
      | Some a => f_q x = e_q a /\ f_v x = e_v a /\ e_v a < N.ones vb
      | None => f_v x = N.ones vb
      end.
    Record frm (e : N) (t : cht) (B : N -> option el) (vbf cbf : N -> bool) : Prop := {
      fr_shape : ch_shape u c t;
      fr_e : e < M;
      fr_lin : lin M B vbf cbf;
      fr_at : forall p, p < M -> holds (B p) (fld t (slot M e p));
      fr_b : forall p, p < M -> f_b (fld t (slot M e p)) = vbf p;
      fr_c : forall p, p < M -> f_c (fld t (slot M e p)) = cbf p }.
    Definition vac (o : option el) : bool := match o with Some _ => false | None => true end.

    Lemma slot_M e : e < M -> slot M e M = e.
    Proof.
      intros He. unfold slot. rewrite N.add_mod_idemp_r || idtac. replace (e + M) with (e + 1 * M) by lia.
      rewrite N.mod_add by (pose proof chM_pos; lia). apply N.mod_small, He.
    Qed.
    Lemma slot_end e p : e < M -> 1 <= p <= M -> slot M e p = e -> p = M.
    Proof.
      intros He Hp E. destruct (N.eq_dec p M) as [|Hne]; [assumption|]. exfalso.
      assert (E0 : slot M e p = slot M e 0) by (rewrite (slot_0 M e He); exact E).
      pose proof chM_pos. apply (slot_inj M) in E0; lia.
    Qed.

    Section walk.
      Context (e : N) (t : cht) (B : N -> option el) (vbf cbf : N -> bool).
      Hypothesis F : frm e t B vbf cbf.
      Notation P := (slot M e).
      Lemma P_lt p : P p < M. Proof. apply slot_lt, chM_pos. Qed.
      Lemma P_right p : ch_right t (P p) = P (p + 1).
      Proof. rewrite (right_mod t (fr_shape _ _ _ _ _ F)) by apply P_lt. apply slot_succ, chM_pos. Qed.
      Lemma P_left p : 1 <= p -> ch_left t (P p) = P (p - 1).
      Proof.
        intros Hp. rewrite (left_mod t (fr_shape _ _ _ _ _ F)) by apply P_lt. pose proof chM_pos.
        replace p with (p - 1 + 1) at 1 by lia. rewrite <- slot_succ by exact chM_pos.
        pose proof (P_lt (p - 1)) as Hlt. destruct (N.eq_dec (P (p - 1)) (M - 1)) as [E|Hne].
        - rewrite E. replace (M - 1 + 1) with (0 + 1 * M) by lia. rewrite N.mod_add by lia. rewrite N.mod_0_l by lia.
          rewrite N.mod_small by lia. lia.
        - rewrite (N.mod_small (P (p - 1) + 1)) by lia.
          replace (P (p - 1) + 1 + M - 1) with (P (p - 1) + 1 * M) by lia. rewrite N.mod_add by lia. apply N.mod_small. lia.
      Qed.
      Lemma P_M : P M = e. Proof. apply slot_M, (fr_e _ _ _ _ _ F). Qed.
      Lemma P_0 : P 0 = e. Proof. apply slot_0, (fr_e _ _ _ _ _ F). Qed.
      Lemma P_inj p p' : p < M -> p' < M -> P p = P p' -> p = p'.
      Proof. intros H1 H2. apply (slot_inj M chM_pos); [apply (fr_e _ _ _ _ _ F)|exact H1|exact H2]. Qed.
      Lemma g_vb p : p < M -> ch_get_vbit t (P p) = Ret (vbf p).
      Proof.
        intros Hp. rewrite (get_vbit_ok t (fr_shape _ _ _ _ _ F)) by apply P_lt.
        rewrite (fr_b _ _ _ _ _ F) by exact Hp. reflexivity.
      Qed.
      Lemma g_cb p : p <= M -> ch_get_cbit t (P p) = Ret (cbf p).
      Proof.
        intros Hp. rewrite (get_cbit_ok t (fr_shape _ _ _ _ _ F)) by apply P_lt.
        destruct (N.eq_dec p M) as [->|].
        - rewrite P_M, <- P_0. rewrite (fr_c _ _ _ _ _ F) by apply chM_pos.
          rewrite (li_cb0 _ _ _ _ (fr_lin _ _ _ _ _ F)), (li_cbM _ _ _ _ (fr_lin _ _ _ _ _ F)). reflexivity.
        - rewrite (fr_c _ _ _ _ _ F) by lia. reflexivity.
      Qed.
      Lemma vac_at p : p < M -> (f_v (fld t (P p)) =? N.ones vb) = vac (B p).
      Proof.
        intros Hp. pose proof (fr_at _ _ _ _ _ F p Hp) as H. unfold holds in H. destruct (B p) as [a|]; cbn [vac].
        - destruct H as (_ & -> & H). apply N.eqb_neq. lia.
        - rewrite H. apply N.eqb_refl.
      Qed.
      Lemma g_vac p : p < M -> ch_is_vacant vb t (P p) = Ret (vac (B p)).
      Proof.
        intros Hp. rewrite (is_vacant_ok t (fr_shape _ _ _ _ _ F)) by apply P_lt. rewrite vac_at by exact Hp. reflexivity.
      Qed.
      Lemma g_quo p a : p < M -> B p = Some a -> ch_get_quo t (P p) = Ret (e_q a).
      Proof.
        intros Hp Ha. rewrite (get_quo_ok t (fr_shape _ _ _ _ _ F)) by apply P_lt.
        pose proof (fr_at _ _ _ _ _ F p Hp) as H. unfold holds in H. rewrite Ha in H. destruct H as [-> _]. reflexivity.
      Qed.
      Lemma g_val p a : p < M -> B p = Some a -> ch_get_val vb t (P p) = Ret (e_v a).
      Proof.
        intros Hp Ha. rewrite (get_val_ok t (fr_shape _ _ _ _ _ F)) by apply P_lt.
        pose proof (fr_at _ _ _ _ _ F p Hp) as H. unfold holds in H. rewrite Ha in H. destruct H as (_ & -> & _). reflexivity.
      Qed.
      Lemma q_lt p a : p < M -> B p = Some a -> e_q a < 2 ^ (u - c).
      Proof.
        intros Hp Ha. pose proof (fld_q_lt t (fr_shape _ _ _ _ _ F) (P p) (P_lt p)) as Hq.
        pose proof (fr_at _ _ _ _ _ F p Hp) as H. unfold holds in H. rewrite Ha in H. destruct H as [<- _]. exact Hq.
      Qed.

      Let L := fr_lin _ _ _ _ _ F.
      Lemma M64 : M < 2 ^ 64.
      Proof. pose proof chM_le. assert (2 ^ 57 < 2 ^ 64) by reflexivity. lia. Qed.

      Hypothesis H0 : B 0 = None.

      (** Counting to the left, then to the right. *)
      Lemma find_ass_ok m : 1 <= m < M -> (forall y, 1 <= y <= m -> B y <> None) ->
        exists r, ch_find_ass_cbit vb t (P m) = Ret (r, e) /\ ((r = UINT64_MAX /\ cV vbf m = 0) \/
           (exists x a, r = P x /\ 1 <= x <= m /\ B x = Some a /\ cbf x = true /\ e_h a <= m /\ vbf (e_h a) = true /\ forall y, e_h a < y <= m -> vbf y = false)).
      Proof.
        intros Hm Hocc. unfold ch_find_ass_cbit. pose proof M64 as HM64.
        assert (HcV : forall y, cV vbf y <= y + 1) by (intros y; apply countb_le).
        assert (HcC : forall y, cC cbf y <= y) by (intros y; apply countb_le).
        match goal with |- context [bind (loop ?g _) _] => set (f := g) end.
        assert (El : loop f (P m, 0) = Ret (e, cV vbf m)).
        { set (st := fun d => (P (m - d), cV vbf m - cV vbf (m - d))). replace (P m, 0) with (st 0).
          2:{ unfold st. rewrite N.sub_0_r, N.sub_diag. reflexivity. }
          assert (Hstep : forall d, d < m -> f (P (m - d), cV vbf m - cV vbf (m - d)) =
             if vac (B (m - d - 1)) then Ret (inr (P (m - d - 1), cV vbf m - cV vbf (m - d - 1)))
             else Ret (inl (P (m - d - 1), cV vbf m - cV vbf (m - d - 1)))).
          { intros d Hd. unfold f. rewrite g_vb, bind_ret by lia. cbv zeta. rewrite P_left by lia.
            rewrite g_vac, bind_ret by lia.
            assert (E : (if vbf (m - d) then add64 (cV vbf m - cV vbf (m - d)) 1 else cV vbf m - cV vbf (m - d)) =
                        cV vbf m - cV vbf (m - d - 1)).
            { assert (E1 : cV vbf (m - d) = cV vbf (m - d - 1) + b2n (vbf (m - d))).
              { pose proof (cV_succ vbf (m - d - 1)) as E1. replace (m - d - 1 + 1) with (m - d) in E1 by lia. exact E1. }
              pose proof (cV_mono M vbf chM_pos (m - d) m ltac:(lia)). pose proof (HcV m).
              destruct (vbf (m - d)); simpl b2n in E1; [|lia].
              unfold add64. rewrite w64_small; lia. }
            rewrite E. reflexivity. }
          rewrite (loop_at f st (m - 1)); unfold st.
          - rewrite Hstep by lia. replace (m - (m - 1) - 1) with 0 by lia. rewrite H0. simpl.
            rewrite P_0. do 2 f_equal. unfold cV at 2. change (0 + 1) with (0 + 1). rewrite countb_succ, countb_0.
            rewrite (lin_vb0 M B vbf cbf chM_pos L H0). simpl. lia.
          - lia.
          - intros d Hd. rewrite Hstep by lia. destruct (B (m - d - 1)) as [a|] eqn:E; [|exfalso; apply (Hocc (m - d - 1)); [lia|exact E]].
            cbn [vac]. replace (m - (d + 1)) with (m - d - 1) by lia. reflexivity.
          - rewrite Hstep by lia. replace (m - (m - 1) - 1) with 0 by lia. rewrite H0. simpl. intros s. discriminate. }
        rewrite El, bind_ret. cbv iota beta. destruct (N.eqb_spec (cV vbf m) 0) as [E0|Hne].
        { exists UINT64_MAX. split; [reflexivity|]. left. auto. }
        destruct (find_group M B vbf cbf chM_pos L H0 m ltac:(lia) Hocc ltac:(lia)) as (x & a & Hx & ECx & Hless & Ha & Hcx & Hh & Hvh & Hgap).
        match goal with |- context [bind (loop ?g _) _] => set (f2 := g) end.
        assert (El2 : loop f2 (e, 0) = Ret (P x)).
        { set (st := fun d => (P d, cC cbf d)). replace (e, 0) with (st 0) by (unfold st; rewrite P_0; reflexivity).
          rewrite (loop_at f2 st x); unfold st.
          - unfold f2. rewrite ECx, N.ltb_irrefl. reflexivity.
          - lia.
          - intros d Hd. unfold f2. rewrite (proj2 (N.ltb_lt _ _) (Hless d Hd)). rewrite P_right. rewrite g_cb, bind_ret by lia.
            do 3 f_equal. rewrite cC_succ. destruct (cbf (d + 1)); simpl; [|lia]. unfold add64. rewrite w64_small; [reflexivity|].
            pose proof (HcC d). lia.
          - unfold f2. rewrite ECx, N.ltb_irrefl. intros s. discriminate. }
        rewrite El2, bind_ret. exists (P x). split; [reflexivity|]. right. exists x, a. auto 10.
      Qed.

      Definition grp (x g : N) (a : el) : Prop :=
        x < g /\ g <= M /\ cbf g = true /\ (forall p, x < p < g -> cbf p = false) /\
        forall p, x <= p < g -> exists a', B p = Some a' /\ e_h a' = e_h a.
      Lemma group_end x a : x < M -> B x = Some a -> exists g, grp x g a.
      Proof.
        intros Hx Ha. destruct (least_index (fun d => cbf (x + 1 + d)) (M - x - 1)) as (d & Hd & Hcd & Hl).
        { replace (x + 1 + (M - x - 1)) with M by lia. apply (li_cbM _ _ _ _ L). }
        exists (x + 1 + d). split; [lia|]. split; [lia|]. split; [exact Hcd|].
        assert (Hf : forall p, x < p < x + 1 + d -> cbf p = false).
        { intros p Hp. specialize (Hl (p - x - 1)). replace (x + 1 + (p - x - 1)) with p in Hl by lia. apply Hl. lia. }
        split; [exact Hf|]. intros p [Hp1 Hp2]. revert Hp2. pattern p. revert p Hp1. apply N.right_induction.
        - intros p q ->. reflexivity.
        - intros _. eauto.
        - intros p Hp IH Hlt. rewrite <- N.add_1_r in *. destruct IH as (a1 & Ha1 & E1); [lia|].
          destruct (cb_occ M B vbf cbf L p) as (b1 & b2 & Hb1 & Hb2 & E2); [lia|apply Hf; lia|].
          exists b2. split; [exact Hb2|]. congruence.
      Qed.
      Lemma find_item_ok x g a q : x < M -> grp x g a ->
        (exists p b, x <= p < g /\ B p = Some b /\ e_q b = q /\ ch_find_item t (P x) q = Ret (true, P p)) \/
        ((forall p b, x <= p < g -> B p = Some b -> e_q b <> q) /\ ch_find_item t (P x) q = Ret (false, P g)).
      Proof.
        intros Hx (Hxg & HgM & Hcg & Hcf & Hall). unfold ch_find_item. pose proof M64.
        match goal with |- context [loop ?f _] => set (f0 := f) end.
        set (hit := fun d => match B (x + d) with Some b => e_q b =? q | None => false end).
        assert (Hstep : forall d, x + d < g -> f0 (P (x + d)) =
          if hit d then Ret (inr (true, P (x + d))) else if cbf (x + d + 1) then Ret (inr (false, P (x + d + 1))) else Ret (inl (P (x + (d + 1))))).
        { intros d Hd. destruct (Hall (x + d)) as (b & Hb & _); [lia|]. unfold f0, hit. rewrite (g_quo _ b), bind_ret by (lia || exact Hb).
          rewrite Hb. destruct (e_q b =? q); [reflexivity|]. cbv zeta. rewrite P_right, g_cb, bind_ret by lia.
          destruct (cbf (x + d + 1)); [reflexivity|]. do 3 f_equal. lia. }
        set (stop := fun d => hit d || cbf (x + d + 1)).
        destruct (least_index stop (g - x - 1)) as (d & Hd & Hs & Hl).
        { unfold stop. replace (x + (g - x - 1) + 1) with g by lia. rewrite Hcg. apply orb_true_r. }
        assert (El : loop f0 (P x) = finish (f0 (P (x + d)))).
        { set (st := fun d => P (x + d)). replace (P x) with (st 0) by (unfold st; f_equal; lia). apply (loop_at f0 st); unfold st.
          - lia.
          - intros d' Hd'. rewrite Hstep by lia. specialize (Hl d' Hd'). apply orb_false_iff in Hl as [-> ->]. reflexivity.
          - rewrite Hstep by lia. apply orb_true_iff in Hs as [Hs|Hs]; rewrite Hs; [|destruct (hit d)]; intros s; discriminate. }
        rewrite El, Hstep by lia. destruct (hit d) eqn:Eh.
        - left. unfold hit in Eh. destruct (B (x + d)) as [b|] eqn:Eb; [|discriminate]. apply N.eqb_eq in Eh.
          exists (x + d), b. split; [lia|]. split; [exact Eb|]. split; [exact Eh|]. reflexivity.
        - right. unfold stop in Hs. rewrite Eh in Hs. simpl in Hs. rewrite Hs.
          assert (Eg : x + d + 1 = g).
          { destruct (N.eq_dec (x + d + 1) g) as [|Hne]; [assumption|]. rewrite Hcf in Hs by lia. discriminate. }
          rewrite Eg. split; [|reflexivity]. intros p b Hp Hb Eq.
          assert (Hh : hit (p - x) = true). { unfold hit. replace (x + (p - x)) with p by lia. rewrite Hb. apply N.eqb_eq, Eq. }
          destruct (N.eq_dec (p - x) d) as [E|Hne]; [congruence|]. specialize (Hl (p - x) ltac:(lia)). unfold stop in Hl.
          rewrite Hh in Hl. discriminate.
      Qed.
      Lemma next_cbit_ok x g a : x < M -> grp x g a -> ch_next_cbit t (P x) = Ret (P g).
      Proof.
        intros Hx (Hxg & HgM & Hcg & Hcf & Hall). unfold ch_next_cbit. pose proof M64.
        match goal with |- context [loop ?f _] => set (f0 := f) end.
        assert (Hstep : forall d, x + d < g -> f0 (P (x + d)) =
          if cbf (x + d + 1) then Ret (inr (P (x + d + 1))) else Ret (inl (P (x + d + 1)))).
        { intros d Hd. unfold f0. rewrite P_right, g_cb, bind_ret by lia. reflexivity. }
        set (st := fun d => P (x + d)). replace (P x) with (st 0) by (unfold st; f_equal; lia).
        rewrite (loop_at f0 st (g - x - 1)); unfold st.
        - rewrite Hstep by lia. replace (x + (g - x - 1) + 1) with g by lia. rewrite Hcg. reflexivity.
        - lia.
        - intros d Hd. rewrite Hstep by lia. rewrite Hcf by lia. do 3 f_equal. lia.
        - rewrite Hstep by lia. replace (x + (g - x - 1) + 1) with g by lia. rewrite Hcg. intros s. discriminate.
      Qed.
    End walk.

    (** ** Contents *)
    Definition kcode (e : N) (a : el) : N := e_q a * M + slot M e (e_h a).
    Definition cont (e : N) (B : N -> option el) (k v : N) : Prop :=
      k < 2 ^ u /\ exists p a, p < M /\ B p = Some a /\ hfun u k = kcode e a /\ e_v a = v.
    Definition occ (t : cht) (i : N) : bool := negb (f_v (fld t i) =? N.ones vb).
    Record ch_rep (t : cht) (m : gmap N N) : Prop := {
      cr_frm : exists e B vbf cbf, frm e t B vbf cbf /\ forall k v, m !! k = Some v <-> cont e B k v;
      cr_cnt : countb (occ t) M = ch_size t;
      cr_size : ch_size t = N.of_nat (size m) }.

    Lemma kcode_eq e a q p : e < M -> e_h a < M -> p < M ->
      q * M + slot M e p = kcode e a <-> e_q a = q /\ e_h a = p.
    Proof.
      intros He Ha Hp. unfold kcode. pose proof chM_pos as HM. split.
      - intros E. pose proof (slot_lt M HM e p) as H1. pose proof (slot_lt M HM e (e_h a)) as H2.
        assert (Eq : q = e_q a).
        { apply (f_equal (fun x => x / M)) in E. rewrite !(N.mul_comm _ M), !N.add_comm with (m := slot _ _ _) in E.
          rewrite !(N.mul_comm M), !N.div_add, !N.div_small in E by lia. lia. }
        split; [congruence|]. subst q. assert (Es : slot M e p = slot M e (e_h a)) by lia.
        symmetry. apply (slot_inj M HM e); assumption.
      - intros [-> ->]. reflexivity.
    Qed.
    Lemma cont_fun e B vbf cbf k v v' : e < M -> lin M B vbf cbf -> cont e B k v -> cont e B k v' -> v = v'.
    Proof.
      intros He L (_ & p & a & Hp & Ha & E & <-) (_ & p' & a' & Hp' & Ha' & E' & <-).
      pose proof (li_rng _ _ _ _ L p a Hp Ha). pose proof (li_rng _ _ _ _ L p' a' Hp' Ha').
      rewrite E in E'. unfold kcode in E' at 1. apply kcode_eq in E' as [Eq Eh]; [|lia..].
      assert (p' = p) by (apply (li_uniq _ _ _ _ L p' p a' a); assumption). congruence.
    Qed.

    (** ** Turning *)
    Lemma slot_rot e k q : k < M -> q < M -> slot M (slot M e k) q = slot M e (rot_p M k q).
    Proof.
      intros Hk Hq. pose proof chM_pos. unfold slot. rewrite N.add_mod_idemp_l by lia. unfold rot_p.
      destruct (N.ltb_spec q (M - k)); [f_equal; lia|].
      replace (e + k + q) with (e + (k + q - M) + 1 * M) by lia. apply N.mod_add. lia.
    Qed.
    Lemma slot_rot_h e k h : k < M -> h < M -> slot M (slot M e k) (rot_h M k h) = slot M e h.
    Proof.
      intros Hk Hh. pose proof chM_pos. unfold slot. rewrite N.add_mod_idemp_l by lia. unfold rot_h.
      destruct (N.ltb_spec h k); [|f_equal; lia].
      replace (e + k + (h + M - k)) with (e + h + 1 * M) by lia. apply N.mod_add. lia.
    Qed.
    Lemma rot_p_lt k q : k < M -> q < M -> rot_p M k q < M.
    Proof. intros Hk Hq. unfold rot_p. destruct (N.ltb_spec q (M - k)); lia. Qed.
    Lemma rot_h_lt k h : k < M -> h < M -> rot_h M k h < M.
    Proof. intros Hk Hq. unfold rot_h. destruct (N.ltb_spec h k); lia. Qed.
    Lemma rot_p_h k h : k < M -> h < M -> rot_p M k (rot_h M k h) = h.
    Proof.
      intros Hk Hh. unfold rot_p, rot_h. destruct (N.ltb_spec h k).
      - rewrite (proj2 (N.ltb_ge _ _)) by lia. lia.
      - rewrite (proj2 (N.ltb_lt _ _)) by lia. lia.
    Qed.
    Lemma frm_rot e t B vbf cbf k : frm e t B vbf cbf -> k < M -> B k = None ->
      frm (slot M e k) t (rot_B M B k) (rot_b M vbf k) (rot_b M cbf k) /\ rot_B M B k 0 = None /\
      forall x v, cont e B x v <-> cont (slot M e k) (rot_B M B k) x v.
    Proof.
      intros F Hk Hn. pose proof chM_pos as HM. pose proof (fr_lin _ _ _ _ _ F) as L.
      destruct (rot_lin M B vbf cbf HM L k Hk Hn) as [L' H0]. split; [|split; [exact H0|]].
      - destruct F as [F1 F2 _ F4 F5 F6]. split.
        + exact F1.
        + apply slot_lt, HM.
        + exact L'.
        + intros p Hp. rewrite slot_rot by assumption. pose proof (F4 _ (rot_p_lt k p Hk Hp)) as H. unfold holds in *.
          unfold rot_B. destruct (B (rot_p M k p)) as [a|]; exact H.
        + intros p Hp. rewrite slot_rot by assumption. apply F5, rot_p_lt; assumption.
        + intros p Hp. rewrite slot_rot by assumption. apply F6, rot_p_lt; assumption.
      - intros x v. unfold cont. apply and_iff_compat_l. split.
        + intros (p & a & Hp & Ha & E & Ev). exists (rot_h M k p), (mkEl (rot_h M k (e_h a)) (e_q a) (e_v a)).
          split; [apply rot_h_lt; assumption|]. split; [unfold rot_B; rewrite rot_p_h, Ha by assumption; reflexivity|].
          split; [|exact Ev]. rewrite E. unfold kcode. simpl. f_equal. symmetry. apply slot_rot_h; [exact Hk|].
          apply (li_rng _ _ _ _ L p a Hp Ha).
        + intros (q & b & Hq & Hb & E & Ev). unfold rot_B in Hb. destruct (B (rot_p M k q)) as [a|] eqn:Ea; [|discriminate].
          injection Hb as <-. exists (rot_p M k q), a. pose proof (rot_p_lt k q Hk Hq) as Hlt. split; [exact Hlt|].
          split; [exact Ea|]. split; [|exact Ev]. rewrite E. unfold kcode. simpl. f_equal. apply slot_rot_h; [exact Hk|].
          apply (li_rng _ _ _ _ L _ a Hlt Ea).
    Qed.
    Definition frame (t : cht) (m : gmap N N) e B vbf cbf : Prop :=
      frm e t B vbf cbf /\ B 0 = None /\ forall k v, m !! k = Some v <-> cont e B k v.
    Lemma turn_at t m e B vbf cbf k : frm e t B vbf cbf -> (forall k v, m !! k = Some v <-> cont e B k v) -> k < M -> B k = None ->
      frame t m (slot M e k) (rot_B M B k) (rot_b M vbf k) (rot_b M cbf k).
    Proof.
      intros F Hm Hk Hn. destruct (frm_rot e t B vbf cbf k F Hk Hn) as (F' & H0 & Hc'). split; [exact F'|]. split; [exact H0|].
      intros x v. rewrite Hm. apply Hc'.
    Qed.
    Lemma rep_vacant t m : ch_rep t m -> ch_size t < M -> exists i, i < M /\ f_v (fld t i) = N.ones vb.
    Proof.
      intros R Hs. rewrite <- (cr_cnt _ _ R) in Hs. destruct (countb_lt_ex _ _ Hs) as (i & Hi & Ho). exists i. split; [exact Hi|].
      unfold occ in Ho. apply negb_false_iff, N.eqb_eq in Ho. exact Ho.
    Qed.
    (** A frame that starts at a given vacant slot. *)
    Lemma turn_slot t m i : ch_rep t m -> i < M -> f_v (fld t i) = N.ones vb ->
      exists B vbf cbf, frame t m i B vbf cbf.
    Proof.
      intros R Hi Hv. destruct (cr_frm _ _ R) as (e & B & vbf & cbf & F & Hm). pose proof chM_pos as HM.
      pose proof (fr_e _ _ _ _ _ F) as He.
      assert (Ei : slot M e (dist M e i) = i) by (apply slot_dist; assumption).
      assert (Hd : dist M e i < M) by (apply dist_lt, HM).
      assert (Hn : B (dist M e i) = None).
      { pose proof (vac_at e t B vbf cbf F (dist M e i) Hd) as H. rewrite Ei, Hv, N.eqb_refl in H. destruct (B _); [discriminate|reflexivity]. }
      pose proof (turn_at t m e B vbf cbf _ F Hm Hd Hn) as H. rewrite Ei in H. eauto.
    Qed.
    Lemma turn t m i : ch_rep t m -> ch_size t < M -> i < M ->
      exists e B vbf cbf p, frame t m e B vbf cbf /\ p < M /\ i = slot M e p /\
        (B p = None \/ (B p <> None /\ 1 <= p /\ forall y, 1 <= y <= p -> B y <> None)).
    Proof.
      intros R Hs Hi. destruct (rep_vacant t m R Hs) as (i0 & Hi0 & Hv0). pose proof chM_pos as HM.
      destruct (turn_slot t m i0 R Hi0 Hv0) as (B & vbf & cbf & F & H0 & Hm).
      set (p := dist M i0 i). assert (Hp : p < M) by (apply dist_lt, HM).
      assert (Ep : slot M i0 p = i) by (apply slot_dist; assumption).
      destruct (B p) as [a|] eqn:Ea.
      2:{ exists i0, B, vbf, cbf, p. split; [split; auto|]. auto. }
      destruct (least_index (fun d => vac (B (p - d))) p) as (d & Hd & Hvd & Hl).
      { rewrite N.sub_diag, H0. reflexivity. }
      set (k := p - d). fold k in Hvd. assert (Hk : B k = None) by (destruct (B k); [discriminate|reflexivity]).
      assert (Hkp : k < p).
      { destruct (N.eq_dec k p) as [E|]; [rewrite E in Hk; congruence|]. unfold k in *. lia. }
      exists (slot M i0 k), (rot_B M B k), (rot_b M vbf k), (rot_b M cbf k), (p - k).
      split; [apply turn_at; [assumption..|lia|exact Hk]|]. split; [lia|].
      assert (Hr : forall y, 1 <= y <= p - k -> rot_p M k y = k + y).
      { intros y Hy. unfold rot_p. rewrite (proj2 (N.ltb_lt _ _)) by lia. reflexivity. }
      split. { rewrite slot_rot by lia. rewrite Hr by lia. replace (k + (p - k)) with p by lia. symmetry. exact Ep. }
      assert (Hocc : forall y, 1 <= y <= p - k -> rot_B M B k y <> None).
      { intros y Hy. unfold rot_B. rewrite Hr by exact Hy. specialize (Hl (p - (k + y))). unfold k in *.
        replace (p - (p - (p - d + y))) with (p - d + y) in Hl by lia. destruct (B (p - d + y)); [discriminate|].
        exfalso. enough (true = false) by discriminate. apply Hl. lia. }
      right. split; [apply Hocc; lia|]. split; [lia|exact Hocc].
    Qed.

    (** ** get *)
    Lemma hash_split x : x < 2 ^ u -> x = x / M * M + x mod M /\ x / M < 2 ^ (u - c) /\ x mod M < M.
    Proof.
      intros Hx. pose proof chM_pos. split; [|split].
      - rewrite N.mul_comm. apply N.div_mod. lia.
      - apply N.div_lt_upper_bound; [lia|]. unfold M. rewrite <- N.pow_add_r. replace (c + (u - c)) with u by lia. exact Hx.
      - apply N.mod_lt. lia.
    Qed.
    Lemma decompose_ok t x : ch_shape u c t -> ch_decompose t x = (x / M, x mod M).
    Proof.
      intros S. unfold ch_decompose. rewrite (cs_capa _ _ _ S). simpl. rewrite shr_div, land_ones_mod. reflexivity.
    Qed.
    Lemma P_max e p : slot M e p <> UINT64_MAX.
    Proof. pose proof (slot_lt M chM_pos e p). pose proof chM_le. assert (2 ^ 57 < UINT64_MAX) by reflexivity. lia. Qed.
    Lemma ch_get_ok t m key : ch_rep t m -> ch_size t < M -> key < 2 ^ u ->
      ch_get vb t key = Ret (default ch_nil (m !! key)).
    Proof.
      intros R Hs Hk. assert (S : ch_shape u c t) by (destruct (cr_frm _ _ R) as (? & ? & ? & ? & F & _); apply (fr_shape _ _ _ _ _ F)).
      unfold ch_get. rewrite (cs_univ _ _ _ S), p2_size_ones by lia. rewrite assert_true by (apply N.ltb_lt, Hk).
      rewrite bind_ret, (cs_hash _ _ _ S), hash_ok, bind_ret by (lia || exact Hk). rewrite (decompose_ok t _ S).
      destruct (hash_split (hfun u key) (hfun_lt u key)) as (Ex & Hq & Hr).
      set (q := hfun u key / M) in *. set (i := hfun u key mod M) in *.
      destruct (turn t m i R Hs Hr) as (e & B & vbf & cbf & p & (F & H0 & Hm) & Hp & Ei & Hcase).
      pose proof (fr_lin _ _ _ _ _ F) as L. pose proof chM_pos as HM. pose proof (fr_e _ _ _ _ _ F) as He.
      assert (Hin : forall v, m !! key = Some v <-> exists p' a, p' < M /\ B p' = Some a /\ e_q a = q /\ e_h a = p /\ e_v a = v).
      { intros v. rewrite Hm. unfold cont. rewrite Ex, Ei. split.
        - intros (_ & p' & a & Hp' & Ha & E & Ev). pose proof (li_rng _ _ _ _ L p' a Hp' Ha). apply kcode_eq in E as [E1 E2]; [|lia..].
          exists p', a. auto.
        - intros (p' & a & Hp' & Ha & E1 & E2 & Ev). split; [exact Hk|]. exists p', a. split; [exact Hp'|]. split; [exact Ha|].
          split; [|exact Ev]. apply kcode_eq; auto. pose proof (li_rng _ _ _ _ L p' a Hp' Ha). lia. }
      cbv iota beta. rewrite Ei. rewrite (g_vb e t B vbf cbf F p Hp), bind_ret.
      destruct (vbf p) eqn:Evb; cbn [negb].
      2:{ destruct (m !! key) as [v|]; [|reflexivity]. exfalso. destruct (proj1 (Hin v) eq_refl) as (p' & a & Hp' & Ha & _ & Eh & _).
          enough (vbf p = true) by congruence. apply (li_vb _ _ _ _ L p Hp). eauto. }
      assert (Hocc : 1 <= p /\ forall y, 1 <= y <= p -> B y <> None).
      { destruct Hcase as [Hn|(_ & H1 & H2)]; [|auto]. exfalso. apply (li_vb _ _ _ _ L p Hp) in Evb as (p' & a & Hp' & Ha & Eh).
        pose proof (li_rng _ _ _ _ L p' a Hp' Ha). destruct (lin_chain M B vbf cbf HM L p' a p Hp' Ha) as (b & Hb & _); [lia|congruence]. }
      destruct Hocc as [Hp1 Hocc].
      destruct (find_ass_ok e t B vbf cbf F H0 p (conj Hp1 Hp) Hocc) as (r & Er & Hr'). rewrite Er, bind_ret. cbn [fst].
      destruct Hr' as [[_ Ez]|(x & a & -> & Hx & Ha & Hcx & Hh & Hvh & Hgap)].
      { exfalso. pose proof (cV_strict M vbf HM 0 p ltac:(lia) Evb). lia. }
      rewrite (proj2 (N.eqb_neq _ _) (P_max e x)).
      assert (Ehp : e_h a = p).
      { destruct (N.eq_dec (e_h a) p) as [|Hne]; [assumption|]. rewrite Hgap in Evb by lia. discriminate. }
      assert (HxM : x < M) by lia.
      destruct (group_end e t B vbf cbf F x a HxM Ha) as (g & G).
      assert (Hall : forall p' b, p' < M -> B p' = Some b -> e_h b = p -> x <= p' < g).
      { destruct G as (Hxg & HgM & Hcg & Hcf & Hg). intros p' b Hp' Hb Eh.
        apply (group_all M B vbf cbf HM L H0 x g a p' b); try assumption. congruence. }
      destruct (find_item_ok e t B vbf cbf F x g a q HxM G) as [(p' & b & Hp' & Hb & Eq & ->)|(Hno & ->)];
        rewrite bind_ret; cbn [negb].
      - assert (Hp'M : p' < M) by (destruct G as (_ & HgM & _); lia).
        rewrite (g_val e t B vbf cbf F p' b Hp'M Hb).
        assert (E : m !! key = Some (e_v b)).
        { apply Hin. exists p', b. split; [exact Hp'M|]. split; [exact Hb|]. split; [exact Eq|]. split; [|reflexivity].
          destruct G as (_ & _ & _ & _ & Hg). destruct (Hg p' Hp') as (b' & Hb' & Eh'). congruence. }
        rewrite E. reflexivity.
      - destruct (m !! key) as [v|]; [|reflexivity]. exfalso. destruct (proj1 (Hin v) eq_refl) as (p' & b & Hp' & Hb & Eq & Eh & _).
        apply (Hno p' b (Hall p' b Hp' Hb Eh) Hb Eq).
    Qed.

    (** ** Shifting *)
    Definition moved (e : N) (t : cht) (y p : N) : fields :=
      if p <? y then mkF (f_q (fld t (slot M e (p + 1)))) (f_v (fld t (slot M e (p + 1)))) (f_b (fld t (slot M e p))) (f_c (fld t (slot M e (p + 1))))
      else fld t (slot M e p).
    Lemma shift_ok e t y : ch_shape u c t -> e < M -> y < M ->
      exists t', ch_shift t e (slot M e y) = Ret (slot M e y, t') /\ ch_shape u c t' /\ ch_size t' = ch_size t /\
        forall p, p < M -> fld t' (slot M e p) = moved e t y p.
    Proof.
      intros S He Hy. pose proof chM_pos as HM. pose proof M64 as H64.
      enough (H : wp (ch_shift t e (slot M e y)) (fun r => fst r = slot M e y /\ ch_shape u c (snd r) /\ ch_size (snd r) = ch_size t /\
        forall p, p < M -> fld (snd r) (slot M e p) = moved e t y p)).
      { apply wp_inv in H as ([r1 t'] & E & H1 & H2 & H3 & H4). simpl in *. subst r1. exists t'. auto. }
      unfold ch_shift.
      apply (wp_loop _ (fun st : N * cht => exists k, k <= y /\ fst st = slot M e k /\ ch_shape u c (snd st) /\ ch_size (snd st) = ch_size t /\
        forall p, p < M -> fld (snd st) (slot M e p) = moved e t k p) (fun st => y - dist M e (fst st))).
      - exists 0. simpl. split; [lia|]. split; [symmetry; apply slot_0, He|]. split; [exact S|]. split; [reflexivity|].
        intros p Hp. unfold moved. rewrite (proj2 (N.ltb_ge p 0)) by lia. reflexivity.
      - lia.
      - intros [E t1] (k & Hk & EE & S1 & Hn & Hf). simpl in EE, S1, Hn, Hf. subst E.
        destruct (N.eq_dec k y) as [->|Hne].
        + rewrite N.eqb_refl. simpl. auto.
        + rewrite (proj2 (N.eqb_neq _ _)).
          2:{ intros E. apply (slot_inj M HM e) in E; lia. }
          cbn [negb]. destruct (copy_ok t1 S1 (slot M e k) (slot_lt M HM e k)) as (t2 & E2 & S2 & Hn2 & Hf2).
          rewrite E2, bind_ret. apply wp_ret. rewrite (slot_succ M HM) in *. split.
          * exists (k + 1). split; [lia|]. simpl. split; [reflexivity|]. split; [exact S2|]. split; [congruence|].
            intros p Hp. rewrite Hf2 by apply (slot_lt M HM). rewrite (Hf k), (Hf (k + 1)) by lia.
            destruct (N.eqb_spec (slot M e p) (slot M e k)) as [E|Hnp].
            -- apply (slot_inj M HM e) in E; [|lia..]. subst p. unfold moved.
               rewrite (proj2 (N.ltb_ge (k + 1) k)), (proj2 (N.ltb_ge k k)), (proj2 (N.ltb_lt k (k + 1))) by lia. reflexivity.
            -- rewrite (Hf p) by exact Hp. unfold moved. assert (p <> k) by congruence.
               destruct (N.ltb_spec p k), (N.ltb_spec p (k + 1)); try lia; reflexivity.
          * simpl. rewrite !(dist_slot M HM) by lia. lia.
    Qed.

    (** ** Insertion *)
    Lemma with_size_shape t n : ch_shape u c t -> ch_shape u c (ch_with_size t n).
    Proof. intros [S1 S2 S3 S4 S5 S6 S7 S8 S9 S10]. split; assumption. Qed.
    Lemma rep_shape t m : ch_rep t m -> ch_shape u c t.
    Proof. intros R. destruct (cr_frm _ _ R) as (? & ? & ? & ? & F & _). apply (fr_shape _ _ _ _ _ F). Qed.

    Section insert.
      Context (t : cht) (m : gmap N N) (e : N) (B : N -> option el) (vbf cbf : N -> bool) (key val p : N).
      Hypothesis R : ch_rep t m.
      Hypothesis Fr : frame t m e B vbf cbf.
      Hypothesis Hk : key < 2 ^ u.
      Hypothesis Hv : val < N.ones vb.
      Hypothesis Hp : p < M.
      Hypothesis Hcode : hfun u key = hfun u key / M * M + slot M e p.
      Hypothesis Hn64 : ch_size t < M.
      Let q := hfun u key / M.
      Let new := mkEl p q val.
      Let F := proj1 Fr.
      Let L := fr_lin _ _ _ _ _ F.
      Let H0 := proj1 (proj2 Fr).
      Let Hm := proj2 (proj2 Fr).
      Let He := fr_e _ _ _ _ _ F.

      Lemma ins_q_lt : q < 2 ^ (u - c).
      Proof. apply (proj1 (proj2 (hash_split (hfun u key) (hfun_lt u key)))). Qed.
      Lemma key_code a : e_h a < M -> hfun u key = kcode e a <-> e_q a = q /\ e_h a = p.
      Proof. intros Ha. rewrite Hcode. apply kcode_eq; assumption. Qed.
      Lemma kcode_inj k a : k < 2 ^ u -> hfun u k = kcode e a -> e_q a = q -> e_h a = p -> k = key.
      Proof.
        intros Hk' E E1 E2. apply (hfun_inj u); [lia|exact Hk'|exact Hk|]. rewrite E. symmetry. apply key_code; [lia|auto].
      Qed.

      (** A new element was stored. *)
      Lemma rep_new t' B' vbf' cbf' (z : N) :
        frm e t' B' vbf' cbf' -> ch_size t' = ch_size t ->
        (forall x a, x < M -> B x = Some a -> e_q a = q -> e_h a = p -> False) ->
        (forall a, (exists x, x < M /\ B' x = Some a) <-> a = new \/ exists x, x < M /\ B x = Some a) ->
        z < M -> B z = None -> B' z <> None -> (forall x, x < M -> x <> z -> vac (B' x) = vac (B x)) ->
        m !! key = None /\ ch_rep (ch_with_size t' (add64 (ch_size t') 1)) (<[key := val]> m).
      Proof.
        intros F' Hsz Hfresh Hin Hz Hzn Hzs Hoth. pose proof chM_pos as HM.
        assert (Hnone : m !! key = None).
        { destruct (m !! key) as [v|] eqn:E; [|reflexivity]. exfalso. apply Hm in E as (_ & x & a & Hx & Ha & E & _).
          apply key_code in E as [E1 E2]; [|apply (li_rng _ _ _ _ L x a Hx Ha)]. apply (Hfresh x a); assumption. }
        split; [exact Hnone|].
        assert (Esz : add64 (ch_size t') 1 = ch_size t + 1).
        { rewrite Hsz. unfold add64. apply w64_small. pose proof M64. lia. }
        split.
        - exists e, B', vbf', cbf'. split.
          { destruct F' as [F1 F2 F3 F4 F5 F6]. split; try assumption. apply with_size_shape, F1. }
          intros k v. unfold cont. destruct (N.eq_dec k key) as [->|Hne].
          + rewrite lookup_insert. split.
            * intros [= <-]. split; [exact Hk|]. destruct (proj2 (Hin new)) as (x & Hx & Hb); [auto|].
              exists x, new. split; [exact Hx|]. split; [exact Hb|]. split; [|reflexivity]. apply key_code; [exact Hp|]. auto.
            * intros (_ & x & a & Hx & Ha & E & Ev). f_equal. rewrite <- Ev.
              destruct (proj1 (Hin a)) as [->|(x' & Hx' & Ha')]; [eauto|reflexivity|]. exfalso.
              apply key_code in E as [E1 E2]; [|apply (li_rng _ _ _ _ L x' a Hx' Ha')]. apply (Hfresh x' a); assumption.
          + rewrite lookup_insert_ne by congruence. rewrite Hm. unfold cont. split; intros (Hk' & x & a & Hx & Ha & E & Ev); (split; [exact Hk'|]).
            * destruct (proj2 (Hin a)) as (x' & Hx' & Ha'); [right; eauto|]. exists x', a. auto.
            * destruct (proj1 (Hin a)) as [->|(x' & Hx' & Ha')]; [eauto| |exists x', a; auto].
              exfalso. apply Hne. apply (kcode_inj k new); auto.
        - change (countb (occ t') M = add64 (ch_size t') 1). rewrite Esz, <- (cr_cnt _ _ R).
          assert (Hocc : forall i, i < M -> occ t' i = negb (vac (B' (dist M e i))) /\ occ t i = negb (vac (B (dist M e i)))).
          { intros i Hi. assert (Hd : dist M e i < M) by apply (dist_lt M HM). split.
            - rewrite <- (vac_at e t' B' vbf' cbf' F' _ Hd). rewrite slot_dist by assumption. reflexivity.
            - rewrite <- (vac_at e t B vbf cbf F _ Hd). rewrite slot_dist by assumption. reflexivity. }
          apply (countb_upd _ _ M (slot M e z)).
          + apply slot_lt, HM.
          + rewrite (proj2 (Hocc _ (slot_lt M HM e z))). rewrite dist_slot by assumption. rewrite Hzn. reflexivity.
          + rewrite (proj1 (Hocc _ (slot_lt M HM e z))). rewrite dist_slot by assumption. destruct (B' z); [reflexivity|congruence].
          + intros j Hj Hne. rewrite (proj1 (Hocc j Hj)), (proj2 (Hocc j Hj)). rewrite Hoth; [reflexivity|apply (dist_lt M HM)|].
            intros E. apply Hne. rewrite <- E. symmetry. apply slot_dist; assumption.
        - simpl. rewrite Esz, (cr_size _ _ R), map_size_insert, Hnone. lia.
      Qed.

      (** Storing at position [y] after the shift. *)
      Lemma place_ok y cc t' :
        1 <= p -> (forall x, 1 <= x <= p -> B x <> None) -> y <= p ->
        (forall x b, 1 <= x <= y -> B x = Some b -> e_h b <= p) ->
        (forall x b, y < x <= p -> B x = Some b -> p < e_h b) ->
        (forall x b, x < M -> B x = Some b -> e_h b = p -> e_q b <> q) ->
        cc = negb (vbf p) ->
        ch_shape u c t' -> ch_size t' = ch_size t ->
        (forall x, x < M -> fld t' (slot M e x) =
           if x =? y then mkF q val (ins_vb vbf p x) cc
           else mkF (f_q (moved e t y x)) (f_v (moved e t y x)) (ins_vb vbf p x) (f_c (moved e t y x))) ->
        m !! key = None /\ ch_rep (ch_with_size t' (add64 (ch_size t') 1)) (<[key := val]> m).
      Proof.
        intros Hp1 Hocc Hy Hlo Hhi Hfr Hcc S' Hsz Hf. pose proof chM_pos as HM.
        assert (HB1 : forall x, x < y -> ins_B B y new x = B (x + 1)).
        { intros x Hx. unfold ins_B. rewrite (proj2 (N.ltb_lt _ _) Hx). reflexivity. }
        assert (HB2 : ins_B B y new y = Some new).
        { unfold ins_B. rewrite N.ltb_irrefl, N.eqb_refl. reflexivity. }
        assert (HB3 : forall x, y < x -> ins_B B y new x = B x).
        { intros x Hx. unfold ins_B. rewrite (proj2 (N.ltb_ge _ _)) by lia. rewrite (proj2 (N.eqb_neq _ _)) by lia. reflexivity. }
        assert (L' : lin M (ins_B B y new) (ins_vb vbf p) (ins_cb cbf y cc)).
        { apply (ins_lin M B vbf cbf HM L H0); try assumption. reflexivity. }
        apply (rep_new t' (ins_B B y new) (ins_vb vbf p) (ins_cb cbf y cc) 0).
        - split; [exact S'|exact He|exact L'| | |].
          + intros x Hx. rewrite Hf by exact Hx. destruct (N.eqb_spec x y) as [->|Hne].
            * rewrite HB2. simpl. auto.
            * unfold moved. destruct (N.ltb_spec x y) as [Hlt|Hge].
              -- rewrite HB1 by exact Hlt. pose proof (fr_at _ _ _ _ _ F (x + 1) ltac:(lia)) as H. exact H.
              -- rewrite HB3 by lia. pose proof (fr_at _ _ _ _ _ F x Hx) as H. exact H.
          + intros x Hx. rewrite Hf by exact Hx. destruct (x =? y); reflexivity.
          + intros x Hx. rewrite Hf by exact Hx. unfold ins_cb. destruct (N.eqb_spec x y) as [->|Hne].
            * rewrite N.ltb_irrefl. reflexivity.
            * unfold moved. destruct (N.ltb_spec x y) as [Hlt|Hge].
              -- apply (fr_c _ _ _ _ _ F). lia.
              -- apply (fr_c _ _ _ _ _ F). lia.
        - exact Hsz.
        - intros x a Hx Ha E1 E2. apply (Hfr x a); assumption.
        - intros a. split.
          + intros (x & Hx & Ha). destruct (N.lt_trichotomy x y) as [Hlt|[->|Hgt]].
            * right. exists (x + 1). rewrite HB1 in Ha by exact Hlt. split; [lia|exact Ha].
            * left. rewrite HB2 in Ha. congruence.
            * right. exists x. rewrite HB3 in Ha by exact Hgt. auto.
          + intros [->|(x & Hx & Ha)]; [exists y; split; [lia|exact HB2]|].
            assert (1 <= x). { destruct (N.eq_dec x 0) as [->|]; [pose proof H0; congruence|lia]. }
            destruct (N.le_gt_cases x y).
            * exists (x - 1). rewrite HB1 by lia. replace (x - 1 + 1) with x by lia. split; [lia|exact Ha].
            * exists x. rewrite HB3 by assumption. auto.
        - exact HM.
        - exact H0.
        - destruct (N.eq_dec y 0) as [E|Hne].
          + rewrite E in HB2 |- *. rewrite HB2. discriminate.
          + rewrite HB1 by lia. apply Hocc. lia.
        - intros x Hx Hnz. destruct (N.lt_trichotomy x y) as [Hlt|[->|Hgt]].
          + rewrite HB1 by exact Hlt. destruct (B (x + 1)) eqn:E1; [|exfalso; apply (Hocc (x + 1)); [lia|exact E1]].
            destruct (B x) eqn:E2; [reflexivity|exfalso; apply (Hocc x); [lia|exact E2]].
          + rewrite HB2. destruct (B y) eqn:E2; [reflexivity|exfalso; apply (Hocc y); [lia|exact E2]].
          + rewrite HB3 by exact Hgt. reflexivity.
      Qed.
      Lemma put_new t' : B p = None -> upd_fld t (slot M e p) (mkF q val true true) t' ->
        m !! key = None /\ ch_rep (ch_with_size t' (add64 (ch_size t') 1)) (<[key := val]> m).
      Proof.
        intros Hn (S' & Hsz & Hf). pose proof chM_pos as HM.
        assert (Hff : forall x, x < M -> fld t' (slot M e x) = if x =? p then mkF q val true true else fld t (slot M e x)).
        { intros x Hx. rewrite Hf by apply (slot_lt M HM). destruct (N.eqb_spec x p) as [->|Hne]; [rewrite N.eqb_refl; reflexivity|].
          rewrite (proj2 (N.eqb_neq _ _)); [reflexivity|]. intros E. apply Hne. apply (slot_inj M HM e); assumption. }
        apply (rep_new t' (setp B p (Some new)) (setp vbf p true) (setp cbf p true) p).
        - split; [exact S'|exact He|apply (put_lin M B vbf cbf HM L); (assumption || reflexivity)| | |].
          + intros x Hx. rewrite Hff by exact Hx. unfold setp. destruct (x =? p); [simpl; auto|]. apply (fr_at _ _ _ _ _ F x Hx).
          + intros x Hx. rewrite Hff by exact Hx. unfold setp. destruct (x =? p); [reflexivity|]. apply (fr_b _ _ _ _ _ F x Hx).
          + intros x Hx. rewrite Hff by exact Hx. unfold setp. destruct (x =? p); [reflexivity|]. apply (fr_c _ _ _ _ _ F x Hx).
        - exact Hsz.
        - intros x a Hx Ha _ Eh. pose proof (li_rng _ _ _ _ L x a Hx Ha).
          destruct (lin_chain M B vbf cbf HM L x a p Hx Ha) as (b & Hb & _); [lia|congruence].
        - intros a. split.
          + intros (x & Hx & Ha). unfold setp in Ha. destruct (N.eqb_spec x p); [left; congruence|right; eauto].
          + intros [->|(x & Hx & Ha)]; [exists p; split; [exact Hp|apply setp_eq]|]. exists x. split; [exact Hx|].
            rewrite setp_ne; [exact Ha|congruence].
        - exact Hp.
        - exact Hn.
        - rewrite setp_eq. discriminate.
        - intros x Hx Hne. rewrite setp_ne by exact Hne. reflexivity.
      Qed.
      Lemma put_val x a t' : x < M -> B x = Some a -> e_q a = q -> e_h a = p ->
        upd_fld t (slot M e x) (mkF (f_q (fld t (slot M e x))) val (f_b (fld t (slot M e x))) (f_c (fld t (slot M e x)))) t' ->
        (exists v, m !! key = Some v) /\ ch_rep t' (<[key := val]> m).
      Proof.
        intros Hx Ha Eq Eh (S' & Hsz & Hf). pose proof chM_pos as HM.
        assert (Hff : forall y, y < M -> fld t' (slot M e y) = if y =? x then
            mkF (f_q (fld t (slot M e x))) val (f_b (fld t (slot M e x))) (f_c (fld t (slot M e x))) else fld t (slot M e y)).
        { intros y Hy. rewrite Hf by apply (slot_lt M HM). destruct (N.eqb_spec y x) as [->|Hne]; [rewrite N.eqb_refl; reflexivity|].
          rewrite (proj2 (N.eqb_neq _ _)); [reflexivity|]. intros E. apply Hne. apply (slot_inj M HM e); assumption. }
        assert (Hkey : m !! key = Some (e_v a)).
        { apply Hm. split; [exact Hk|]. exists x, a. split; [exact Hx|]. split; [exact Ha|]. split; [|reflexivity]. apply key_code; [lia|auto]. }
        split; [eauto|]. split.
        - exists e, (setp B x (Some (mkEl (e_h a) (e_q a) val))), vbf, cbf. split.
          + split; [exact S'|exact He|apply (val_lin M B vbf cbf L); assumption| | |].
            * intros y Hy. rewrite Hff by exact Hy. unfold setp. destruct (N.eqb_spec y x) as [->|]; [|apply (fr_at _ _ _ _ _ F y Hy)].
              pose proof (fr_at _ _ _ _ _ F x Hx) as H. rewrite Ha in H. destruct H as [H1 _]. simpl. auto.
            * intros y Hy. rewrite Hff by exact Hy. destruct (N.eqb_spec y x) as [->|]; apply (fr_b _ _ _ _ _ F); assumption.
            * intros y Hy. rewrite Hff by exact Hy. destruct (N.eqb_spec y x) as [->|]; apply (fr_c _ _ _ _ _ F); assumption.
          + intros k v. unfold cont. destruct (N.eq_dec k key) as [->|Hne].
            * rewrite lookup_insert. split.
              -- intros [= <-]. split; [exact Hk|]. exists x. rewrite setp_eq. eexists. split; [exact Hx|]. split; [reflexivity|].
                 split; [|reflexivity]. apply key_code; simpl; [lia|auto].
              -- intros (_ & y & b & Hy & Hb & E & Ev). f_equal. rewrite <- Ev. unfold setp in Hb.
                 destruct (N.eqb_spec y x) as [->|Hne]; [injection Hb as <-; reflexivity|]. exfalso. apply Hne.
                 apply key_code in E as [E1 E2]; [|apply (li_rng _ _ _ _ L y b Hy Hb)].
                 apply (li_uniq _ _ _ _ L y x b a); congruence.
            * rewrite lookup_insert_ne by congruence. rewrite Hm. unfold cont. split; intros (Hk' & y & b & Hy & Hb & E & Ev); (split; [exact Hk'|]).
              -- exists y, b. split; [exact Hy|]. split; [|auto]. rewrite setp_ne; [exact Hb|]. intros ->. rewrite Ha in Hb. injection Hb as <-.
                 apply Hne. apply (kcode_inj k a); assumption.
              -- unfold setp in Hb. destruct (N.eqb_spec y x) as [->|]; [|exists y, b; auto]. injection Hb as <-. exfalso. apply Hne.
                 apply (kcode_inj k (mkEl (e_h a) (e_q a) val)); assumption.
        - rewrite Hsz, <- (cr_cnt _ _ R). apply countb_ext. intros i Hi. unfold occ. f_equal. rewrite Hf by exact Hi.
          destruct (N.eqb_spec i (slot M e x)) as [->|]; [|reflexivity]. cbn [f_v]. pose proof (fr_at _ _ _ _ _ F x Hx) as H. rewrite Ha in H.
          destruct H as (_ & H2 & H3). rewrite H2. transitivity false; [|symmetry]; apply N.eqb_neq; lia.
        - rewrite Hsz, (cr_size _ _ R), map_size_insert, Hkey. reflexivity.
      Qed.
    End insert.

    Lemma fields_eta x : x = mkF (f_q x) (f_v x) (f_b x) (f_c x).
    Proof. destruct x. reflexivity. Qed.
    Lemma moved_b e t y x : f_b (moved e t y x) = f_b (fld t (slot M e x)).
    Proof. unfold moved. destruct (x <? y); reflexivity. Qed.

    Lemma ch_insert_ok t m key val : ch_rep t m -> ch_size t < M -> key < 2 ^ u -> val < N.ones vb ->
      exists t', ch_insert vb t key val = Ret (bool_decide (m !! key = None), t') /\ ch_rep t' (<[key := val]> m).
    Proof.
      intros R Hs Hk Hv. pose proof (rep_shape t m R) as S. unfold ch_insert.
      rewrite (cs_hash _ _ _ S), hash_ok, bind_ret by (lia || exact Hk). rewrite (decompose_ok t _ S).
      destruct (hash_split (hfun u key) (hfun_lt u key)) as (Ex & Hq & Hr).
      set (q := hfun u key / M) in *. set (i := hfun u key mod M) in *. cbv iota beta.
      destruct (turn t m i R Hs Hr) as (e & B & vbf & cbf & p & Fr & Hp & Ei & Hcase).
      pose proof Fr as (F & H0 & Hm). rewrite Ei in Ex |- *. clearbody i. clear i Ei Hr.
      pose proof (fr_lin _ _ _ _ _ F) as L. pose proof chM_pos as HM. pose proof (fr_e _ _ _ _ _ F) as He.
      assert (HPp : slot M e p < M) by apply (slot_lt M HM).
      rewrite (g_vac e t B vbf cbf F p Hp), bind_ret.
      destruct Hcase as [Hn|(Hnn & Hp1 & Hocc)].
      { rewrite Hn. cbn [vac]. destruct (update_slot_ok t S (slot M e p) q val true true HPp Hq ltac:(lia)) as (t' & E & U).
        rewrite E, bind_ret. destruct (put_new t m e B vbf cbf key val p R Fr Hk Hv Hp Ex Hs t' Hn U) as [E0 R'].
        exists (ch_with_size t' (add64 (ch_size t') 1)). rewrite bool_decide_true by exact E0. split; [reflexivity|exact R']. }
      destruct (B p) as [bp|] eqn:Ebp; [|congruence]. cbn [vac].
      destruct (find_ass_ok e t B vbf cbf F H0 p (conj Hp1 Hp) Hocc) as (r & Er & Hr). rewrite Er, bind_ret. cbv iota beta.
      rewrite (g_vb e t B vbf cbf F p Hp), bind_ret.
      (* the tail of both cases *)
      assert (Htail : forall y cc t1 t2, y <= p ->
        (forall x b, 1 <= x <= y -> B x = Some b -> e_h b <= p) ->
        (forall x b, y < x <= p -> B x = Some b -> p < e_h b) ->
        (forall x b, x < M -> B x = Some b -> e_h b = p -> e_q b <> q) ->
        cc = negb (vbf p) ->
        ch_shape u c t1 -> ch_size t1 = ch_size t -> (forall x, x < M -> fld t1 (slot M e x) = 
            let w := moved e t y x in mkF (f_q w) (f_v w) (ins_vb vbf p x) (f_c w)) ->
        upd_fld t1 (slot M e y) (mkF (f_q (fld t1 (slot M e y))) (f_v (fld t1 (slot M e y))) (f_b (fld t1 (slot M e y))) cc) t2 ->
        exists t', bind (ch_set_quo t2 (slot M e y) q) (fun t => bind (ch_set_val vb t (slot M e y) val) (fun t =>
            Ret (true, ch_with_size t (add64 (ch_size t) 1)))) = Ret (bool_decide (m !! key = None), t') /\ ch_rep t' (<[key := val]> m)).
      { intros y cc t1 t2 Hy Hlo Hhi Hfr Hcc S1 Hs1 Hf1 (S2 & Hs2 & Hf2).
        assert (HPy : slot M e y < M) by apply (slot_lt M HM).
        destruct (set_quo_ok t2 S2 (slot M e y) q HPy Hq) as (t3 & E3 & S3 & Hs3 & Hf3). rewrite E3, bind_ret.
        destruct (set_val_ok t3 S3 (slot M e y) val HPy ltac:(lia)) as (t4 & E4 & S4 & Hs4 & Hf4). rewrite E4, bind_ret.
        destruct (place_ok t m e B vbf cbf key val p R Fr Hk Hv Hp Ex Hs y cc t4) as [E0 R']; try assumption.
        - congruence.
        - intros x Hx. assert (HPx : slot M e x < M) by apply (slot_lt M HM).
          assert (HyM : y < M) by lia. fold q. destruct (N.eqb_spec x y) as [->|Hne].
          + rewrite (Hf4 _ HPy), N.eqb_refl, (Hf3 _ HPy), N.eqb_refl, (Hf2 _ HPy), N.eqb_refl, (Hf1 y HyM). reflexivity.
          + assert (En : (slot M e x =? slot M e y) = false).
            { apply N.eqb_neq. intros E. apply Hne. apply (slot_inj M HM e); assumption. }
            rewrite (Hf4 _ HPx), En, (Hf3 _ HPx), En, (Hf2 _ HPx), En, (Hf1 x Hx). reflexivity.
        - exists (ch_with_size t4 (add64 (ch_size t4) 1)). rewrite bool_decide_true by exact E0. split; [reflexivity|exact R']. }
      assert (Hnov : vbf p = false -> forall x b, x < M -> B x = Some b -> e_h b = p -> e_q b <> q).
      { intros Ev x b Hx Hb Eh. exfalso. enough (vbf p = true) by congruence. apply (li_vb _ _ _ _ L p Hp). eauto. }
      (* position of a found group *)
      assert (Hgrp : forall x a g, 1 <= x <= p -> B x = Some a -> cbf x = true -> e_h a <= p ->
          (forall y, e_h a < y <= p -> vbf y = false) -> grp B cbf x g a ->
          g - 1 <= p /\ (forall z b, 1 <= z <= g - 1 -> B z = Some b -> e_h b <= p) /\ (forall z b, g - 1 < z <= p -> B z = Some b -> p < e_h b)).
      { intros x a g Hx Ha Hcx Hh Hgap (Hxg & HgM & Hcg & Hcf & Hall).
        destruct (Hall (g - 1)) as (a1 & Ha1 & Eh1); [lia|].
        pose proof (li_rng _ _ _ _ L (g - 1) a1 ltac:(lia) Ha1) as Hr1. split; [lia|]. split.
        - intros z b Hz Hb. assert (e_h b <= e_h a1); [|lia]. apply (lin_mono_run M B vbf cbf HM L z b (g - 1) a1); try assumption; try lia.
          intros w Hw'. apply Hocc. lia.
        - intros z b Hz Hb. destruct (B g) as [a2|] eqn:Ea2; [|exfalso; apply (Hocc g); [lia|exact Ea2]].
          assert (Eg : g - 1 + 1 = g) by lia.
          assert (e_h a2 <= e_h b). { apply (lin_mono_run M B vbf cbf HM L g a2 z b); try assumption; try lia. intros w Hw'. apply Hocc. lia. }
          assert (e_h a1 <= e_h a2). { apply (lin_mono M B vbf cbf HM L (g - 1)); [lia|exact Ha1|rewrite Eg; exact Ea2]. }
          assert (e_h a1 <> e_h a2).
          { intros E. pose proof (li_cb _ _ _ _ L (g - 1) ltac:(lia)) as Hcb. rewrite Eg, Hcg in Hcb. unfold same in Hcb.
            rewrite Eg, Ha1, Ea2, E, N.eqb_refl in Hcb. discriminate. }
          destruct (N.le_gt_cases (e_h a2) p) as [Hle|]; [|lia]. exfalso.
          pose proof (li_rng _ _ _ _ L g a2 ltac:(lia) Ea2) as Hr2.
          assert (vbf (e_h a2) = true) by (apply (li_vb _ _ _ _ L); [lia|]; exists g, a2; auto with lia).
          rewrite Hgap in H3 by lia. discriminate. }
      destruct (vbf p) eqn:Evb; cbn [negb].
      - (* the group exists *)
        destruct Hr as [[_ Ez]|(x & a & -> & Hx & Ha & Hcx & Hh & Hvh & Hgap)].
        { exfalso. pose proof (cV_strict M vbf HM 0 p ltac:(lia) Evb). lia. }
        assert (Ehp : e_h a = p).
        { destruct (N.eq_dec (e_h a) p) as [|Hne]; [assumption|]. rewrite Hgap in Evb by lia. discriminate. }
        assert (HxM : x < M) by lia.
        destruct (group_end e t B vbf cbf F x a HxM Ha) as (g & G). pose proof G as (Hxg & HgM & Hcg & Hcf & Hall).
        destruct (find_item_ok e t B vbf cbf F x g a q HxM G) as [(p' & b & Hp' & Hb & Eq & ->)|(Hno & ->)]; rewrite bind_ret.
        + assert (Hp'M : p' < M) by lia.
          assert (HPp' : slot M e p' < M) by apply (slot_lt M HM).
          destruct (set_val_ok t S (slot M e p') val HPp' ltac:(lia)) as (t' & E & U). rewrite E, bind_ret.
          destruct (Hall p' Hp') as (b' & Hb' & Eh').
          destruct (put_val t m e B vbf cbf key val p R Fr Hk Hv Hp Ex Hs p' b t') as ((v0 & Ev0) & R'); try assumption; try congruence.
          exists t'. rewrite bool_decide_false by congruence. split; [reflexivity|exact R'].
        + destruct (Hgrp x a g Hx Ha Hcx Hh Hgap G) as (Hy & Hlo & Hhi).
          rewrite (P_left e t B vbf cbf F g) by lia.
          destruct (shift_ok e t (g - 1) S He ltac:(lia)) as (t1 & E1 & S1 & Hs1 & Hf1). rewrite E1, bind_ret. cbv iota beta.
          destruct (set_cbit_ok t1 S1 (slot M e (g - 1)) false ltac:(apply (slot_lt M HM))) as (t2 & E2 & U2). rewrite E2, bind_ret.
          apply (Htail (g - 1) false t1 t2); try assumption; try reflexivity.
          * intros z b Hz Hb Eh. apply (Hno z b); [|exact Hb].
            apply (group_all M B vbf cbf HM L H0 x g a z b); try assumption. congruence.
          * intros z Hz. rewrite Hf1 by exact Hz. rewrite (fields_eta (moved e t (g - 1) z)) at 1. cbv zeta. f_equal.
            rewrite moved_b, (fr_b _ _ _ _ _ F) by exact Hz. unfold ins_vb. destruct (N.eqb_spec z p) as [->|]; congruence.
      - (* a new group *)
        assert (Hstep : exists y t1, bind (if negb (r =? UINT64_MAX) then bind (ch_next_cbit t r) (fun slot_id => ch_shift t e (ch_left t slot_id)) else Ret (e, t))
            (fun x => Ret x) = Ret (slot M e y, t1) /\ y <= p /\ (forall z b, 1 <= z <= y -> B z = Some b -> e_h b <= p) /\ (forall z b, y < z <= p -> B z = Some b -> p < e_h b) /\
            ch_shape u c t1 /\ ch_size t1 = ch_size t /\ forall z, z < M -> fld t1 (slot M e z) = moved e t y z).
        { destruct Hr as [[-> Ez]|(x & a & -> & Hx & Ha & Hcx & Hh & Hvh & Hgap)].
          - rewrite N.eqb_refl. cbn [negb]. exists 0, t. rewrite (slot_0 M e He). split; [reflexivity|]. split; [lia|].
            split; [intros; lia|]. split.
            { intros z b Hz Hb. destruct (N.le_gt_cases (e_h b) p); [|assumption]. exfalso.
              assert (vbf (e_h b) = true).
              { apply (li_vb _ _ _ _ L); [lia|]. exists z, b. auto with lia. }
              pose proof (li_rng _ _ _ _ L z b ltac:(lia) Hb).
              pose proof (cV_strict M vbf HM 0 (e_h b) ltac:(lia) H1). pose proof (cV_mono M vbf HM (e_h b) p H). lia. }
            split; [exact S|]. split; [reflexivity|]. intros z Hz. unfold moved. rewrite (proj2 (N.ltb_ge z 0)) by lia. reflexivity.
          - rewrite (proj2 (N.eqb_neq _ _) (P_max e x)). cbn [negb]. assert (HxM : x < M) by lia.
            destruct (group_end e t B vbf cbf F x a HxM Ha) as (g & G). pose proof G as (Hxg & HgM & _).
            rewrite (next_cbit_ok e t B vbf cbf F x g a HxM G), bind_ret.
            rewrite (P_left e t B vbf cbf F g) by lia.
            destruct (shift_ok e t (g - 1) S He ltac:(lia)) as (t1 & E1 & S1 & Hs1 & Hf1).
            destruct (Hgrp x a g Hx Ha Hcx Hh Hgap G) as (Hy & Hlo & Hhi).
            exists (g - 1), t1. rewrite E1. auto 10. }
        destruct Hstep as (y & t1 & E1 & Hy & Hlo & Hhi & S1 & Hs1 & Hf1).
        apply bind_ret_inv in E1 as (rr & E1 & [= ->]). rewrite E1, bind_ret. cbv iota beta.
        destruct (set_vbit_ok t1 S1 (slot M e p) true HPp) as (t2 & E2 & S2 & Hs2 & Hf2). rewrite E2, bind_ret.
        destruct (set_cbit_ok t2 S2 (slot M e y) true ltac:(apply (slot_lt M HM))) as (t3 & E3 & U3). rewrite E3, bind_ret.
        apply (Htail y true t2 t3); try assumption; try reflexivity.
        + apply Hnov. reflexivity.
        + congruence.
        + intros z Hz. rewrite Hf2 by apply (slot_lt M HM). cbv zeta. destruct (N.eqb_spec (slot M e z) (slot M e p)) as [E|Hne].
          * apply (slot_inj M HM e) in E; [|assumption..]. subst z. rewrite (Hf1 p Hp). unfold ins_vb. rewrite N.eqb_refl. reflexivity.
          * rewrite (Hf1 z Hz). rewrite (fields_eta (moved e t y z)) at 1. f_equal. rewrite moved_b, (fr_b _ _ _ _ _ F) by exact Hz.
            unfold ins_vb. rewrite (proj2 (N.eqb_neq z p)) by congruence. reflexivity.
    Qed.

    (** ** clone *)
    Lemma P_inj1 e p p' : e < M -> 1 <= p <= M -> 1 <= p' <= M -> slot M e p = slot M e p' -> p = p'.
    Proof.
      intros He Hp Hp' E. pose proof chM_pos as HM. destruct (N.eq_dec p M) as [->|Hn], (N.eq_dec p' M) as [->|Hn'].
      - reflexivity.
      - rewrite slot_M in E by exact He. symmetry. apply (slot_end e); auto.
      - rewrite slot_M in E by exact He. apply (slot_end e); auto.
      - apply (slot_inj M HM e) in E; [exact E|lia..].
    Qed.

    Section clone.
      Context {A : Type} (mapper : A -> N -> N -> outcome A) (RR : A -> gmap N N -> Prop).
      Context (t : cht) (m : gmap N N).
      Hypothesis R : ch_rep t m.
      Hypothesis Hsz : ch_size t < M.
      Hypothesis Hne : m <> ∅.
      Hypothesis Hmap : forall n m' k v, RR n m' -> m' ⊆ m -> m !! k = Some v ->
        exists n', mapper n k v = Ret n' /\ RR n' (<[k := v]> m').

      Section from.
        Context (e : N) (B : N -> option el) (vbf cbf : N -> bool).
        Hypothesis Fr : frame t m e B vbf cbf.
        Let F := proj1 Fr.
        Let L := fr_lin _ _ _ _ _ F.
        Let H0 := proj1 (proj2 Fr).
        Let Hm := proj2 (proj2 Fr).
        Let He := fr_e _ _ _ _ _ F.
        Let S := fr_shape _ _ _ _ _ F.
        Notation P := (slot M e).

        (** Elements before position [g] are copied. *)
        Definition copied (g : N) (m' : gmap N N) : Prop :=
          forall p a k, p < g -> p < M -> B p = Some a -> k < 2 ^ u -> hfun u k = kcode e a -> is_Some (m' !! k).
        Definition phase (completed : bool) (g : N) (m' : gmap N N) : Prop :=
          m' ⊆ m /\ if completed then m' = m else copied g m' /\ g < M.
        Lemma copied_all m' : m' ⊆ m -> copied M m' -> m' = m.
        Proof.
          intros Hs Hcp. apply map_eq. intros k. destruct (m !! k) as [v|] eqn:E.
          - pose proof E as E'. apply Hm in E' as (Hk & p & a & Hp & Ha & Ek & _).
            destruct (Hcp p a k Hp Hp Ha Hk Ek) as [w Ew]. rewrite Ew. rewrite <- E. symmetry. apply (lookup_weaken _ _ _ _ Ew Hs).
          - destruct (m' !! k) as [w|] eqn:E'; [|reflexivity]. apply (lookup_weaken _ _ _ _ E') in Hs. congruence.
        Qed.
        Definition closed (g : N) : Prop := forall q b, q < g -> q < M -> B q = Some b -> e_h b < g.
        Lemma some_occ : exists f a, f < M /\ B f = Some a.
        Proof.
          destruct (map_choose m Hne) as (k & v & E). apply Hm in E as (_ & p & a & Hp & Ha & _). eauto.
        Qed.
        Lemma el_key p a : p < M -> B p = Some a ->
          m !! hinv u (kcode e a) = Some (e_v a) /\
          hasher_hash_inv (ch_hasher t) (N.lor (shl (e_q a) (p2_bits (ch_capa t))) (P (e_h a))) = Ret (hinv u (kcode e a)).
        Proof.
          intros Hp Ha. pose proof (slot_lt M chM_pos e (e_h a)) as Hlt. pose proof (q_lt e t B vbf cbf F p a Hp Ha) as Hq.
          assert (Hk : kcode e a < 2 ^ u).
          { unfold kcode. replace u with ((u - c) + c) by lia. rewrite N.pow_add_r. fold M. nia. }
          split.
          - apply Hm. split; [apply hinv_lt|]. exists p, a. split; [exact Hp|]. split; [exact Ha|]. split; [|reflexivity].
            apply hfun_hinv; [lia|exact Hk].
          - rewrite (cs_hash _ _ _ S), (cs_capa _ _ _ S). cbn [p2_bits].
            assert (2 ^ u < 2 ^ 64) by (apply pow2_lt; lia).
            rewrite shl_mul by (fold M; unfold kcode in Hk; lia).
            rewrite lor_add_disjoint by exact Hlt. apply hash_inv_ok; [lia|exact Hk].
        Qed.

        Lemma skip_ok g completed : g < M -> closed g -> cbf g = true -> completed = false ->
          forall m', phase completed g m' ->
          wp (loop (fun st : N * bool =>
            let '(i, completed) := st in
            let* e0 := ch_is_vacant vb t i in
            if e0 then
              let i := ch_right t i in
              Ret (inl (i, if i =? e then true else completed))
            else Ret (inr (i, completed))) (P g, completed))
          (fun st => exists g', fst st = P g' /\ g' < M /\ (exists a, B g' = Some a) /\ closed g' /\ cbf g' = true /\ phase (snd st) g' m' /\ (snd st = false -> g <= g')).
        Proof.
          intros Hg Hcl Hcb -> m' Hph. pose proof chM_pos as HM. pose proof M64. pose proof chM_le.
          destruct some_occ as (f & af & Hf & Haf).
          apply (wp_loop _ (fun st : N * bool => exists y, fst st = P y /\ y < M /\ closed y /\ cbf y = true /\
             phase (snd st) y m' /\ (snd st = true -> y <= f) /\ (snd st = false -> g <= y))
             (fun st => if snd st then M - dist M e (fst st) else 2 * M - dist M e (fst st))).
          - exists g. simpl. repeat (split; [first [reflexivity|assumption]|]). split; [discriminate|lia].
          - simpl. assert (2 * 2 ^ 57 < 2 ^ 64) by reflexivity. lia.
          - intros [i completed] (y & Ei & Hy & Hcy & Hby & Hpy & Hfy & Hgy). simpl in Ei, Hpy, Hfy, Hgy. subst i.
            rewrite (g_vac e t B vbf cbf F y Hy), bind_ret. destruct (B y) as [a|] eqn:Ey; cbn [vac].
            + apply wp_ret. exists y. simpl. split; [reflexivity|]. split; [exact Hy|]. split; [eauto|]. auto.
            + apply wp_ret. cbv zeta. rewrite (P_right e t B vbf cbf F).
              assert (Hcl1 : closed (y + 1)).
              { intros q b Hq HqM Hb. destruct (N.eq_dec q y) as [->|]; [congruence|]. specialize (Hcy q b ltac:(lia) HqM Hb). lia. }
              assert (Hcb1 : y + 1 < M -> cbf (y + 1) = true).
              { intros Hlt. rewrite (li_cb _ _ _ _ L) by exact Hlt. unfold same. rewrite Ey. reflexivity. }
              destruct (N.eqb_spec (P (y + 1)) e) as [E|Hn].
              * assert (EM : y + 1 = M) by (apply (slot_end e); [exact He|lia|exact E]).
                assert (Em : m' = m).
                { destruct Hpy as [Hs Hc']. destruct completed; [exact Hc'|]. destruct Hc' as [Hc' _]. apply copied_all; [exact Hs|].
                  intros p a k Hp HpM Ha. destruct (N.eq_dec p y) as [->|]; [congruence|]. refine (Hc' p a k _ HpM Ha); lia. }
                split.
                -- exists 0. simpl. split; [rewrite E; symmetry; apply slot_0, He|]. split; [exact HM|]. split; [intros q b Hq; lia|].
                   split; [apply (li_cb0 _ _ _ _ L)|]. split; [split; [apply Hpy|exact Em]|]. split; [lia|discriminate].
                -- cbn [fst snd]. rewrite E. rewrite (dist_slot M HM e y He Hy).
                   assert (E0 : dist M e e = 0). { pose proof (dist_slot M HM e 0 He HM) as E0. rewrite (slot_0 M e He) in E0. exact E0. }
                   rewrite E0. destruct completed; [|lia]. exfalso. specialize (Hfy eq_refl).
                   destruct (N.eq_dec f y) as [->|]; [congruence|lia].
              * assert (HlM : y + 1 < M).
                { destruct (N.eq_dec (y + 1) M) as [E|]; [|lia]. exfalso. apply Hn. rewrite E. apply slot_M, He. }
                split.
                -- exists (y + 1). simpl. split; [reflexivity|]. split; [exact HlM|]. split; [exact Hcl1|]. split; [auto|]. split.
                   ++ destruct Hpy as [Hs Hc']. split; [exact Hs|]. destruct completed; [exact Hc'|]. destruct Hc' as [Hc' _]. split; [|exact HlM].
                      intros p a k Hp HpM Ha. destruct (N.eq_dec p y) as [->|]; [congruence|]. refine (Hc' p a k _ HpM Ha); lia.
                   ++ split; [|intros Et; specialize (Hgy Et); lia]. intros Et. specialize (Hfy Et). destruct (N.eq_dec f y) as [->|]; [congruence|lia].
                -- cbn [fst snd]. rewrite !(dist_slot M HM) by assumption. destruct completed; lia.
        Qed.

        Lemma elems_ok g g2 a completed n m' : g < M -> B g = Some a -> grp B cbf g g2 a -> RR n m' -> phase completed g m' ->
          wp (loop (fun st : N * bool * A =>
            let '(i, completed, new_cht) := st in
            let* e0 := ch_is_vacant vb t i in
            let* _ := assert_ (negb e0) in
            let* quo := ch_get_quo t i in
            let* key := hasher_hash_inv (ch_hasher t) (N.lor (shl quo (p2_bits (ch_capa t))) (P (e_h a))) in
            let* val := ch_get_val vb t i in
            let* new_cht := mapper new_cht key val in
            let i := ch_right t i in
            let completed := if i =? e then true else completed in
            let* c := ch_get_cbit t i in
            if c then Ret (inr (i, completed, new_cht)) else Ret (inl (i, completed, new_cht)))
            (P g, completed, n))
          (fun st => let '(i, cp, n) := st in i = P g2 /\ (completed = true -> cp = true) /\ exists m', RR n m' /\ phase cp g2 m').
        Proof.
          intros Hg Ha (Hxg & HgM & Hcg & Hcf & Hall) HR Hph. pose proof chM_pos as HM. pose proof M64.
          apply (wp_loop _ (fun st : N * bool * A => let '(i, cp, n) := st in (completed = true -> cp = true) /\ exists p m', i = P p /\ g <= p < g2 /\ RR n m' /\ phase cp p m')
            (fun st => let '(i, _, _) := st in M - dist M e i)).
          - split; [auto|]. exists g, m'. split; [reflexivity|]. split; [lia|]. auto.
          - lia.
          - intros [[i cp] n1] (Hmon & p & m1 & -> & Hp & HR1 & Hp1). destruct (Hall p Hp) as (a' & Ha' & Eh).
            assert (HpM : p < M) by lia. rewrite (g_vac e t B vbf cbf F p HpM), bind_ret, Ha'. cbn [vac negb].
            rewrite assert_true, bind_ret by reflexivity. rewrite (g_quo e t B vbf cbf F p a' HpM Ha'), bind_ret.
            destruct (el_key p a' HpM Ha') as [Ek Eh']. rewrite Eh in Eh'. rewrite Eh', bind_ret.
            rewrite (g_val e t B vbf cbf F p a' HpM Ha'), bind_ret.
            destruct (Hmap n1 m1 _ _ HR1 (proj1 Hp1) Ek) as (n2 & En2 & HR2). rewrite En2, bind_ret. cbv zeta.
            rewrite (P_right e t B vbf cbf F). rewrite (g_cb e t B vbf cbf F (p + 1)) by lia. rewrite bind_ret.
            assert (Hs2 : <[hinv u (kcode e a') := e_v a']> m1 ⊆ m) by (apply insert_subseteq_l; [exact Ek|apply Hp1]).
            assert (Hcp2 : cp = false -> copied (p + 1) (<[hinv u (kcode e a') := e_v a']> m1)).
            { intros ->. destruct Hp1 as [_ [Hc' _]]. intros q b k Hq HqM Hb Hk E. destruct (N.eq_dec q p) as [->|Hnq].
              - rewrite Ha' in Hb. injection Hb as <-. exists (e_v a').
                assert (Ekk : k = hinv u (kcode e a')) by (rewrite <- E; symmetry; apply hinv_hfun; [lia|exact Hk]).
                rewrite Ekk. apply lookup_insert.
              - rewrite lookup_insert_is_Some. destruct (N.eq_dec (hinv u (kcode e a')) k); [left; assumption|right; split; [assumption|]].
                apply (Hc' q b k); try assumption. lia. }
            set (cp' := if P (p + 1) =? e then true else cp).
            assert (Hph2 : phase cp' (p + 1) (<[hinv u (kcode e a') := e_v a']> m1)).
            { split; [exact Hs2|]. unfold cp'. destruct (N.eqb_spec (P (p + 1)) e) as [E|Hn].
              - apply (slot_end e) in E; [|exact He|lia]. destruct cp.
                + destruct Hp1 as [_ ->]. apply insert_id, Ek.
                + apply copied_all; [exact Hs2|]. rewrite <- E. auto.
              - destruct cp.
                + destruct Hp1 as [_ ->]. apply insert_id, Ek.
                + split; [auto|]. destruct (N.eq_dec (p + 1) M) as [E|]; [|lia]. exfalso. apply Hn. rewrite E. apply slot_M, He. }
            assert (Hmon2 : completed = true -> cp' = true) by (unfold cp'; destruct (_ =? _); auto).
            destruct (cbf (p + 1)) eqn:Ec; apply wp_ret.
            + assert (Eg : p + 1 = g2).
              { destruct (N.eq_dec (p + 1) g2); [assumption|]. rewrite Hcf in Ec by lia. discriminate. }
              rewrite Eg in *. eauto.
            + assert (Hlt : p + 1 < g2).
              { destruct (N.eq_dec (p + 1) g2) as [E|]; [|lia]. rewrite E in Ec. congruence. }
              split; [split; [exact Hmon2|]; eexists (p + 1), _; split; [reflexivity|]; split; [clear -Hlt Hp; lia|]; eauto|]. rewrite !(dist_slot M HM) by (assumption || lia). lia.
        Qed.

        Definition below (g : N) (a : el) : Prop := forall q b, q < g -> q < M -> B q = Some b -> e_h b < e_h a.
        Lemma groups_ok g a completed n m' : g < M -> B g = Some a -> cbf g = true -> closed g -> RR n m' -> phase completed g m' ->
          wp (loop (fun st : N * N * bool * A =>
          let '(i, init_id, completed, new_cht) := st in
          let* init_id := loop (fun init_id =>
            let* v := ch_get_vbit t init_id in
            if negb v then Ret (inl (ch_right t init_id)) else Ret (inr init_id)) init_id in
          let* r := loop (fun st : N * bool * A =>
            let '(i, completed, new_cht) := st in
            let* e0 := ch_is_vacant vb t i in
            let* _ := assert_ (negb e0) in
            let* quo := ch_get_quo t i in
            let* key := hasher_hash_inv (ch_hasher t) (N.lor (shl quo (p2_bits (ch_capa t))) init_id) in
            let* val := ch_get_val vb t i in
            let* new_cht := mapper new_cht key val in
            let i := ch_right t i in
            let completed := if i =? e then true else completed in
            let* c := ch_get_cbit t i in
            if c then Ret (inr (i, completed, new_cht)) else Ret (inl (i, completed, new_cht)))
            (i, completed, new_cht) in
          let '(i, completed, new_cht) := r in
          let init_id := ch_right t init_id in
          if negb (i =? init_id) then Ret (inl (i, init_id, completed, new_cht))
          else Ret (inr (i, completed, new_cht))) (P g, P g, completed, n))
          (fun st => let '(i, cp, n) := st in (completed = true -> cp = true) /\ exists g' m', i = P g' /\ g < g' <= M /\ closed g' /\ cbf g' = true /\ RR n m' /\ phase cp g' m').
        Proof.
          intros Hg Ha Hcg Hcl HR Hph. pose proof chM_pos as HM. pose proof M64.
          apply (wp_loop _ (fun st : N * N * bool * A => let '(i, init, cp, n) := st in (completed = true -> cp = true) /\
             exists y h0 b m', i = P y /\ init = P h0 /\ g <= y < M /\ B y = Some b /\ cbf y = true /\ y <= h0 <= e_h b /\
               (forall z, h0 <= z < e_h b -> vbf z = false) /\ below y b /\ RR n m' /\ phase cp y m')
             (fun st => let '(i, _, _, _) := st in M - dist M e i)).
          - split; [auto|]. exists g, g, a, m'. pose proof (li_rng _ _ _ _ L g a Hg Ha) as Hr. do 2 (split; [reflexivity|]). split; [lia|]. do 2 (split; [assumption|]).
            split; [lia|]. split.
            { intros z Hz. destruct (vbf z) eqn:E; [|reflexivity]. exfalso.
              apply (li_vb _ _ _ _ L) in E as (q & b & Hq & Hb & Eh); [|lia]. destruct (N.lt_ge_cases q g) as [Hlt|Hge].
              - specialize (Hcl q b Hlt Hq Hb). lia.
              - pose proof (li_rng _ _ _ _ L q b Hq Hb). destruct (lin_chain M B vbf cbf HM L g a q Hg Ha) as (b' & Hb' & Hle); [lia|].
                rewrite Hb in Hb'. injection Hb' as <-. lia. }
            split; [|auto]. intros q b Hq HqM Hb. specialize (Hcl q b Hq HqM Hb). lia.
          - lia.
          - intros [[[i init] cp] n1] (Hmon & y & h0 & b & m1 & -> & -> & Hy & Hb & Hcy & Hh0 & Hnov & Hbel & HR1 & Hp1).
            pose proof (li_rng _ _ _ _ L y b ltac:(lia) Hb) as Hr.
            assert (Hvh : vbf (e_h b) = true) by (apply (li_vb _ _ _ _ L); [lia|]; exists y, b; auto with lia).
            (* the home of the group *)
            match goal with |- wp (bind (loop ?f0 _) _) _ => set (f := f0) end.
            assert (El : loop f (P h0) = Ret (P (e_h b))).
            { set (st := fun d => P (h0 + d)). replace (P h0) with (st 0) by (unfold st; f_equal; lia).
              assert (Ee : f (st (e_h b - h0)) = Ret (inr (P (e_h b)))).
              { unfold st, f. replace (h0 + (e_h b - h0)) with (e_h b) by lia. rewrite (g_vb e t B vbf cbf F (e_h b)) by lia. rewrite bind_ret, Hvh. reflexivity. }
              rewrite (loop_at f st (e_h b - h0)).
              - rewrite Ee. reflexivity.
              - lia.
              - intros d Hd. unfold st, f. rewrite (g_vb e t B vbf cbf F (h0 + d)) by lia. rewrite bind_ret, Hnov by lia. cbn [negb].
                rewrite (P_right e t B vbf cbf F). do 3 f_equal. lia.
              - rewrite Ee. intros s. discriminate. }
            rewrite El, bind_ret. clear El f. apply wp_bind.
            destruct (group_end e t B vbf cbf F y b ltac:(lia) Hb) as (g2 & G).
            eapply wp_mono; [apply (elems_ok y g2 b cp n1 m1); try assumption; lia|].
            intros [[i2 cp2] n2] (-> & Hmon2 & m2 & HR2 & Hp2). cbv beta iota zeta. rewrite (P_right e t B vbf cbf F).
            destruct G as (Hxg & HgM & Hcg2 & Hcf & Hall).
            destruct (Hall (g2 - 1)) as (a1 & Ha1 & Eh1); [lia|].
            pose proof (li_rng _ _ _ _ L (g2 - 1) a1 ltac:(lia) Ha1) as Hr1.
            assert (Hbel2 : forall q d, q < g2 -> q < M -> B q = Some d -> e_h d <= e_h b).
            { intros q d Hq HqM Hd. destruct (N.lt_ge_cases q y) as [Hlt|Hge].
              - specialize (Hbel q d Hlt HqM Hd). lia.
              - destruct (Hall q) as (d' & Hd' & Ed); [lia|]. rewrite Hd in Hd'. injection Hd' as <-. lia. }
            destruct (N.eqb_spec (P g2) (P (e_h b + 1))) as [E|Hn]; cbn [negb]; apply wp_ret.
            + apply (P_inj1 e) in E; [|exact He|lia|lia]. split; [auto|]. exists g2, m2. split; [reflexivity|]. split; [lia|]. split.
              { intros q d Hq HqM Hd. specialize (Hbel2 q d Hq HqM Hd). lia. }
              auto.
            + assert (g2 <> e_h b + 1) by congruence. assert (Hg2 : g2 <= e_h b) by lia.
              assert (Eg : g2 - 1 + 1 = g2) by lia.
              destruct (lin_chain M B vbf cbf HM L (g2 - 1) a1 g2) as (a2 & Ha2 & Hle2); [lia|exact Ha1|lia|].
              assert (Hneq : e_h a1 <> e_h a2).
              { intros E. pose proof (li_cb _ _ _ _ L (g2 - 1) ltac:(lia)) as Hcb. rewrite Eg, Hcg2 in Hcb. unfold same in Hcb.
                rewrite Eg, Ha1, Ha2, E, N.eqb_refl in Hcb. discriminate. }
              split.
              * split; [auto|]. exists g2, (e_h b + 1), a2, m2. do 2 (split; [reflexivity|]). split; [lia|]. do 2 (split; [assumption|]).
                split; [lia|]. split.
                { intros z Hz. apply (lin_gap M B vbf cbf HM L (g2 - 1) a1 a2); [lia|exact Ha1|rewrite Eg; exact Ha2|lia]. }
                split; [|auto]. intros q d Hq HqM Hd. specialize (Hbel2 q d Hq HqM Hd). lia.
              * rewrite !(dist_slot M HM) by (assumption || lia). lia.
        Qed.
      End from.

      Lemma clone_with_ok n : RR n ∅ -> 2 <= M -> exists n', ch_clone_with vb mapper t n = Ret n' /\ RR n' m.
      Proof.
        intros HR HM2. apply wp_inv. unfold ch_clone_with. pose proof (rep_shape t m R) as S. pose proof chM_pos as HM. pose proof M64 as H64.
        destruct (rep_vacant t m R Hsz) as (i0 & Hi0 & Hv0).
        apply wp_bind. apply (wp_loop _ (fun i => i <= i0) (fun i => i0 - i)); [lia|lia|].
        intros i Hi. rewrite (is_vacant_ok t S) by lia. rewrite bind_ret.
        destruct (N.eqb_spec (f_v (fld t i)) (N.ones vb)) as [Hv|Hnv]; cbn [negb]; apply wp_ret.
        2:{ assert (i <> i0) by congruence. rewrite (right_mod t S) by lia. rewrite N.mod_small by lia. lia. }
        assert (HiM : i < M) by lia.
        destruct (turn_slot t m i R HiM Hv) as (B & vbf & cbf & Fr). pose proof Fr as (F & H0 & Hm).
        pose proof (fr_lin _ _ _ _ _ F) as L.
        apply wp_bind.
        apply (wp_loop _ (fun st : N * bool * A => let '(x, completed, n) := st in exists g m', x = slot M i g /\ 1 <= g <= M /\
           closed B g /\ cbf g = true /\ RR n m' /\ phase i B completed g m')
           (fun st => let '(x, completed, _) := st in if completed then 0 else M - dist M i x)).
        - exists 1, ∅. split. { rewrite <- (slot_0 M i HiM) at 1. rewrite (P_right i t B vbf cbf F). reflexivity. }
          split; [lia|]. split. { intros q b Hq _ Hb. replace q with 0 in Hb by lia. congruence. }
          split. { change 1 with (0 + 1). rewrite (li_cb _ _ _ _ L) by lia. unfold same. rewrite H0. reflexivity. }
          split; [exact HR|]. split; [apply map_empty_subseteq|]. split; [|lia].
          intros p a k Hp _ Ha. replace p with 0 in Ha by lia. congruence.
        - lia.
        - intros [[x completed] n1] (g & m1 & -> & Hg & Hcl & Hcg & HR1 & Hph). destruct completed.
          + apply wp_ret. destruct Hph as [_ ->]. apply wp_ret. exact HR1.
          + assert (HgM : g < M) by (destruct Hph as [_ [_ ?]]; assumption).
            apply wp_bind. eapply wp_mono; [apply (skip_ok i B vbf cbf Fr g false HgM Hcl Hcg eq_refl m1 Hph)|].
            intros [i1 cp1] (g1 & E1 & Hg1 & (a & Ha) & Hcl1 & Hcg1 & Hph1 & Hgg). cbn [fst snd] in E1, Hph1, Hgg. subst i1.
            rewrite (g_cb i t B vbf cbf F g1) by lia. rewrite bind_ret, Hcg1. rewrite assert_true, bind_ret by reflexivity.
            apply wp_bind. eapply wp_mono; [apply (groups_ok i B vbf cbf Fr g1 a cp1 n1 m1); assumption|].
            intros [[i2 cp2] n2] (Hmon & g2 & m2 & -> & Hg2 & Hcl2 & Hcg2 & HR2 & Hph2). apply wp_ret. split.
            * exists g2, m2. split; [reflexivity|]. split; [lia|]. auto.
            * rewrite (dist_slot M HM i g HiM HgM). destruct cp2; [lia|].
              destruct Hph2 as [_ [_ Hlt2]]. rewrite (dist_slot M HM i g2 HiM Hlt2).
              destruct cp1; [discriminate (Hmon eq_refl)|]. specialize (Hgg eq_refl). lia.
      Qed.
    End clone.
  End shape.
End cht.
End hash.
