(** compact_bonsai_trie represents a finite tree. *)
From Verif.Proofs Require Export DspP.
From Verif.Model Require Export CompactBonsaiTrie.
Local Open Scope N_scope.

Section hash.
Context {HT : trie_hashers} {HO : th_ok HT}.
Local Notation hfun := (@hfun th_trie).
Local Notation hinv := (@hinv th_trie).
Local Existing Instance th_map.

Section cbonsai.
  Context (P : dsp_params).
  Hypothesis HP : dp_ok P.
  Notation d1 := (dp_d1 P).

  Definition cb_cell (b sb : N) (mc ms : gmap N N) (tab : compact_vector) (i : N) : cell :=
    if i =? 0 then Skip
    else let e := dsp_of P mc ms (cv_val tab i) i in
         if e =? 0 then Vac else Full (skey b sb (cv_val tab i / 2 ^ d1) i (e - 1)).

  Record cb_shape (mf b sb : N) (t : cb_trie) (mc ms : gmap N N) : Prop := {
    xs_rep : dt_rep P b sb (cb_dt t) mc ms;
    xs_mf : 1 <= mf <= 99;
    xs_max : cb_max t = max_size_of (2 ^ b) mf;
    xs_0 : cv_val (dt_table (cb_dt t)) 0 = 0;
    xs_vac : forall i, i < 2 ^ b -> dsp_of P mc ms (cv_val (dt_table (cb_dt t)) i) i = 0 ->
       cv_val (dt_table (cb_dt t)) i = 0;
    xs_le : forall i, i < 2 ^ b -> dsp_of P mc ms (cv_val (dt_table (cb_dt t)) i) i <= 2 ^ b }.
  Record cb_repx (mf b sb : N) (t : cb_trie) (mc ms : gmap N N) (loc : gmap (list N) N) : Prop := {
    xr_shape : cb_shape mf b sb t mc ms;
    xr_trep : trep (2 ^ b) sb 0 (chome b sb) (cb_cell b sb mc ms (dt_table (cb_dt t))) (fun i => i) loc;
    xr_cnt : countb (fun i => negb (is_vac (cb_cell b sb mc ms (dt_table (cb_dt t)) i))) (2 ^ b) = cb_size t;
    xr_size : cb_size t = N.of_nat (size loc);
    xr_le : cb_size t <= cb_max t;
    xr_aux : N.of_nat (size mc) + N.of_nat (size ms) + 1 <= cb_size t }.
  Definition cb_rep (mf b sb : N) (t : cb_trie) (loc : gmap (list N) N) : Prop :=
    exists mc ms, cb_repx mf b sb t mc ms loc.
  Definition cb_fresh (mf b sb : N) (t : cb_trie) : Prop :=
    cb_shape mf b sb t ∅ ∅ /\ cb_size t = 0 /\ forall i, i < 2 ^ b -> cv_val (dt_table (cb_dt t)) i = 0.

  Lemma cb_new_ok mf cb sb ccb : 1 <= mf <= 99 -> N.max 16 cb <= 56 -> N.max 16 cb + sb < 64 ->
    N.max 12 ccb <= N.max 16 cb ->
    exists t, cb_new P mf cb sb ccb = Ret t /\ cb_fresh mf (N.max 16 cb) sb t.
  Proof.
    intros Hmf Hb Hsb Hccb. unfold cb_new.
    destruct (dt_new_ok P HP cb sb ccb Hb Hsb Hccb) as (d & E & Hr & Hv). rewrite E, bind_ret.
    eexists. split; [reflexivity|]. pose proof (ds_capa _ _ _ _ (dr_shape _ _ _ _ _ _ Hr)) as Hc.
    rewrite Hc, p2_size_ones by lia. pose proof (pow2_pos (N.max 16 cb)) as Hpos.
    split; [|split; [reflexivity|exact Hv]]. split; cbn [cb_dt cb_max]; auto.
    intros i Hi. rewrite Hv by exact Hi. rewrite (dsp_of_0 P HP). lia.
  Qed.
  Lemma cb_cell_empty b sb mc ms tab : (forall i, i < 2 ^ b -> cv_val tab i = 0) ->
    forall i, i < 2 ^ b -> cb_cell b sb mc ms tab i = if i =? 0 then Skip else Vac.
  Proof. intros H i Hi. unfold cb_cell. rewrite H, (dsp_of_0 P HP) by exact Hi. reflexivity. Qed.
  Lemma count_below_1 n : 1 <= n -> countb (fun i => i =? 0) n = 1.
  Proof.
    intros Hn. pattern n. revert n Hn. apply N.right_induction.
    - intros x y ->. reflexivity.
    - reflexivity.
    - intros n Hn IH. rewrite <- N.add_1_r, countb_succ, IH.
      rewrite (proj2 (N.eqb_neq n 0)) by lia. reflexivity.
  Qed.
  Lemma cb_add_root_ok mf b sb t : cb_fresh mf b sb t ->
    exists t', cb_add_root t = Ret t' /\ cb_repx mf b sb t' ∅ ∅ {[ [] := 0 ]}.
  Proof.
    intros (Hsh & Hz & Hv). unfold cb_add_root. rewrite Hz. rewrite assert_true by reflexivity.
    rewrite bind_ret. eexists. split; [reflexivity|].
    pose proof (ds_b _ _ _ _ (dr_shape _ _ _ _ _ _ (xs_rep _ _ _ _ _ _ Hsh))) as Hb.
    pose proof (pow2_pos b) as Hpos.
    split.
    - destruct Hsh. split; auto.
    - apply trep_root_only. intros i k Hi. cbn [cb_dt]. rewrite (cb_cell_empty b sb ∅ ∅ _ Hv) by exact Hi.
      destruct (i =? 0); discriminate.
    - cbn [cb_dt cb_size]. rewrite (countb_ext _ (fun i => i =? 0)).
      + apply count_below_1. lia.
      + intros i Hi. rewrite (cb_cell_empty b sb ∅ ∅ _ Hv) by exact Hi. destruct (i =? 0); reflexivity.
    - cbn [cb_size]. rewrite map_size_singleton. reflexivity.
    - cbn [cb_size cb_max]. rewrite (xs_max _ _ _ _ _ _ Hsh).
      destruct (ms_ok2_facts b mf ltac:(lia) (xs_mf _ _ _ _ _ _ Hsh)) as (_ & _ & H3). lia.
    - cbn [cb_size]. rewrite map_size_empty. lia.
  Qed.

  (** get_parent_and_symb on any table with the right shape *)
  Lemma cb_gp_raw b sb d mc ms i : dt_shape P b sb d -> aux_rep P b d mc ms -> i < 2 ^ b ->
    slot_ok P mc ms (cv_val (dt_table d) i) i -> dsp_of P mc ms (cv_val (dt_table d) i) i <= 2 ^ b ->
    cb_gp P d i = Ret (
      let e := dsp_of P mc ms (cv_val (dt_table d) i) i in
      if e =? 0 then (nil_id, 0)
      else let k := skey b sb (cv_val (dt_table d) i / 2 ^ d1) i (e - 1) in (k / 2 ^ sb, k mod 2 ^ sb)).
  Proof.
    intros Hs Ha Hi Hok Hle. pose proof (ds_b _ _ _ _ Hs) as Hb. pose proof (ds_sb _ _ _ _ Hs) as Hsb.
    pose proof (p57 b ltac:(lia)) as H57.
    unfold cb_gp. replace (p2_size (dt_capa d)) with (2 ^ b).
    2:{ rewrite (ds_capa _ _ _ _ Hs). symmetry. apply p2_size_ones. lia. }
    rewrite assert_true by (apply N.ltb_lt, Hi). rewrite bind_ret.
    rewrite (dt_compare_ok P HP b sb d mc ms i Hs Ha Hi Hok), bind_ret.
    cbv zeta. destruct (N.eqb_spec (dsp_of P mc ms (cv_val (dt_table d) i) i) 0) as [|Hne]; [reflexivity|].
    rewrite (dt_dsp_ok P HP b sb d mc ms i Hs Ha Hi Hok), bind_ret.
    set (e := dsp_of P mc ms (cv_val (dt_table d) i) i) in *.
    rewrite (SelectP.sub64_small e 1) by lia.
    rewrite (dt_quo_ok P b sb d i Hs Hi), bind_ret.
    rewrite (dt_key_ok P b sb d _ i (e - 1) Hs (dt_quo_lt P b sb d i Hs Hi) Hi) by lia. rewrite bind_ret.
    rewrite (ds_symb _ _ _ _ Hs). cbn [p2_bits p2_mask]. rewrite shr_div, land_ones_mod. reflexivity.
  Qed.

  Section cb.
    Context (mf b sb : N) (t : cb_trie) (mc ms : gmap N N) (loc : gmap (list N) N).
    Hypothesis H : cb_repx mf b sb t mc ms loc.
    Let Hsh : cb_shape mf b sb t mc ms := xr_shape _ _ _ _ _ _ _ H.
    Let Hdt : dt_rep P b sb (cb_dt t) mc ms := xs_rep _ _ _ _ _ _ Hsh.
    Let Hds : dt_shape P b sb (cb_dt t) := dr_shape _ _ _ _ _ _ Hdt.
    Let Hax : aux_rep P b (cb_dt t) mc ms := dr_aux _ _ _ _ _ _ Hdt.
    Notation d := (cb_dt t).
    Notation tab := (dt_table (cb_dt t)).
    Notation cl := (cb_cell b sb mc ms (dt_table (cb_dt t))).
    Notation M := (2 ^ b).

    Lemma cb_b : 16 <= b <= 56. Proof. apply Hds. Qed.
    Lemma cb_bsb : b + sb < 64. Proof. apply Hds. Qed.
    Lemma cb_M : 2 ^ 16 <= M.
    Proof. apply pow2_le. apply cb_b. Qed.
    Lemma cb_Mpos : 0 < M. Proof. apply pow2_pos. Qed.
    Lemma cb_M64 : M <= 2 ^ 64. Proof. apply pow2_le. pose proof cb_b. lia. Qed.
    Lemma cb_loc_bounds p v : loc !! p = Some v -> v < M.
    Proof.
      intros E. destruct p as [|s p].
      - rewrite (tr_root _ _ _ _ _ _ _ (xr_trep _ _ _ _ _ _ _ H)) in E. injection E as <-. apply cb_Mpos.
      - destruct (tr_cell _ _ _ _ _ _ _ (xr_trep _ _ _ _ _ _ _ H) _ _ _ E) as (_ & w & i & _ & Hi & Hc & <-).
        exact Hi.
    Qed.
    Lemma cb_max_lt : cb_max t + 600 < M.
    Proof.
      rewrite (xs_max _ _ _ _ _ _ Hsh). pose proof cb_b.
      destruct (ms_ok2_facts b mf ltac:(lia) (xs_mf _ _ _ _ _ _ Hsh)) as (_ & _ & H3). apply H3. lia.
    Qed.
    Lemma cb_vacancy : exists v, v < M /\ cl v = Vac.
    Proof.
      destruct (countb_lt_ex (fun i => negb (is_vac (cl i))) M) as (i & Hi & Hv).
      - rewrite (xr_cnt _ _ _ _ _ _ _ H). pose proof (xr_le _ _ _ _ _ _ _ H). pose proof cb_max_lt; lia.
      - exists i. split; [exact Hi|]. destruct (cl i); simpl in Hv; congruence.
    Qed.
    Lemma cb_size_pos : cb_size t <> 0.
    Proof.
      rewrite (xr_size _ _ _ _ _ _ _ H).
      assert (size loc <> 0%nat); [|lia]. intros E. apply map_size_empty_inv in E.
      pose proof (tr_root _ _ _ _ _ _ _ (xr_trep _ _ _ _ _ _ _ H)) as Hr. rewrite E, lookup_empty in Hr. discriminate.
    Qed.
    Lemma cb_root : cb_get_root t = Ret 0.
    Proof.
      unfold cb_get_root. rewrite assert_true; [reflexivity|]. apply negb_true_iff, N.eqb_neq, cb_size_pos.
    Qed.
    Lemma cb_size_nz : (cb_size t =? 0) = false.
    Proof. apply N.eqb_neq, cb_size_pos. Qed.
    Lemma cb_capa_size : p2_size (dt_capa d) = M.
    Proof. rewrite (ds_capa _ _ _ _ Hds). apply p2_size_ones. pose proof cb_b. lia. Qed.
    Lemma cb_symb_size : p2_size (dt_symb d) = 2 ^ sb.
    Proof. rewrite (ds_symb _ _ _ _ Hds). apply p2_size_ones. pose proof cb_bsb. lia. Qed.
    Lemma cb_mkey v s : v < M -> s < 2 ^ sb -> make_key (dt_symb d) v s = ekey sb v s.
    Proof. intros Hv Hs. rewrite (ds_symb _ _ _ _ Hds). apply (make_key_ok b); auto. apply cb_bsb. Qed.
    Lemma cb_right h e : right_of (dt_capa d) (slot M h e) = slot M h (e + 1).
    Proof. rewrite (ds_capa _ _ _ _ Hds). apply right_of_slot. pose proof cb_b. lia. Qed.

    (** The step function of both search loops, given what to do on a vacancy and on a hit. *)
    Lemma cb_step (R : Type) (onvac : N -> N -> outcome (N * N + R)) (onhit : N -> outcome (N * N + R)) k e :
      k < 2 ^ (b + sb) -> e < M ->
      (let i := slot M (chome b sb k) e in let cnt := e + 1 in
       let next := (right_of (dt_capa d) i, add64 cnt 1) in
       let* root := cb_get_root t in
       if i =? root then Ret (inl next)
       else let* e := dt_compare_dsp P d i 0 in
            if e then onvac i cnt
            else let* c := dt_compare_dsp P d i cnt in
                 if c then let* q := dt_get_quo P d i in if cquo b sb k =? q then onhit i else Ret (inl next)
                 else Ret (inl next)) =
      let i := slot M (chome b sb k) e in
      match cl i with
      | Vac => onvac i (e + 1)
      | Full k' => if k' =? k then onhit i else Ret (inl (slot M (chome b sb k) (e + 1), e + 1 + 1))
      | Skip => Ret (inl (slot M (chome b sb k) (e + 1), e + 1 + 1))
      end.
    Proof.
      intros Hk He. cbv zeta. set (i := slot M (chome b sb k) e).
      assert (Hi : i < M) by (apply slot_lt, cb_Mpos).
      pose proof cb_b as Hb. pose proof cb_bsb as Hsb. pose proof (p57 b ltac:(lia)) as H57.
      assert (Hn : add64 (e + 1) 1 = e + 1 + 1) by (unfold add64; apply w64_small; lia).
      assert (Hr : right_of (dt_capa d) i = slot M (chome b sb k) (e + 1)) by apply cb_right.
      rewrite cb_root, bind_ret, Hn, Hr. unfold cb_cell.
      destruct (N.eqb_spec i 0) as [|H0]; [reflexivity|].
      pose proof (dr_ok _ _ _ _ _ _ Hdt i Hi) as Hok. pose proof (xs_le _ _ _ _ _ _ Hsh i Hi) as Hle.
      rewrite !(dt_compare_ok P HP b sb d mc ms i Hds Hax Hi Hok), !bind_ret.
      rewrite (dt_quo_ok P b sb d i Hds Hi). rewrite bind_ret.
      pose proof (dt_quo_lt P b sb d i Hds Hi) as Hq.
      set (x := dsp_of P mc ms (cv_val tab i) i) in *. set (q := cv_val tab i / 2 ^ d1) in *.
      destruct (N.eqb_spec x 0) as [|Hx]; [reflexivity|].
      assert (Hkey : skey b sb q i (x - 1) = k <-> q = cquo b sb k /\ x - 1 = e).
      { apply skey_eq; try assumption; lia. }
      destruct (N.eqb_spec (skey b sb q i (x - 1)) k) as [Ek|Nk].
      - apply Hkey in Ek as [Eq Ex]. rewrite (proj2 (N.eqb_eq x (e + 1))) by lia.
        rewrite Eq, N.eqb_refl. reflexivity.
      - destruct (N.eqb_spec x (e + 1)) as [Ex|]; [|reflexivity].
        destruct (N.eqb_spec (cquo b sb k) q) as [Eq|]; [|reflexivity].
        exfalso. apply Nk, Hkey. split; [congruence|lia].
    Qed.

    Lemma cb_find_raw v s : v < M -> s < 2 ^ sb ->
      (exists i, i < M /\ cl i = Full (ekey sb v s) /\ cb_find_child P t v s = Ret i) \/
      ((forall j, j < M -> cl j <> Full (ekey sb v s)) /\ cb_find_child P t v s = Ret nil_id).
    Proof.
      intros Hv Hs. unfold cb_find_child. cbv zeta.
      rewrite cb_capa_size, cb_symb_size. rewrite !assert_true by (apply N.ltb_lt; assumption).
      rewrite !bind_ret, cb_size_nz, cb_mkey by assumption.
      set (k := ekey sb v s). assert (Hk : k < 2 ^ (b + sb)) by (apply ekey_lt; assumption).
      destruct (dt_decompose_ok P b sb d k Hds Hk) as [Eh Ed]. rewrite Eh, bind_ret, Ed.
      match goal with |- context [loop ?g _] => set (f := g) end.
      assert (Hstep : forall e, e < M -> f (slot M (chome b sb k) e, e + 1) =
        match cl (slot M (chome b sb k) e) with
        | Vac => Ret (inr nil_id)
        | Full k' => if k' =? k then Ret (inr (slot M (chome b sb k) e)) else Ret (inl (slot M (chome b sb k) (e + 1), e + 1 + 1))
        | Skip => Ret (inl (slot M (chome b sb k) (e + 1), e + 1 + 1)) end).
      { intros e He. exact (cb_step N (fun _ _ => Ret (inr nil_id)) (fun i => Ret (inr i)) k e Hk He). }
      destruct (probe_loop M (chome b sb) cb_Mpos (chome_lt b sb) f
        (fun e => (slot M (chome b sb k) e, e + 1)) cl k cb_M64
        (tr_pinv _ _ _ _ _ _ _ (xr_trep _ _ _ _ _ _ _ H)) cb_vacancy) as (e & He & Hpr & Hc & Hl).
      { intros e He H1 H2. rewrite Hstep by exact He. destruct (cl _) as [| |k']; [reflexivity|congruence|].
        destruct (N.eqb_spec k' k) as [->|]; [congruence|reflexivity]. }
      rewrite slot_0 in Hl by apply chome_lt. change (0 + 1) with 1 in Hl.
      assert (Hlt := slot_lt M cb_Mpos (chome b sb k) e).
      destruct Hc as [Hc|[Hc Hab]].
      - left. exists (slot M (chome b sb k) e). split; [exact Hlt|]. split; [exact Hc|].
        assert (Hf := Hstep e He). rewrite Hc, N.eqb_refl in Hf. rewrite Hl; rewrite Hf; [reflexivity|intros x; discriminate].
      - right. split; [exact Hab|].
        assert (Hf := Hstep e He). rewrite Hc in Hf. rewrite Hl; rewrite Hf; [reflexivity|intros x; discriminate].
    Qed.
    Lemma cb_find_ok p v s : loc !! p = Some v -> s < 2 ^ sb ->
      cb_find_child P t v s = Ret (default nil_id (loc !! (s :: p))).
    Proof.
      intros Hp Hs. destruct (cb_find_raw v s (cb_loc_bounds p v Hp) Hs) as [(i & Hi & Hc & ->)|[Hab ->]].
      - rewrite (trep_found _ _ _ _ _ _ _ (xr_trep _ _ _ _ _ _ _ H) p v s i Hp Hs Hi Hc). reflexivity.
      - rewrite (trep_absent _ _ _ _ _ _ _ (xr_trep _ _ _ _ _ _ _ H) p v s Hp Hs Hab). reflexivity.
    Qed.

    Lemma cb_add_okx p v s : loc !! p = Some v -> s < 2 ^ sb ->
      match loc !! (s :: p) with
      | Some x => cb_add_child P t v s = Ret (false, x, t)
      | None =>
          if cb_size t =? cb_max t then cb_add_child P t v s = Ret (false, v, t)
          else wpx (saturates P b (cb_size t)) (cb_add_child P t v s) (fun '(r, x, t') => r = true /\ cb_size t' = cb_size t + 1 /\
                 (forall q, loc !! q <> Some x) /\ exists mc' ms', cb_repx mf b sb t' mc' ms' (<[s :: p := x]> loc))
      end.
    Proof.
      intros Hp Hs. assert (Hv := cb_loc_bounds p v Hp). unfold cb_add_child. cbv zeta.
      rewrite cb_capa_size, cb_symb_size. rewrite !assert_true by (apply N.ltb_lt; assumption).
      rewrite !bind_ret, cb_mkey by assumption.
      set (k := ekey sb v s). assert (Hk : k < 2 ^ (b + sb)) by (apply ekey_lt; assumption).
      destruct (dt_decompose_ok P b sb d k Hds Hk) as [Eh Ed]. rewrite Eh, bind_ret, Ed.
      match goal with |- context [loop ?g _] => set (f := g) end.
      set (onvac := fun i cnt => if cb_size t =? cb_max t then Ret (inr (false, v, t))
            else let* d' := dt_update_slot P d i (cquo b sb k) cnt in
                 Ret (inr (true, i, mkCB d' (add64 (cb_size t) 1) (cb_max t))) : outcome ((N * N) + (bool * N * cb_trie))).
      assert (Hstep : forall e, e < M -> f (slot M (chome b sb k) e, e + 1) =
        match cl (slot M (chome b sb k) e) with
        | Vac => onvac (slot M (chome b sb k) e) (e + 1)
        | Full k' => if k' =? k then Ret (inr (false, slot M (chome b sb k) e, t))
                     else Ret (inl (slot M (chome b sb k) (e + 1), e + 1 + 1))
        | Skip => Ret (inl (slot M (chome b sb k) (e + 1), e + 1 + 1)) end).
      { intros e He. exact (cb_step _ onvac (fun i => Ret (inr (false, i, t))) k e Hk He). }
      destruct (probe_loop M (chome b sb) cb_Mpos (chome_lt b sb) f
        (fun e => (slot M (chome b sb k) e, e + 1)) cl k cb_M64
        (tr_pinv _ _ _ _ _ _ _ (xr_trep _ _ _ _ _ _ _ H)) cb_vacancy) as (e & He & Hpr & Hc & Hl).
      { intros e He H1 H2. rewrite Hstep by exact He. destruct (cl _) as [| |k']; [reflexivity|congruence|].
        destruct (N.eqb_spec k' k) as [->|]; [congruence|reflexivity]. }
      rewrite slot_0 in Hl by apply chome_lt. change (0 + 1) with 1 in Hl.
      assert (Hlt := slot_lt M cb_Mpos (chome b sb k) e).
      assert (Hf := Hstep e He). set (i := slot M (chome b sb k) e) in *.
      destruct Hc as [Hc|[Hc Hab]].
      - rewrite (trep_found _ _ _ _ _ _ _ (xr_trep _ _ _ _ _ _ _ H) p v s i Hp Hs Hlt Hc).
        rewrite Hc, N.eqb_refl in Hf. rewrite Hl; rewrite Hf; [reflexivity|intros x; discriminate].
      - rewrite (trep_absent _ _ _ _ _ _ _ (xr_trep _ _ _ _ _ _ _ H) p v s Hp Hs Hab).
        rewrite Hc in Hf. unfold onvac in Hf.
        destruct (N.eqb_spec (cb_size t) (cb_max t)) as [Heq|Hne].
        { rewrite Hl; rewrite Hf; [reflexivity|intros x; discriminate]. }
        pose proof cb_b as Hb. pose proof (p57 b ltac:(lia)) as H57.
        assert (Hi0 : i <> 0). { unfold cb_cell in Hc. destruct (N.eqb_spec i 0); [discriminate|assumption]. }
        assert (Hx : cv_val tab i = 0).
        { apply (xs_vac _ _ _ _ _ _ Hsh i Hlt). unfold cb_cell in Hc. destruct (i =? 0); [discriminate|].
          cbv zeta in Hc. destruct (N.eqb_spec (dsp_of P mc ms (cv_val tab i) i) 0); [assumption|discriminate]. }
        assert (Hwp : wpx (saturates P b (cb_size t)) (dt_update_slot P d i (cquo b sb k) (e + 1)) (fun d' => dt_shape P b sb d' /\ exists mc' ms' y,
          aux_rep P b d' mc' ms' /\ (size mc' + size ms' <= size mc + size ms + 1)%nat /\ y / 2 ^ d1 = cquo b sb k /\ dsp_of P mc' ms' y i = e + 1 /\ slot_ok P mc' ms' y i /\
          (forall j, j < 2 ^ b -> cv_val (dt_table d') j = if j =? i then y else cv_val (dt_table d) j) /\
          (forall j z, j <> i -> dsp_of P mc' ms' z j = dsp_of P mc ms z j /\ (slot_ok P mc ms z j -> slot_ok P mc' ms' z j)))).
        { apply (wpx_limit (max_size_of (2 ^ b) (dp_cmf P) <= N.of_nat (size mc))).
          { pose proof (xr_aux _ _ _ _ _ _ _ H) as Haux. unfold saturates. intros HL. clear -HL Haux. lia. }
          apply (dt_update_ok P HP b sb d mc ms i Hds Hax Hlt (dr_ok _ _ _ _ _ _ Hdt i Hlt) _ _ Hx (cquo_lt b sb k)).
          pose proof (pow2_le b 56 ltac:(lia)). change (2 ^ 57) with (2 ^ 56 * 2). assert (1 < 2 ^ 56) by reflexivity. lia. }
        assert (Hstop : stops (f (i, e + 1))).
        { rewrite Hf. destruct (dt_update_slot P d i (cquo b sb k) (e + 1)); cbn; intros x; discriminate. }
        rewrite (Hl Hstop), Hf. clear Hl Hf Hstop Hstep onvac.
        unfold wpx in Hwp |- *. destruct (dt_update_slot P d i (cquo b sb k) (e + 1)) as [d'| | | |]; cbn [bind finish]; auto.
        destruct Hwp as (Hsh' & mc' & ms' & y & Hax' & Hsmc & Hq & Hdsp & Hok & Hval & Hoth).
        assert (Hsz : add64 (cb_size t) 1 = cb_size t + 1).
        { unfold add64. apply w64_small. pose proof (xr_le _ _ _ _ _ _ _ H). pose proof cb_max_lt; lia. }
        assert (Hm : cb_size t < cb_max t) by (pose proof (xr_le _ _ _ _ _ _ _ H); lia).
        split; [reflexivity|]. split; [exact Hsz|].
        assert (Hcell : forall j, j < M -> cb_cell b sb mc' ms' (dt_table d') j = cell_upd cl i (Full k) j).
        { intros j Hj. unfold cb_cell, cell_upd. rewrite Hval by exact Hj.
          destruct (N.eqb_spec j i) as [->|Hji].
          - rewrite (proj2 (N.eqb_neq i 0)) by exact Hi0. rewrite Hdsp, Hq.
            rewrite (proj2 (N.eqb_neq (e + 1) 0)) by lia. f_equal.
            replace (e + 1 - 1) with e by lia. apply skey_eq; auto; [pose proof cb_bsb; lia|apply cquo_lt].
          - destruct (Hoth j (cv_val tab j) Hji) as [-> _]. reflexivity. }
        assert (Hfr : forall q, loc !! q <> Some i).
        { intros q Hqq. destruct q as [|s' q].
          - rewrite (tr_root _ _ _ _ _ _ _ (xr_trep _ _ _ _ _ _ _ H)) in Hqq. injection Hqq as Hqq. lia.
          - destruct (tr_cell _ _ _ _ _ _ _ (xr_trep _ _ _ _ _ _ _ H) _ _ _ Hqq) as (_ & w & j & _ & Hj & Hcj & Ej).
            subst j. congruence. }
        split; [exact Hfr|]. exists mc', ms'. split.
        + split; cbn [cb_dt cb_max]; try apply Hsh.
          * split; [exact Hsh'|exact Hax'|]. intros j Hj. rewrite Hval by exact Hj.
            destruct (N.eqb_spec j i) as [->|Hji]; [exact Hok|]. apply Hoth; [exact Hji|].
            apply (dr_ok _ _ _ _ _ _ Hdt j Hj).
          * rewrite Hval by apply cb_Mpos. rewrite (proj2 (N.eqb_neq 0 i)) by congruence. apply Hsh.
          * intros j Hj. rewrite !Hval by exact Hj. destruct (N.eqb_spec j i) as [->|Hji]; [rewrite Hdsp; lia|].
            destruct (Hoth j (cv_val tab j) Hji) as [-> _]. apply (xs_vac _ _ _ _ _ _ Hsh j Hj).
          * intros j Hj. rewrite !Hval by exact Hj. destruct (N.eqb_spec j i) as [->|Hji]; [rewrite Hdsp; lia|].
            destruct (Hoth j (cv_val tab j) Hji) as [-> _]. apply (xs_le _ _ _ _ _ _ Hsh j Hj).
        + cbn [cb_dt]. apply (trep_insert M sb 0 (chome b sb) cl (fun i => i) loc cb_Mpos (chome_lt b sb)
             (xr_trep _ _ _ _ _ _ _ H) p v s e i); auto.
          intros e' He'. apply (Hpr e' He').
        + cbn [cb_dt cb_size]. rewrite Hsz.
          rewrite (countb_upd (fun j => negb (is_vac (cl j))) _ _ i Hlt).
          * rewrite (xr_cnt _ _ _ _ _ _ _ H). reflexivity.
          * rewrite Hc. reflexivity.
          * rewrite Hcell by exact Hlt. unfold cell_upd. rewrite N.eqb_refl. reflexivity.
          * intros j Hj Hne'. rewrite Hcell by exact Hj. unfold cell_upd. rewrite (proj2 (N.eqb_neq _ _) Hne'). reflexivity.
        + cbn [cb_size]. rewrite Hsz, map_size_insert.
          rewrite (trep_absent _ _ _ _ _ _ _ (xr_trep _ _ _ _ _ _ _ H) p v s Hp Hs Hab).
          rewrite (xr_size _ _ _ _ _ _ _ H). simpl. lia.
        + cbn [cb_size cb_max]. lia.
        + cbn [cb_size]. rewrite Hsz. pose proof (xr_aux _ _ _ _ _ _ _ H) as Haux. clear -Haux Hsmc. lia.
    Qed.

    Lemma cb_gp_ok i : i < M ->
      cb_get_parent_and_symb P t i = Ret (match cl i with
        | Full k => (k / 2 ^ sb, k mod 2 ^ sb) | _ => (nil_id, 0) end).
    Proof.
      intros Hi. unfold cb_get_parent_and_symb.
      rewrite (cb_gp_raw b sb d mc ms i Hds Hax Hi (dr_ok _ _ _ _ _ _ Hdt i Hi) (xs_le _ _ _ _ _ _ Hsh i Hi)).
      f_equal. unfold cb_cell. destruct (N.eqb_spec i 0) as [->|Hne].
      - rewrite (xs_0 _ _ _ _ _ _ Hsh), (dsp_of_0 P HP). reflexivity.
      - cbv zeta. destruct (_ =? 0); reflexivity.
    Qed.
  End cb.

  (** ** Expansion *)
  Definition cnm_rep (b : N) (nm : cb_node_map) (f : N -> option N) : Prop :=
    cnm_size nm = 2 ^ b /\ forall i, i < 2 ^ b -> cnm_get nm i = Ret (default UINT64_MAX (f i)).

  (** The split storage of the renaming: low bits in the slots, high bits in a second vector. *)
  Section mapping.
    Context (M w n : N).
    Hypothesis HM : 0 < M.
    Hypothesis Hw : w < 64.
    Hypothesis Hn : n < 64.
    Definition high_ok (high : compact_vector) : Prop :=
      if w <? n then cv_wf high /\ cv_size high = M /\ cv_width high = n - w else cv_size high = 0.
    Notation low := (mkP2 w (N.ones w)).
    Lemma cb_map_set tb high i v : cv_wf tb -> cv_size tb = M -> cv_width tb = w -> high_ok high ->
      i < M -> v < 2 ^ n ->
      exists tb' high', cb_set_mapping low (tb, high) i v = Ret (tb', high') /\ cv_wf tb' /\ cv_size tb' = M /\
        cv_width tb' = w /\ high_ok high' /\
        (forall j, j < M -> j <> i -> cv_val tb' j = cv_val tb j) /\
        (forall j, j < M -> j <> i -> cb_get_mapping low (tb', high') j = cb_get_mapping low (tb, high) j) /\
        cb_get_mapping low (tb', high') i = Ret v.
    Proof.
      intros Hwf Hs Hwd Hh Hi Hv. unfold high_ok in *. unfold cb_set_mapping, cb_get_mapping.
      destruct (N.ltb_spec w n) as [Hlt|Hge].
      - destruct Hh as (Hhw & Hhs & Hhd). rewrite Hhs, (proj2 (N.eqb_neq M 0)) by lia. cbn [p2_mask p2_bits].
        rewrite land_ones_mod, shr_div.
        destruct (cv_set_ok tb i (v mod 2 ^ w) Hwf) as (tb' & E & Hwf' & Hs' & Hwd' & Hval).
        { rewrite Hs; exact Hi. } { rewrite Hwd. apply N.mod_lt, N.pow_nonzero. discriminate. }
        rewrite E, bind_ret.
        assert (Hvh : v / 2 ^ w < 2 ^ (n - w)).
        { apply N.div_lt_upper_bound; [apply N.pow_nonzero; discriminate|]. rewrite <- N.pow_add_r.
          replace (w + (n - w)) with n by lia. exact Hv. }
        destruct (cv_set_ok high i (v / 2 ^ w) Hhw) as (hi' & E' & Hhw' & Hhs' & Hhd' & Hhval).
        { rewrite Hhs; exact Hi. } { rewrite Hhd. exact Hvh. }
        rewrite E', bind_ret. exists tb', hi'. split; [reflexivity|].
        rewrite Hs in Hval. rewrite Hhs in Hhval.
        assert (Es : cv_size tb' = M) by congruence. assert (Ehs : cv_size hi' = M) by congruence.
        split; [exact Hwf'|]. split; [exact Es|]. split; [congruence|].
        split; [split; [exact Hhw'|split; [exact Ehs|congruence]]|].
        split; [intros j Hj Hne; rewrite Hval by exact Hj; rewrite (proj2 (N.eqb_neq j i)) by exact Hne; reflexivity|].
        rewrite Ehs, (proj2 (N.eqb_neq M 0)) by lia. split.
        + intros j Hj Hne. rewrite !cv_get_ok by (rewrite ?Es, ?Ehs, ?Hs, ?Hhs; assumption).
          rewrite !bind_ret, Hval, Hhval by exact Hj. rewrite (proj2 (N.eqb_neq j i)) by exact Hne. reflexivity.
        + rewrite !cv_get_ok by (rewrite ?Es, ?Ehs; assumption). rewrite !bind_ret, Hval, Hhval by exact Hi.
          rewrite N.eqb_refl. f_equal. rewrite N.lor_comm.
          assert (2 ^ n <= 2 ^ 64) by (apply pow2_le; lia). pose proof (N.div_mod v (2 ^ w) ltac:(apply N.pow_nonzero; discriminate)) as Hdm.
          pose proof (N.mod_lt v (2 ^ w) ltac:(apply N.pow_nonzero; discriminate)).
          rewrite N.mul_comm in Hdm. rewrite shl_mul by lia. rewrite lor_add_disjoint by assumption. symmetry. exact Hdm.
      - rewrite Hh, N.eqb_refl. cbn [p2_mask p2_bits].
        destruct (cv_set_ok tb i v Hwf) as (tb' & E & Hwf' & Hs' & Hwd' & Hval).
        { rewrite Hs; exact Hi. } { rewrite Hwd. apply (N.lt_le_trans _ (2 ^ n)); [exact Hv|]. apply pow2_le, Hge. }
        rewrite E, bind_ret. exists tb', high. rewrite Hs in Hval. assert (Es : cv_size tb' = M) by congruence.
        split; [reflexivity|]. split; [exact Hwf'|]. split; [exact Es|]. split; [congruence|]. split; [exact Hh|].
        split; [intros j Hj Hne; rewrite Hval by exact Hj; rewrite (proj2 (N.eqb_neq j i)) by exact Hne; reflexivity|].
        rewrite Hh, N.eqb_refl. split.
        + intros j Hj Hne. rewrite !cv_get_ok by (rewrite ?Es, ?Hs; assumption). rewrite Hval by exact Hj.
          rewrite (proj2 (N.eqb_neq j i)) by exact Hne. reflexivity.
        + rewrite cv_get_ok by (rewrite ?Es; assumption). rewrite Hval by exact Hi. rewrite N.eqb_refl. reflexivity.
    Qed.
  End mapping.

  Lemma cb_expand_ok mf b sb t loc : cb_rep mf b sb t loc -> b <= 55 -> b + 1 + sb < 64 ->
    wpx (saturates P (b + 1) (cb_size t)) (cb_expand P mf t) (fun '(nm, t') => exists loc', cb_rep mf (b + 1) sb t' loc' /\
      dom loc' = dom loc /\ cb_size t' < max_size_of (2 ^ (b + 1)) mf /\
      exists mp : gmap N N, cnm_rep b nm (fun i => mp !! i) /\
        (forall p v, loc !! p = Some v -> mp !! v = loc' !! p) /\
        (forall i y, mp !! i = Some y -> exists p, loc !! p = Some i)).
  Proof.
    intros (mc & ms & H) Hb Hsb1. pose proof (xr_shape _ _ _ _ _ _ _ H) as Hsh.
    pose proof (xs_rep _ _ _ _ _ _ Hsh) as Hdt. pose proof (dr_shape _ _ _ _ _ _ Hdt) as Hds. pose proof (dr_aux _ _ _ _ _ _ Hdt) as Hax.
    pose proof (ds_b _ _ _ _ Hds) as Hb16. pose proof (xs_mf _ _ _ _ _ _ Hsh) as Hmf.
    pose proof (do_d1 _ HP) as Hd1.
    unfold cb_expand. cbv zeta. rewrite (ds_capa _ _ _ _ Hds). replace (p2_bits (dt_symb (cb_dt t))) with sb by (rewrite (ds_symb _ _ _ _ Hds); reflexivity).
    cbn [p2_bits].
    destruct (cb_new_ok mf (b + 1) sb 0 Hmf) as (t0 & E0 & Hf0); [lia|lia|lia|].
    replace (N.max 16 (b + 1)) with (b + 1) in Hf0 by lia. rewrite E0, bind_ret.
    destruct (cb_add_root_ok mf (b + 1) sb t0 Hf0) as (t1 & E1 & H1). rewrite E1, bind_ret.
    rewrite p2_size_ones by lia.
    rewrite (cb_root mf b sb t mc ms loc H), bind_ret.
    assert (HMpos := pow2_pos b).
    destruct (bv_new_ok (2 ^ b)) as (Hdw & Hdsz & Hdb). { apply p57; lia. }
    destruct (bv_set_ok (bv_new (2 ^ b)) 0 true Hdw) as (done & Ed & Hdw' & Hds' & Hdb'); [rewrite Hdsz; lia|].
    rewrite Ed, bind_ret.
    pose proof (ds_width _ _ _ _ Hds) as Hwd. pose proof (ds_size _ _ _ _ Hds) as Hsz. pose proof (ds_wf _ _ _ _ Hds) as Hwf.
    rewrite Hwd. set (w := sb + d1). assert (Hw : w < 64) by (unfold w; lia). assert (Hw0 : 0 < w) by (unfold w; lia).
    rewrite p2_new_eq by exact Hw. rewrite bind_ret. cbn [p2_bits].
    pose proof (ds_capa _ _ _ _ (dr_shape _ _ _ _ _ _ (xs_rep _ _ _ _ _ _ (xr_shape _ _ _ _ _ _ _ H1)))) as Hc1.
    replace (p2_bits (dt_capa (cb_dt t1))) with (b + 1) by (rewrite Hc1; reflexivity).
    pose proof (xs_0 _ _ _ _ _ _ Hsh) as Hx0.
    set (d := cb_dt t) in *.
    assert (Hhigh : exists high, (if w <? b + 1 then cv_new (2 ^ b) (b + 1 - w) else Ret cv_default) = Ret high /\
       high_ok (2 ^ b) w (b + 1) high /\ (w <? b + 1 = true -> forall i, i < 2 ^ b -> cv_val high i = 0)).
    { unfold high_ok. destruct (N.ltb_spec w (b + 1)) as [Hlt|Hge].
      - assert (Hcb := capa_bound b (b + 1 - w) ltac:(lia) ltac:(lia)).
        pose proof (cv_new_eq (2 ^ b) (b + 1 - w) ltac:(lia) Hcb) as E. rewrite E. eexists. split; [reflexivity|].
        split; [apply (cv_new_wf (2 ^ b) (b + 1 - w) _ ltac:(lia) ltac:(lia) Hcb E)|]. intros _ i Hi.
        apply (cv_new_val (2 ^ b) (b + 1 - w)); try assumption; lia.
      - eexists. split; [reflexivity|]. split; [reflexivity|discriminate]. }
    destruct Hhigh as (high & Eh & Hh & Hh0). rewrite Eh, bind_ret. clear Eh.
    rewrite Hsz.
    set (MR := fun (s : compact_vector * compact_vector) (mp : gmap N N) =>
       cv_wf (fst s) /\ cv_size (fst s) = 2 ^ b /\ cv_width (fst s) = w /\ high_ok (2 ^ b) w (b + 1) (snd s) /\
       (forall i, i < 2 ^ b -> mp !! i = None -> cv_val (fst s) i = cv_val (dt_table d) i) /\
       (forall i v, i < 2 ^ b -> mp !! i = Some v -> cb_get_mapping (mkP2 w (N.ones w)) s i = Ret v)).
    set (NR := fun (t' : cb_trie) (loc' : gmap (list N) N) => cb_rep mf (b + 1) sb t' loc').
    assert (Hmax : max_size_of (2 ^ b) mf < max_size_of (2 ^ (b + 1)) mf) by (apply ms_ok2_facts; lia).
    assert (Hwt : forall tb, cv_wf tb -> cv_size tb = 2 ^ b -> cv_width tb = w ->
       dt_shape P b sb (dt_with_table d tb) /\ aux_rep P b (dt_with_table d tb) mc ms).
    { intros tb G1 G2 G3. split; [destruct Hds; split; cbn; auto|destruct Hax; split; cbn; auto]. }
    assert (Hmap0 : cb_get_mapping (mkP2 w (N.ones w)) (dt_table d, high) 0 = Ret 0).
    { unfold cb_get_mapping. unfold high_ok in Hh. destruct (w <? b + 1) eqn:El.
      - destruct Hh as (Hhw & Hhs & Hhd). rewrite Hhs, (proj2 (N.eqb_neq _ 0)) by lia.
        rewrite !cv_get_ok by (rewrite ?Hhs, ?Hsz; assumption). rewrite !bind_ret.
        rewrite (Hh0 eq_refl 0 HMpos), Hx0. unfold shl.  cbn [p2_bits]. rewrite N.shiftl_0_l. reflexivity.
      - rewrite Hh, N.eqb_refl. rewrite cv_get_ok by (rewrite ?Hsz; assumption). rewrite Hx0. reflexivity. }
    assert (Hrem : wpx (saturates P (b + 1) (cb_size t)) (bonsai_remap 1 (2 ^ b)
        (fun st i => dt_compare_dsp P (dt_with_table d (fst st)) i 0)
        (fun st i => cb_gp P (dt_with_table d (fst st)) i)
        (cb_get_mapping (mkP2 w (N.ones w))) (cb_set_mapping (mkP2 w (N.ones w))) (cb_add_child P) ((dt_table d, high), done, t1))
        (fun st => exists loc' mp, rinv (2 ^ b) loc MR NR st loc' mp /\ dom loc' = dom loc /\
           (forall p v, loc !! p = Some v -> mp !! v = loc' !! p))).
    { apply (remap_ok (saturates P (b + 1) (cb_size t)) (2 ^ b) (2 ^ (b + 1)) sb 0 1 (chome b sb) (cb_cell b sb mc ms (dt_table d)) loc) with
        (loc0 := {[ [] := 0 ]}) (mp0 := {[ 0 := 0 ]}).
      - apply pow2_pos.
      - apply p57. lia.
      - lia.
      - apply H.
      - intros p v Hp. apply (cb_loc_bounds mf b sb t mc ms loc H p v Hp).
      - rewrite <- (xr_size _ _ _ _ _ _ _ H). pose proof (xr_le _ _ _ _ _ _ _ H).
        pose proof (cb_max_lt mf b sb t mc ms loc H); lia.
      - intros i Hi HiM. unfold cb_cell. rewrite (proj2 (N.eqb_neq i 0)) by lia. cbv zeta. destruct (_ =? _); discriminate.
      - intros i k Hi Hc. unfold cb_cell in Hc. destruct (N.eqb_spec i 0); [discriminate|lia].
      - intros [tb hi] mp i (Hw' & Hs' & Hwd' & Hh' & Hv & Hm') Hm Hi HiM. cbn [fst snd] in *.
        destruct (Hwt tb Hw' Hs' Hwd') as [G1 G2].
        rewrite (dt_compare_ok P HP b sb (dt_with_table d tb) mc ms i G1 G2 HiM); cbn [dt_with_table dt_table].
        2:{ rewrite Hv by assumption. apply (dr_ok _ _ _ _ _ _ Hdt i HiM). }
        rewrite Hv by assumption. unfold cb_cell. rewrite (proj2 (N.eqb_neq i 0)) by lia. cbv zeta.
        destruct (_ =? 0); reflexivity.
      - intros [tb hi] mp i k (Hw' & Hs' & Hwd' & Hh' & Hv & Hm') Hm HiM Hc. cbn [fst snd] in *.
        destruct (Hwt tb Hw' Hs' Hwd') as [G1 G2].
        rewrite (cb_gp_raw b sb (dt_with_table d tb) mc ms i G1 G2 HiM); cbn [dt_with_table dt_table].
        2:{ rewrite Hv by assumption. apply (dr_ok _ _ _ _ _ _ Hdt i HiM). }
        2:{ rewrite Hv by assumption. apply (xs_le _ _ _ _ _ _ Hsh i HiM). }
        rewrite Hv by assumption. unfold cb_cell in Hc. destruct (i =? 0); [discriminate|]. cbv zeta in Hc |- *.
        destruct (_ =? 0); [discriminate|]. injection Hc as <-. reflexivity.
      - intros s mp i v (Hw' & Hs' & Hwd' & Hh' & Hv & Hm') Hm HiM. apply Hm'; assumption.
      - intros [tb hi] mp i v (Hw' & Hs' & Hwd' & Hh' & Hv & Hm') HiM Hvlt. cbn [fst snd] in *.
        destruct (cb_map_set (2 ^ b) w (b + 1) HMpos Hw ltac:(lia) tb hi i v Hw' Hs' Hwd' Hh' HiM Hvlt)
          as (tb' & hi' & E & G1 & G2 & G3 & G4 & G5 & G6 & G7).
        exists (tb', hi'). split; [exact E|]. unfold MR. cbn [fst snd].
        split; [exact G1|]. split; [exact G2|]. split; [exact G3|]. split; [exact G4|]. split.
        + intros j Hj Hn. destruct (N.eq_dec j i) as [->|Hne]; [rewrite lookup_insert in Hn; discriminate|].
          rewrite lookup_insert_ne in Hn by congruence. rewrite G5 by assumption. apply Hv; assumption.
        + intros j u Hj Hn. destruct (N.eq_dec j i) as [->|Hne].
          * rewrite lookup_insert in Hn. injection Hn as <-. exact G7.
          * rewrite lookup_insert_ne in Hn by congruence. rewrite G6 by assumption. apply Hm'; assumption.
      - intros t' loc' q nv s (mc' & ms' & Hr) Hq Hs Hroom.
        pose proof (cb_add_okx mf (b + 1) sb t' mc' ms' loc' Hr q nv s Hq Hs) as Ha.
        destruct (loc' !! (s :: q)) as [x|] eqn:Ex.
        + rewrite Ha. simpl. split; [apply (cb_loc_bounds _ _ _ _ _ _ _ Hr _ _ Ex)|].
          rewrite insert_id by exact Ex. split; [exists mc', ms'; exact Hr|]. intros y [= <-]. reflexivity.
        + destruct Hroom as [[? ?]|Hroom]; [discriminate|].
          assert (Hne : cb_size t' <> cb_max t').
          { rewrite (xr_size _ _ _ _ _ _ _ Hr), (xs_max _ _ _ _ _ _ (xr_shape _ _ _ _ _ _ _ Hr)).
            pose proof (xr_le _ _ _ _ _ _ _ H) as Hle. rewrite (xr_size _ _ _ _ _ _ _ H), (xs_max _ _ _ _ _ _ Hsh) in Hle. lia. }
          rewrite (proj2 (N.eqb_neq _ _) Hne) in Ha.
          eapply wpx_limit; [|eapply wpx_mono; [exact Ha|]].
          { unfold saturates. rewrite (xr_size _ _ _ _ _ _ _ Hr), (xr_size _ _ _ _ _ _ _ H). intros HL. clear -HL Hroom. lia. }
          intros [[r x] t2] (_ & _ & Hfr & mc2 & ms2 & Hr2).
          split; [|split; [exists mc2, ms2; exact Hr2|discriminate]].
          apply (cb_loc_bounds _ _ _ _ _ _ _ Hr2 (s :: q)). apply lookup_insert.
      - split; [|split; [exists ∅, ∅; exact H1|split; [exact Hdw'|split; [congruence|split; [|split; [|split]]]]]].
        + unfold MR. cbn [fst snd]. split; [exact Hwf|]. split; [exact Hsz|]. split; [exact Hwd|]. split; [exact Hh|].
          split; [reflexivity|]. intros i v Hi Hv. apply lookup_singleton_Some in Hv as [<- <-]. exact Hmap0.
        + intros j Hj. rewrite Hdb', Hdb. destruct (N.eqb_spec j 0) as [->|Hne].
          * rewrite lookup_singleton. split; eauto.
          * rewrite lookup_singleton_ne by congruence. split; [discriminate|]. intros [? ?]; discriminate.
        + intros j y. pose proof (tr_root _ _ _ _ _ _ _ (xr_trep _ _ _ _ _ _ _ H)) as Hroot. split.
          * rewrite lookup_singleton_Some. intros [<- <-]. exists []. split; [exact Hroot|apply lookup_singleton].
          * intros (p & Hp & Hy). apply lookup_singleton_Some in Hy as [<- <-].
            rewrite Hroot in Hp. injection Hp as <-. apply lookup_singleton.
        + intros p y Hy. apply lookup_singleton_Some in Hy as [<- <-].
          rewrite (tr_root _ _ _ _ _ _ _ (xr_trep _ _ _ _ _ _ _ H)). eauto.
        + rewrite lookup_singleton. eauto. }
    apply wpx_bind. eapply wpx_mono; [exact Hrem|]. clear Hrem.
    intros [[[tab2 high2] done2] t2] (loc' & mp & Hinv & Hdom & Hmap).
    destruct Hinv as (HMR & HNR & Hdw2 & Hds2 & Hdone & Hmp & Hsub & Hroot).
    apply wpx_ret. exists loc'. split; [exact HNR|]. split; [exact Hdom|]. destruct HNR as (mc2 & ms2 & HNR).
    split.
    { rewrite (xr_size _ _ _ _ _ _ _ HNR).
      assert (Hse : size loc' = size loc) by (rewrite <- !size_dom, Hdom; reflexivity).
      rewrite Hse, <- (xr_size _ _ _ _ _ _ _ H). pose proof (xr_le _ _ _ _ _ _ _ H) as Hle.
      rewrite (xs_max _ _ _ _ _ _ Hsh) in Hle. lia. }
    exists mp. destruct HMR as (Gw & Gs & Gwd & Gh & Gv & Gm). cbn [fst snd] in *. split; [|split].
    - split; [exact Gs|]. intros i Hi. unfold cnm_get. cbn [cnm_done cnm_high cnm_low].
      rewrite bv_get_ok by (rewrite ?Hds2; assumption). rewrite bind_ret.
      destruct (bvbit done2 i) eqn:Eb; cbn [negb].
      + apply Hdone in Eb as [y Hy]; [|exact Hi]. rewrite Hy. cbn [from_option]. unfold id.
        pose proof (Gm i y Hi Hy) as Hg. unfold cb_get_mapping in Hg. cbn [p2_bits] in Hg. rewrite Gwd. exact Hg.
      + destruct (mp !! i) as [y|] eqn:Em; [|reflexivity].
        assert (Ht : bvbit done2 i = true) by (apply Hdone; eauto). congruence.
    - exact Hmap.
    - intros i y Hi. apply Hmp in Hi as (p & Hp & _). eauto.
  Qed.
End cbonsai.
End hash.
