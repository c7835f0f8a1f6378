(** plain_bonsai_trie represents a finite tree. *)
From Verif.Proofs Require Export RemapP.
From Verif.Model Require Export PlainBonsaiTrie.
Local Open Scope N_scope.

Section hash.
Context {HF : plain_hasher}.

Definition vhome (b k : N) : N := p_hash k mod 2 ^ b.
Lemma vhome_lt b k : vhome b k < 2 ^ b.
Proof. apply N.mod_lt. apply N.pow_nonzero. discriminate. Qed.
Lemma right_of_slot b m h d : b <= 57 ->
  right_of (mkP2 m (N.ones b)) (slot (2 ^ b) h d) = slot (2 ^ b) h (d + 1).
Proof.
  intros Hb. unfold right_of. simpl p2_mask. rewrite land_ones_mod. unfold add64. pose proof (pow2_pos b).
  assert (slot (2 ^ b) h d < 2 ^ b) by (apply slot_lt; lia).
  assert (2 ^ b <= 2 ^ 57) by (apply pow2_le, Hb).
  rewrite w64_small. 2:{ change (2 ^ 64) with (2 ^ 57 * 128). lia. }
  apply slot_succ. lia.
Qed.
Lemma make_key_ok b sb v s : v < 2 ^ b -> s < 2 ^ sb -> b + sb < 64 ->
  make_key (mkP2 sb (N.ones sb)) v s = ekey sb v s.
Proof.
  intros Hv Hs Hb. unfold make_key. simpl p2_bits.
  assert (Hlt := ekey_lt b sb v s Hv Hs). assert (2 ^ (b + sb) <= 2 ^ 64) by (apply pow2_le; lia).
  unfold ekey in *. rewrite shl_mul by lia. apply lor_add_disjoint, Hs.
Qed.
Lemma capa_bound b w : b <= 57 -> w < 64 -> 2 ^ b * w + 64 < 2 ^ 64.
Proof.
  intros Hb Hw. assert (2 ^ b <= 2 ^ 57) by (apply pow2_le, Hb).
  assert (2 ^ b * w <= 2 ^ 57 * 63) by (apply N.mul_le_mono; lia).
  change (2 ^ 64) with (2 ^ 57 * 128). assert (64 < 2 ^ 57 * 1) by reflexivity. lia.
Qed.
Lemma p57 b : b <= 57 -> 2 ^ b + 64 < 2 ^ 64.
Proof.
  intros Hb. assert (2 ^ b <= 2 ^ 57) by (apply pow2_le, Hb).
  change (2 ^ 64) with (2 ^ 57 * 128). assert (64 < 2 ^ 57 * 1) by reflexivity. lia.
Qed.

Definition pb_cell (tab : compact_vector) (i : N) : cell :=
  if i <? 2 then Skip else if cv_val tab i =? 0 then Vac else Full (cv_val tab i).

Record pb_shape (mf b sb : N) (t : pb_trie) : Prop := {
  ps_b : 16 <= b <= 56;
  ps_sb : b + sb < 64;
  ps_mf : 1 <= mf <= 99;
  ps_capa : pb_capa t = mkP2 b (N.ones b);
  ps_symb : pb_symb t = mkP2 sb (N.ones sb);
  ps_max : pb_max t = max_size_of (2 ^ b) mf;
  ps_wf : cv_wf (pb_table t);
  ps_size : cv_size (pb_table t) = 2 ^ b;
  ps_width : cv_width (pb_table t) = b + sb;
  ps_0 : cv_val (pb_table t) 0 = 0;
  ps_1 : cv_val (pb_table t) 1 = 0 }.
Record pb_rep (mf b sb : N) (t : pb_trie) (loc : gmap (list N) N) : Prop := {
  pr_shape : pb_shape mf b sb t;
  pr_trep : trep (2 ^ b) sb 1 (vhome b) (pb_cell (pb_table t)) (fun i => i) loc;
  pr_cnt : countb (fun i => negb (is_vac (pb_cell (pb_table t) i))) (2 ^ b) = pb_size t + 1;
  pr_size : pb_size t = N.of_nat (size loc);
  pr_le : pb_size t <= pb_max t }.
Definition pb_fresh (mf b sb : N) (t : pb_trie) : Prop :=
  pb_shape mf b sb t /\ pb_size t = 0 /\ forall i, i < 2 ^ b -> cv_val (pb_table t) i = 0.

Lemma pb_new_ok mf cb sb : 1 <= mf <= 99 -> N.max 16 cb <= 56 -> N.max 16 cb + sb < 64 ->
  exists t, pb_new mf cb sb = Ret t /\ pb_fresh mf (N.max 16 cb) sb t.
Proof.
  intros Hmf Hb Hsb. unfold pb_new, trie_min_capa_bits.
  set (b := N.max 16 cb) in *. assert (16 <= b) by lia.
  rewrite p2_new_eq by lia. rewrite bind_ret. rewrite p2_new_eq by lia. rewrite bind_ret.
  cbn [p2_bits]. rewrite p2_size_ones by lia.
  assert (Hcb := capa_bound b (b + sb) ltac:(lia) Hsb).
  pose proof (cv_new_eq (2 ^ b) (b + sb) Hsb Hcb) as E. rewrite E, bind_ret.
  eexists. split; [reflexivity|].
  assert (H0 : 0 < b + sb) by lia.
  destruct (cv_new_wf _ _ _ H0 Hsb Hcb E) as (Hwf & Hs & Hw).
  assert (Hv : forall i, i < 2 ^ b -> cv_val (mkCV (vnew ((2 ^ b * (b + sb) + 63) / 64) 0) (2 ^ b) (N.ones (b + sb)) (b + sb)) i = 0).
  { intros i Hi. apply (cv_new_val (2 ^ b) (b + sb)); assumption. }
  assert (2 ^ 16 <= 2 ^ b) by (apply pow2_le; lia). assert (2 < 2 ^ 16) by reflexivity.
  split; [|split; [reflexivity|exact Hv]].
  split; simpl; auto; try (apply Hv; lia).
Qed.

Lemma pb_cell_empty tab b : (forall i, i < 2 ^ b -> cv_val tab i = 0) ->
  forall i, i < 2 ^ b -> pb_cell tab i = if i <? 2 then Skip else Vac.
Proof. intros H i Hi. unfold pb_cell. rewrite H by exact Hi. reflexivity. Qed.
Lemma count_below_2 n : 2 <= n -> countb (fun i => i <? 2) n = 2.
Proof.
  intros Hn. pattern n. revert n Hn. apply N.right_induction.
  - intros x y ->. reflexivity.
  - reflexivity.
  - intros n Hn IH. rewrite <- N.add_1_r, countb_succ, IH.
    rewrite (proj2 (N.ltb_ge _ _)) by exact Hn. reflexivity.
Qed.

Lemma pb_add_root_ok mf b sb t : pb_fresh mf b sb t ->
  exists t', pb_add_root t = Ret t' /\ pb_rep mf b sb t' {[ [] := 1 ]}.
Proof.
  intros (Hsh & Hz & Hv). unfold pb_add_root. rewrite Hz. rewrite assert_true by reflexivity.
  rewrite bind_ret. eexists. split; [reflexivity|].
  pose proof (ps_b _ _ _ _ Hsh) as Hb.
  assert (2 ^ 16 <= 2 ^ b) by (apply pow2_le; lia). assert (2 < 2 ^ 16) by reflexivity.
  split.
  - destruct Hsh. split; auto.
  - apply trep_root_only. intros i k Hi. cbn [pb_table]. rewrite (pb_cell_empty _ b Hv) by exact Hi.
    destruct (i <? 2); discriminate.
  - cbn [pb_table pb_size]. rewrite (countb_ext _ (fun i => i <? 2)).
    + apply count_below_2. lia.
    + intros i Hi. rewrite (pb_cell_empty _ b Hv) by exact Hi. destruct (i <? 2); reflexivity.
  - cbn [pb_size]. rewrite map_size_singleton. reflexivity.
  - cbn [pb_size pb_max]. rewrite (ps_max _ _ _ _ Hsh).     destruct (ms_ok2_facts b mf ltac:(lia) (ps_mf _ _ _ _ Hsh)) as (_ & _ & H3). lia.
Qed.

Section pb.
  Context (mf b sb : N) (t : pb_trie) (loc : gmap (list N) N).
  Hypothesis H : pb_rep mf b sb t loc.
  Let Hsh : pb_shape mf b sb t := pr_shape _ _ _ _ _ H.
  Let M := 2 ^ b.

  Lemma pb_M : 2 ^ 16 <= 2 ^ b.
  Proof. apply pow2_le. apply Hsh. Qed.
  Lemma pb_Mpos : 0 < 2 ^ b. Proof. apply pow2_pos. Qed.
  Lemma pb_M64 : 2 ^ b <= 2 ^ 64. Proof. apply pow2_le. pose proof (ps_b _ _ _ _ Hsh). lia. Qed.
  Lemma pb_get i : i < 2 ^ b -> cv_get (pb_table t) i = Ret (cv_val (pb_table t) i).
  Proof. intros Hi. apply cv_get_ok; [apply Hsh|]. rewrite (ps_size _ _ _ _ Hsh). exact Hi. Qed.

  Lemma pb_loc_bounds p v : loc !! p = Some v -> 1 <= v /\ v < 2 ^ b.
  Proof.
    intros E. destruct p as [|s p].
    - rewrite (tr_root _ _ _ _ _ _ _ (pr_trep _ _ _ _ _ H)) in E. injection E as <-.
      pose proof pb_M. assert (1 < 2 ^ 16) by reflexivity. lia.
    - destruct (tr_cell _ _ _ _ _ _ _ (pr_trep _ _ _ _ _ H) _ _ _ E) as (_ & w & i & _ & Hi & Hc & <-).
      split; [|exact Hi]. unfold pb_cell in Hc. destruct (N.ltb_spec i 2); [discriminate|lia].
  Qed.
  Lemma pb_max_lt : pb_max t + 600 < 2 ^ b.
  Proof.
    rewrite (ps_max _ _ _ _ Hsh). pose proof (ps_b _ _ _ _ Hsh).
    destruct (ms_ok2_facts b mf ltac:(lia) (ps_mf _ _ _ _ Hsh)) as (_ & _ & H3). apply H3. lia.
  Qed.
  Lemma pb_vacancy : exists v, v < 2 ^ b /\ pb_cell (pb_table t) v = Vac.
  Proof.
    destruct (countb_lt_ex (fun i => negb (is_vac (pb_cell (pb_table t) i))) (2 ^ b)) as (i & Hi & Hv).
    - rewrite (pr_cnt _ _ _ _ _ H). pose proof (pr_le _ _ _ _ _ H). pose proof pb_max_lt; lia.
    - exists i. split; [exact Hi|]. destruct (pb_cell _ i); simpl in Hv; congruence.
  Qed.
  Lemma pb_root : pb_get_root t = Ret 1.
  Proof.
    unfold pb_get_root. rewrite assert_true; [reflexivity|]. apply negb_true_iff, N.eqb_neq.
    rewrite (pr_size _ _ _ _ _ H).
    assert (size loc <> 0%nat); [|lia]. intros E. apply map_size_empty_inv in E.
    pose proof (tr_root _ _ _ _ _ _ _ (pr_trep _ _ _ _ _ H)) as Hr. rewrite E, lookup_empty in Hr. discriminate.
  Qed.

  (** The step function of both search loops, given what to do on a vacancy and on a hit. *)
  Lemma pb_pass (R : Type) (onvac onhit : N -> outcome (N + R)) key i :
    i < 2 ^ b -> pb_cell (pb_table t) i <> Vac -> pb_cell (pb_table t) i <> Full key ->
    (if i =? 0 then Ret (inl (right_of (pb_capa t) i))
     else let* root := pb_get_root t in
          if i =? root then Ret (inl (right_of (pb_capa t) i))
          else let* x := cv_get (pb_table t) i in
               if x =? 0 then onvac i
               else if x =? key then onhit i
               else Ret (inl (right_of (pb_capa t) i))) = Ret (inl (right_of (pb_capa t) i)).
  Proof.
    intros Hi Hv Hf. rewrite pb_root, bind_ret. unfold pb_cell in Hv, Hf.
    destruct (N.eqb_spec i 0) as [|H0]; [reflexivity|]. destruct (N.eqb_spec i 1) as [|H1]; [reflexivity|].
    destruct (N.ltb_spec i 2); [lia|]. rewrite pb_get by exact Hi. rewrite bind_ret.
    destruct (cv_val (pb_table t) i =? 0); [congruence|].
    destruct (N.eqb_spec (cv_val (pb_table t) i) key); [congruence|reflexivity].
  Qed.
  Lemma pb_hit (R : Type) (onvac onhit : N -> outcome (N + R)) key i :
    i < 2 ^ b -> pb_cell (pb_table t) i = Full key ->
    (if i =? 0 then Ret (inl (right_of (pb_capa t) i))
     else let* root := pb_get_root t in
          if i =? root then Ret (inl (right_of (pb_capa t) i))
          else let* x := cv_get (pb_table t) i in
               if x =? 0 then onvac i
               else if x =? key then onhit i
               else Ret (inl (right_of (pb_capa t) i))) = onhit i.
  Proof.
    intros Hi Hf. rewrite pb_root, bind_ret. unfold pb_cell in Hf.
    destruct (N.ltb_spec i 2); [discriminate|].
    rewrite (proj2 (N.eqb_neq i 0)), (proj2 (N.eqb_neq i 1)) by lia.
    rewrite pb_get by exact Hi. rewrite bind_ret.
    destruct (cv_val (pb_table t) i =? 0); [discriminate|]. injection Hf as ->.
    rewrite N.eqb_refl. reflexivity.
  Qed.
  Lemma pb_vac (R : Type) (onvac onhit : N -> outcome (N + R)) key i :
    i < 2 ^ b -> pb_cell (pb_table t) i = Vac ->
    (if i =? 0 then Ret (inl (right_of (pb_capa t) i))
     else let* root := pb_get_root t in
          if i =? root then Ret (inl (right_of (pb_capa t) i))
          else let* x := cv_get (pb_table t) i in
               if x =? 0 then onvac i
               else if x =? key then onhit i
               else Ret (inl (right_of (pb_capa t) i))) = onvac i.
  Proof.
    intros Hi Hf. rewrite pb_root, bind_ret. unfold pb_cell in Hf.
    destruct (N.ltb_spec i 2); [discriminate|].
    rewrite (proj2 (N.eqb_neq i 0)), (proj2 (N.eqb_neq i 1)) by lia.
    rewrite pb_get by exact Hi. rewrite bind_ret.
    destruct (cv_val (pb_table t) i =? 0); [reflexivity|discriminate].
  Qed.
  Lemma pb_key_pos v s : 1 <= v -> s < 2 ^ sb -> negb (ekey sb v s =? 0) = true.
  Proof.
    intros Hv Hs. apply negb_true_iff, N.eqb_neq. unfold ekey. pose proof (pow2_pos sb).
    assert (1 * 2 ^ sb <= v * 2 ^ sb) by (apply N.mul_le_mono_r; exact Hv). lia.
  Qed.
  Lemma pb_init k : N.land (p_hash k) (p2_mask (pb_capa t)) = slot (2 ^ b) (vhome b k) 0.
  Proof.
    rewrite (ps_capa _ _ _ _ Hsh). cbn [p2_mask]. rewrite land_ones_mod, slot_0 by apply vhome_lt. reflexivity.
  Qed.
  Lemma pb_right h d : right_of (pb_capa t) (slot (2 ^ b) h d) = slot (2 ^ b) h (d + 1).
  Proof. rewrite (ps_capa _ _ _ _ Hsh). apply right_of_slot. pose proof (ps_b _ _ _ _ Hsh). lia. Qed.
  Lemma pb_capa_size : p2_size (pb_capa t) = 2 ^ b.
  Proof. rewrite (ps_capa _ _ _ _ Hsh). apply p2_size_ones. pose proof (ps_b _ _ _ _ Hsh). lia. Qed.
  Lemma pb_symb_size : p2_size (pb_symb t) = 2 ^ sb.
  Proof. rewrite (ps_symb _ _ _ _ Hsh). apply p2_size_ones. pose proof (ps_sb _ _ _ _ Hsh). lia. Qed.
  Lemma pb_mkey v s : v < 2 ^ b -> s < 2 ^ sb -> make_key (pb_symb t) v s = ekey sb v s.
  Proof. intros Hv Hs. rewrite (ps_symb _ _ _ _ Hsh). apply (make_key_ok b); auto. apply Hsh. Qed.
  Lemma pb_size_nz : (pb_size t =? 0) = false.
  Proof.
    pose proof pb_root as Hr. unfold pb_get_root in Hr. destruct (pb_size t =? 0); [discriminate|reflexivity].
  Qed.

  (** Search: the child of any non-zero slot id. *)
  Lemma pb_find_raw v s : 1 <= v < 2 ^ b -> s < 2 ^ sb ->
    (exists i, i < 2 ^ b /\ pb_cell (pb_table t) i = Full (ekey sb v s) /\ pb_find_child t v s = Ret i) \/
    ((forall j, j < 2 ^ b -> pb_cell (pb_table t) j <> Full (ekey sb v s)) /\ pb_find_child t v s = Ret nil_id).
  Proof.
    intros Hv Hs. unfold pb_find_child.
    rewrite pb_capa_size, pb_symb_size. rewrite !assert_true by (apply N.ltb_lt; lia || assumption).
    rewrite !bind_ret, pb_size_nz, pb_mkey by (lia || assumption).
    rewrite assert_true by (apply pb_key_pos; lia || assumption). rewrite bind_ret, pb_init.
    match goal with |- context [loop ?g _] => set (f := g) end.
    destruct (probe_loop (2 ^ b) (vhome b) pb_Mpos (vhome_lt b) f
      (fun d => slot (2 ^ b) (vhome b (ekey sb v s)) d) (pb_cell (pb_table t)) (ekey sb v s) pb_M64
      (tr_pinv _ _ _ _ _ _ _ (pr_trep _ _ _ _ _ H)) pb_vacancy) as (d & Hd & Hpr & Hc & Hl).
    { intros d Hd H1 H2. unfold f. rewrite (pb_pass N (fun _ => Ret (inr nil_id)) (fun i => Ret (inr i))); auto.
      - rewrite pb_right. reflexivity.
      - apply slot_lt, pb_Mpos. }
    assert (Hlt := slot_lt (2 ^ b) pb_Mpos (vhome b (ekey sb v s)) d).
    destruct Hc as [Hc|[Hc Hab]].
    - left. exists (slot (2 ^ b) (vhome b (ekey sb v s)) d). split; [exact Hlt|]. split; [exact Hc|].
      assert (Hf : f (slot (2 ^ b) (vhome b (ekey sb v s)) d) = Ret (inr (slot (2 ^ b) (vhome b (ekey sb v s)) d)))
        by exact (pb_hit N (fun _ => Ret (inr nil_id)) (fun i => Ret (inr i)) _ _ Hlt Hc).
      rewrite Hl by (rewrite Hf; intros x; discriminate). rewrite Hf. reflexivity.
    - right. split; [exact Hab|].
      assert (Hf : f (slot (2 ^ b) (vhome b (ekey sb v s)) d) = Ret (inr nil_id))
        by exact (pb_vac N (fun _ => Ret (inr nil_id)) (fun i => Ret (inr i)) (ekey sb v s) _ Hlt Hc).
      rewrite Hl by (rewrite Hf; intros x; discriminate). rewrite Hf. reflexivity.
  Qed.
  Lemma pb_find_ok p v s : loc !! p = Some v -> s < 2 ^ sb ->
    pb_find_child t v s = Ret (default nil_id (loc !! (s :: p))).
  Proof.
    intros Hp Hs. destruct (pb_find_raw v s (pb_loc_bounds p v Hp) Hs) as [(i & Hi & Hc & ->)|[Hab ->]].
    - rewrite (trep_found _ _ _ _ _ _ _ (pr_trep _ _ _ _ _ H) p v s i Hp Hs Hi Hc). reflexivity.
    - rewrite (trep_absent _ _ _ _ _ _ _ (pr_trep _ _ _ _ _ H) p v s Hp Hs Hab). reflexivity.
  Qed.

  (** add_child, raw form. *)
  Lemma pb_add_ok p v s : loc !! p = Some v -> s < 2 ^ sb ->
    match loc !! (s :: p) with
    | Some x => pb_add_child t v s = Ret (false, x, t)
    | None =>
        if pb_size t =? pb_max t then pb_add_child t v s = Ret (false, v, t)
        else exists x t', pb_add_child t v s = Ret (true, x, t') /\
               (forall q, loc !! q <> Some x) /\ pb_rep mf b sb t' (<[s :: p := x]> loc)
    end.
  Proof.
    intros Hp Hs. destruct (pb_loc_bounds p v Hp) as [Hv1 Hv2].
    assert (Hadd : forall r, (let* _ := assert_ (v <? p2_size (pb_capa t)) in
        let* _ := assert_ (s <? p2_size (pb_symb t)) in
        let* _ := assert_ (negb (make_key (pb_symb t) v s =? 0)) in r) = (r : outcome (bool * N * pb_trie))).
    { intros r. rewrite pb_capa_size, pb_symb_size. rewrite !assert_true by (apply N.ltb_lt; lia || assumption).
      rewrite !bind_ret, pb_mkey by assumption. rewrite assert_true by (apply pb_key_pos; assumption). reflexivity. }
    unfold pb_add_child. rewrite Hadd. clear Hadd. rewrite pb_mkey by assumption. rewrite pb_init.
    match goal with |- context [loop ?g _] => set (f := g) end.
    set (k := ekey sb v s) in *.
    destruct (probe_loop (2 ^ b) (vhome b) pb_Mpos (vhome_lt b) f
      (fun d => slot (2 ^ b) (vhome b k) d) (pb_cell (pb_table t)) k pb_M64
      (tr_pinv _ _ _ _ _ _ _ (pr_trep _ _ _ _ _ H)) pb_vacancy) as (d & Hd & Hpr & Hc & Hl).
    { intros d Hd H1 H2. unfold f.
      rewrite (pb_pass _ (fun i => if pb_size t =? pb_max t then Ret (inr (false, v, t)) else
            let* table := cv_set (pb_table t) i k in
            Ret (inr (true, i, mkPB table (add64 (pb_size t) 1) (pb_max t) (pb_capa t) (pb_symb t))))
          (fun i => Ret (inr (false, i, t)))); auto.
      - rewrite pb_right. reflexivity.
      - apply slot_lt, pb_Mpos. }
    assert (Hlt := slot_lt (2 ^ b) pb_Mpos (vhome b k) d).
    set (i := slot (2 ^ b) (vhome b k) d) in *.
    destruct Hc as [Hc|[Hc Hab]].
    - assert (Hf : f i = Ret (inr (false, i, t))).
      { unfold f. apply (pb_hit _ (fun i => if pb_size t =? pb_max t then Ret (inr (false, v, t)) else
            let* table := cv_set (pb_table t) i k in
            Ret (inr (true, i, mkPB table (add64 (pb_size t) 1) (pb_max t) (pb_capa t) (pb_symb t))))
          (fun i => Ret (inr (false, i, t))) k i Hlt Hc). }
      rewrite (trep_found _ _ _ _ _ _ _ (pr_trep _ _ _ _ _ H) p v s i Hp Hs Hlt Hc).
      rewrite Hl by (rewrite Hf; intros x; discriminate). rewrite Hf. reflexivity.
    - rewrite (trep_absent _ _ _ _ _ _ _ (pr_trep _ _ _ _ _ H) p v s Hp Hs Hab).
      assert (Hf : f i = if pb_size t =? pb_max t then Ret (inr (false, v, t)) else
            let* table := cv_set (pb_table t) i k in
            Ret (inr (true, i, mkPB table (add64 (pb_size t) 1) (pb_max t) (pb_capa t) (pb_symb t)))).
      { exact (pb_vac _ (fun i => if pb_size t =? pb_max t then Ret (inr (false, v, t)) else
            let* table := cv_set (pb_table t) i k in
            Ret (inr (true, i, mkPB table (add64 (pb_size t) 1) (pb_max t) (pb_capa t) (pb_symb t))))
          (fun i => Ret (inr (false, i, t))) k i Hlt Hc). }
      destruct (N.eqb_spec (pb_size t) (pb_max t)) as [Heq|Hne].
      { rewrite Hl by (rewrite Hf; intros x; discriminate). rewrite Hf. reflexivity. }
      assert (Hk : k < 2 ^ cv_width (pb_table t)).
      { rewrite (ps_width _ _ _ _ Hsh). apply ekey_lt; assumption. }
      destruct (cv_set_ok (pb_table t) i k (ps_wf _ _ _ _ Hsh)) as (tab & E & Hwf & Hcs & Hcw & Hval);
        [rewrite (ps_size _ _ _ _ Hsh); exact Hlt|exact Hk|].
      rewrite E, bind_ret in Hf.
      rewrite Hl by (rewrite Hf; intros x; discriminate). rewrite Hf. cbn [finish].
      rewrite (ps_size _ _ _ _ Hsh) in Hval.
      exists i. eexists. split; [reflexivity|].
      assert (Hi2 : 2 <= i). { unfold pb_cell in Hc. destruct (N.ltb_spec i 2); [discriminate|assumption]. }
      assert (Hk0 : (k =? 0) = false). { apply negb_true_iff. apply pb_key_pos; assumption. }
      assert (Hcell : forall j, j < 2 ^ b -> pb_cell tab j = cell_upd (pb_cell (pb_table t)) i (Full k) j).
      { intros j Hj. unfold pb_cell, cell_upd. rewrite Hval by exact Hj.
        destruct (N.eqb_spec j i) as [->|]; [|reflexivity]. rewrite Hk0.
        destruct (N.ltb_spec i 2); [lia|reflexivity]. }
      assert (Hfr : forall q, loc !! q <> Some i).
      { intros q Hq. destruct q as [|s' q].
        - rewrite (tr_root _ _ _ _ _ _ _ (pr_trep _ _ _ _ _ H)) in Hq. injection Hq as Hq. lia.
        - destruct (tr_cell _ _ _ _ _ _ _ (pr_trep _ _ _ _ _ H) _ _ _ Hq) as (_ & w & j & _ & Hj & Hcj & Ej).
          subst j. congruence. }
      split; [exact Hfr|].
      assert (Hsz : add64 (pb_size t) 1 = pb_size t + 1).
      { unfold add64. apply w64_small. pose proof (pr_le _ _ _ _ _ H).
        pose proof (ps_b _ _ _ _ Hsh). pose proof (p57 b ltac:(lia)). pose proof pb_max_lt; lia. }
      assert (Hm : pb_size t < pb_max t) by (pose proof (pr_le _ _ _ _ _ H); lia).
      split.
      + destruct Hsh. split; simpl; auto.
        * congruence.
        * congruence.
        * rewrite Hval by lia. destruct (N.eqb_spec 0 i); [lia|assumption].
        * rewrite Hval by lia. destruct (N.eqb_spec 1 i); [lia|assumption].
      + cbn [pb_table]. apply (trep_insert (2 ^ b) sb 1 (vhome b) (pb_cell (pb_table t)) (fun i => i) loc pb_Mpos (vhome_lt b)
           (pr_trep _ _ _ _ _ H) p v s d i); auto.
        intros d' Hd'. apply (Hpr d' Hd').
      + cbn [pb_table pb_size]. rewrite Hsz.
        rewrite (countb_upd (fun j => negb (is_vac (pb_cell (pb_table t) j))) _ _ i Hlt).
        * rewrite (pr_cnt _ _ _ _ _ H). reflexivity.
        * rewrite Hc. reflexivity.
        * rewrite Hcell by exact Hlt. unfold cell_upd. rewrite N.eqb_refl. reflexivity.
        * intros j Hj Hne'. rewrite Hcell by exact Hj. unfold cell_upd. rewrite (proj2 (N.eqb_neq _ _) Hne'). reflexivity.
      + cbn [pb_size]. rewrite Hsz, map_size_insert.
        rewrite (trep_absent _ _ _ _ _ _ _ (pr_trep _ _ _ _ _ H) p v s Hp Hs Hab).
        rewrite (pr_size _ _ _ _ _ H). simpl. lia.
      + cbn [pb_size pb_max]. lia.
  Qed.

  Lemma pb_gp_ok i : i < 2 ^ b ->
    pb_get_parent_and_symb t i = Ret (match pb_cell (pb_table t) i with
      | Full k => (k / 2 ^ sb, k mod 2 ^ sb) | _ => (nil_id, 0) end).
  Proof.
    intros Hi. unfold pb_get_parent_and_symb. rewrite pb_capa_size, assert_true by (apply N.ltb_lt, Hi).
    rewrite bind_ret, pb_get by exact Hi. rewrite bind_ret. unfold pb_cell.
    assert (H01 : i < 2 -> cv_val (pb_table t) i = 0).
    { intros Hi2. assert (i = 0 \/ i = 1) as [-> | ->] by lia; apply Hsh. }
    destruct (N.eqb_spec (cv_val (pb_table t) i) 0) as [E|E].
    - destruct (i <? 2); reflexivity.
    - destruct (N.ltb_spec i 2); [exfalso; auto|].
      rewrite (ps_symb _ _ _ _ Hsh). cbn [p2_bits p2_mask]. rewrite shr_div, land_ones_mod. reflexivity.
  Qed.
End pb.

(** Expansion. *)
Definition pnm_rep (b : N) (nm : pb_node_map) (f : N -> option N) : Prop :=
  pnm_size nm = 2 ^ b /\ forall i, i < 2 ^ b -> pnm_get nm i = Ret (default UINT64_MAX (f i)).

Lemma pb_expand_ok mf b sb t loc : pb_rep mf b sb t loc -> b <= 55 -> 1 <= sb -> b + 1 + sb < 64 ->
  exists nm t' loc', pb_expand mf t = Ret (nm, t') /\ pb_rep mf (b + 1) sb t' loc' /\
    dom loc' = dom loc /\ pb_size t' < pb_max t' /\
    exists mp : gmap N N, pnm_rep b nm (fun i => mp !! i) /\
      (forall p v, loc !! p = Some v -> mp !! v = loc' !! p) /\
      (forall i y, mp !! i = Some y -> exists p, loc !! p = Some i).
Proof.
  intros H Hb Hsb0 Hsb1. pose proof (pr_shape _ _ _ _ _ H) as Hsh.
  pose proof (ps_b _ _ _ _ Hsh) as Hb16. pose proof (ps_sb _ _ _ _ Hsh) as Hsb.
  pose proof (ps_mf _ _ _ _ Hsh) as Hmf.
  unfold pb_expand. rewrite (ps_capa _ _ _ _ Hsh), (ps_symb _ _ _ _ Hsh). cbn [p2_bits].
  destruct (pb_new_ok mf (b + 1) sb Hmf) as (t0 & E0 & Hf0); [lia|lia|].
  replace (N.max 16 (b + 1)) with (b + 1) in Hf0 by lia. rewrite E0, bind_ret.
  destruct (pb_add_root_ok mf (b + 1) sb t0 Hf0) as (t1 & E1 & H1). rewrite E1, bind_ret.
  rewrite p2_size_ones by lia.
  rewrite (pb_root mf b sb t loc H), bind_ret.
  assert (HM := pb_M mf b sb t loc H). assert (2 < 2 ^ 16) by reflexivity.
  destruct (bv_new_ok (2 ^ b)) as (Hdw & Hds & Hdb). { apply p57; lia. }
  destruct (bv_set_ok (bv_new (2 ^ b)) 1 true Hdw) as (done & Ed & Hdw' & Hds' & Hdb'); [rewrite Hds; lia|].
  rewrite Ed, bind_ret. rewrite (pb_root mf (b + 1) sb t1 _ H1), bind_ret.
  assert (Hw1 : 1 < 2 ^ cv_width (pb_table t)).
  { rewrite (ps_width _ _ _ _ Hsh). apply (N.lt_le_trans _ (2 ^ 16)); [reflexivity|]. apply pow2_le; lia. }
  destruct (cv_set_ok (pb_table t) 1 1 (ps_wf _ _ _ _ Hsh)) as (tab & Et & Hwf & Hcs & Hcw & Hval);
    [rewrite (ps_size _ _ _ _ Hsh); lia|exact Hw1|].
  rewrite Et, bind_ret. rewrite (ps_size _ _ _ _ Hsh) in Hcs, Hval. rewrite Hcs.
  set (MR := fun (tb : compact_vector) (mp : gmap N N) =>
     cv_wf tb /\ cv_size tb = 2 ^ b /\ cv_width tb = b + sb /\
     (forall i, i < 2 ^ b -> cv_val tb i = default (cv_val (pb_table t) i) (mp !! i))).
  set (NR := fun (t' : pb_trie) (loc' : gmap (list N) N) => pb_rep mf (b + 1) sb t' loc').
  assert (Hmax : max_size_of (2 ^ b) mf < max_size_of (2 ^ (b + 1)) mf) by (apply ms_ok2_facts; lia).
  assert (Hrem : wpx False (bonsai_remap 2 (2 ^ b)
      (fun table i => let* x := cv_get table i in Ret (x =? 0))
      (fun table i => pb_get_parent_and_symb
         (mkPB table (pb_size t) (pb_max t) (mkP2 b (N.ones b)) (mkP2 sb (N.ones sb))) i)
      cv_get cv_set pb_add_child (tab, done, t1))
      (fun st => exists loc' mp, rinv (2 ^ b) loc MR NR st loc' mp /\ dom loc' = dom loc /\
         (forall p v, loc !! p = Some v -> mp !! v = loc' !! p))).
  { apply (remap_ok False (2 ^ b) (2 ^ (b + 1)) sb 1 2 (vhome b) (pb_cell (pb_table t)) loc) with
      (loc0 := {[ [] := 1 ]}) (mp0 := {[ 1 := 1 ]}).
    - apply pow2_pos.
    - apply p57. lia.
    - lia.
    - apply H.
    - intros p v Hp. apply (pb_loc_bounds mf b sb t loc H p v Hp).
    - rewrite <- (pr_size _ _ _ _ _ H). pose proof (pr_le _ _ _ _ _ H).
      pose proof (pb_max_lt mf b sb t loc H); lia.
    - intros i Hi HiM. unfold pb_cell. destruct (N.ltb_spec i 2); [lia|]. destruct (_ =? _); discriminate.
    - intros i k Hi Hc. unfold pb_cell in Hc. destruct (N.ltb_spec i 2); [discriminate|lia].
    - intros tb mp i (Hw & Hs & Hwd & Hv) Hm Hi HiM. rewrite cv_get_ok by (rewrite ?Hs; assumption).
      rewrite bind_ret, Hv, Hm by exact HiM. simpl default. unfold pb_cell.
      destruct (N.ltb_spec i 2); [lia|]. destruct (_ =? _); reflexivity.
    - intros tb mp i k (Hw & Hs & Hwd & Hv) Hm HiM Hc. unfold pb_get_parent_and_symb. cbn [pb_capa pb_table pb_symb].
      rewrite p2_size_ones by lia. rewrite assert_true by (apply N.ltb_lt, HiM). rewrite bind_ret.
      rewrite cv_get_ok by (rewrite ?Hs; assumption). rewrite bind_ret, Hv, Hm by exact HiM. simpl default.
      unfold pb_cell in Hc. destruct (i <? 2); [discriminate|].
      destruct (_ =? 0); [discriminate|]. injection Hc as <-.
      cbn [p2_bits p2_mask]. rewrite shr_div, land_ones_mod. reflexivity.
    - intros tb mp i v (Hw & Hs & Hwd & Hv) Hm HiM. rewrite cv_get_ok by (rewrite ?Hs; assumption).
      rewrite Hv, Hm by exact HiM. reflexivity.
    - intros tb mp i v (Hw & Hs & Hwd & Hv) HiM Hvlt.
      destruct (cv_set_ok tb i v Hw) as (tb' & E & Hw' & Hs' & Hwd' & Hv').
      { rewrite Hs; exact HiM. }
      { rewrite Hwd. apply (N.lt_le_trans _ (2 ^ (b + 1))); [exact Hvlt|]. apply pow2_le. lia. }
      exists tb'. split; [exact E|]. split; [exact Hw'|]. split; [congruence|]. split; [congruence|].
      intros j Hj. rewrite Hv' by (rewrite Hs; exact Hj). destruct (N.eqb_spec j i) as [->|Hne].
      + rewrite lookup_insert. reflexivity.
      + rewrite lookup_insert_ne by congruence. apply Hv, Hj.
    - intros t' loc' q nv s Hr Hq Hs Hroom.
      pose proof (pb_add_ok mf (b + 1) sb t' loc' Hr q nv s Hq Hs) as Ha.
      destruct (loc' !! (s :: q)) as [x|] eqn:Ex.
      + rewrite Ha. simpl. split; [apply (pb_loc_bounds _ _ _ _ _ Hr _ _ Ex)|].
        rewrite insert_id by exact Ex. split; [exact Hr|]. intros y [= <-]. reflexivity.
      + destruct Hroom as [[? ?]|Hroom]; [discriminate|].
        assert (Hne : pb_size t' <> pb_max t').
        { rewrite (pr_size _ _ _ _ _ Hr), (ps_max _ _ _ _ (pr_shape _ _ _ _ _ Hr)).
          pose proof (pr_le _ _ _ _ _ H) as Hle. rewrite (pr_size _ _ _ _ _ H), (ps_max _ _ _ _ Hsh) in Hle. lia. }
        rewrite (proj2 (N.eqb_neq _ _) Hne) in Ha. destruct Ha as (x & t2 & -> & Hfr & Hr2). simpl.
        split; [|split; [exact Hr2|discriminate]].
        apply (pb_loc_bounds _ _ _ _ _ Hr2 (s :: q)). apply lookup_insert.
    - split; [|split; [exact H1|split; [exact Hdw'|split; [congruence|split; [|split; [|split]]]]]].
      + split; [exact Hwf|]. split; [congruence|]. split; [rewrite Hcw; apply Hsh|].
        intros i Hi. rewrite Hval by exact Hi. destruct (N.eqb_spec i 1) as [->|Hne].
        * rewrite lookup_singleton. reflexivity.
        * rewrite lookup_singleton_ne by congruence. reflexivity.
      + intros j Hj. rewrite Hdb', Hdb. destruct (N.eqb_spec j 1) as [->|Hne].
        * rewrite lookup_singleton. split; eauto.
        * rewrite lookup_singleton_ne by congruence. split; [discriminate|]. intros [? ?]; discriminate.
      + intros j y. pose proof (tr_root _ _ _ _ _ _ _ (pr_trep _ _ _ _ _ H)) as Hroot. split.
        * rewrite lookup_singleton_Some. intros [<- <-]. exists []. split; [exact Hroot|apply lookup_singleton].
        * intros (p & Hp & Hy). apply lookup_singleton_Some in Hy as [<- <-].
          rewrite Hroot in Hp. injection Hp as <-. apply lookup_singleton.
      + intros p y Hy. apply lookup_singleton_Some in Hy as [<- <-].
        rewrite (tr_root _ _ _ _ _ _ _ (pr_trep _ _ _ _ _ H)). eauto.
      + rewrite lookup_singleton. eauto. }
  apply wpx_wp, wp_inv in Hrem as ([[tab2 done2] t2] & Er & loc' & mp & Hinv & Hdom & Hmap).
  rewrite Er, bind_ret.
  destruct Hinv as (HMR & HNR & Hdw2 & Hds2 & Hdone & Hmp & Hsub & Hroot).
  exists (mkPNM tab2 done2), t2, loc'. split; [reflexivity|]. split; [exact HNR|]. split; [exact Hdom|].
  split.
  { rewrite (pr_size _ _ _ _ _ HNR), (ps_max _ _ _ _ (pr_shape _ _ _ _ _ HNR)).
    assert (Hse : size loc' = size loc) by (rewrite <- !size_dom, Hdom; reflexivity).
    rewrite Hse, <- (pr_size _ _ _ _ _ H). pose proof (pr_le _ _ _ _ _ H) as Hle.
    rewrite (ps_max _ _ _ _ Hsh) in Hle. lia. }
  exists mp. destruct HMR as (Hw & Hs & Hwd & Hv). split; [|split].
  - split; [exact Hs|]. intros i Hi. unfold pnm_get. cbn [pnm_done pnm_map].
    rewrite bv_get_ok by (rewrite ?Hds2; assumption). rewrite bind_ret.
    destruct (bvbit done2 i) eqn:Eb.
    + rewrite cv_get_ok by (rewrite ?Hs; assumption). rewrite Hv by exact Hi.
      apply Hdone in Eb as [y ->]; [|exact Hi]. reflexivity.
    + destruct (mp !! i) as [y|] eqn:Em; [|reflexivity].
      assert (Ht : bvbit done2 i = true) by (apply Hdone; eauto). congruence.
  - exact Hmap.
  - intros i y Hi. apply Hmp in Hi as (p & Hp & _). eauto.
Qed.
End hash.
