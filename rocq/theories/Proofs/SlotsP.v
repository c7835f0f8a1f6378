(** The ghost counter of Slots.v (C58). *)
From Verif.Model Require Import Slots Visits.
From Verif.Proofs Require Import NulP PresentP InstP InstMoreP InstNulP OomP VisitsP.
Local Open Scope N_scope.

(** ** Without the counter *)
Lemma counted_same {S R} (f : S -> outcome (S + R)) s : loop f s = let* r := counted_loop f s in Ret (fst r).
Proof.
  unfold counted_loop. change s with ((fun x : S * N => fst x) (s, 0)) at 1.
  apply (loop_sim (counted f) f (fun x : S * N => fst x) (fun r : R * N => fst r)).
  intros [x n]. unfold counted. cbn [fst snd]. destruct (f x) as [[]| | | |]; reflexivity.
Qed.
Lemma i_child_same dbg i (t : tT (i_trie dbg i)) v s :
  t_find_child (i_trie dbg i) t v s = let* r := i_find_child_s dbg i t v s in Ret (fst r).
Proof.
  destruct i as [[H mf|H P mf|H mf|H P mf] l].
  - change (pb_find_child t v s = let* r := pb_find_child_s t v s in Ret (fst r)). unfold pb_find_child, pb_find_child_s.
    destruct (assert_ (v <? _)) as [[]| | | |]; try reflexivity. cbn [bind].
    destruct (assert_ (s <? _)) as [[]| | | |]; try reflexivity. cbn [bind].
    destruct (pb_size t =? 0); [reflexivity|]. cbv zeta.
    destruct (assert_ _) as [[]| | | |]; try reflexivity. cbn [bind]. apply counted_same.
  - change (cb_find_child P t v s = let* r := cb_find_child_s P t v s in Ret (fst r)). unfold cb_find_child, cb_find_child_s. cbv zeta.
    destruct (assert_ (v <? _)) as [[]| | | |]; try reflexivity. cbn [bind].
    destruct (assert_ (s <? _)) as [[]| | | |]; try reflexivity. cbn [bind].
    destruct (cb_size t =? 0); [reflexivity|].
    destruct (hasher_hash _ _) as [x| | | |]; try reflexivity. cbn [bind]. destruct (dt_decompose _ x) as [q m]. apply counted_same.
  - change (pf_find_child t v s = let* r := pf_find_child_s t v s in Ret (fst r)). unfold pf_find_child, pf_find_child_s.
    destruct (assert_ (v <? _)) as [[]| | | |]; try reflexivity. cbn [bind].
    destruct (assert_ (s <? _)) as [[]| | | |]; try reflexivity. cbn [bind].
    destruct (pf_size t =? 0); [reflexivity|]. cbv zeta. apply counted_same.
  - change (cf_find_child P t v s = let* r := cf_find_child_s P t v s in Ret (fst r)). unfold cf_find_child, cf_find_child_s. cbv zeta.
    destruct (cf_size t =? 0); [reflexivity|].
    destruct (hasher_hash _ _) as [x| | | |]; try reflexivity. cbn [bind]. destruct (dt_decompose _ x) as [q m]. apply counted_same.
Qed.

Section same.
  Context (dbg : bool) (TO : trie_ops) (NO : nlm_ops) (fc : tT TO -> N -> N -> outcome (N * N)).
  Hypothesis Hfc : forall t v s, t_find_child TO t v s = let* r := fc t v s in Ret (fst r).

  Lemma find_steps_s_same lam t x mt c : find_steps TO lam t x mt = let* r := find_steps_s TO fc lam t x mt c in Ret (fst r).
  Proof.
    unfold find_steps, find_steps_s. change (x, mt) with ((fun s : N * N * N => fst s) (x, mt, c)).
    apply (loop_sim _ _ (fun s : N * N * N => fst s) (fun r : option (N * N) * N => fst r)). intros [[y m] s]. cbn [fst].
    destruct (lam <=? m); [|reflexivity]. rewrite Hfc. destruct (fc t y step_symb) as [[z d]| | | |]; try reflexivity. cbn [bind fst].
    destruct (z =? nil_id); reflexivity.
  Qed.
  Lemma find_s_same (m : map_st TO NO) k : map_find dbg TO NO m k = let* r := map_find_s dbg TO NO fc m k in Ret (fst r).
  Proof.
    unfold map_find, map_find_s. destruct (check_key k) as [[]| | | |]; try reflexivity. cbn [bind].
    destruct (_ || _); [reflexivity|]. destruct (t_get_root TO _) as [root| | | |]; try reflexivity. cbn [bind].
    change (root, k) with ((fun s : N * list N * N => fst s) (root, k, 0)).
    apply (loop_sim (find_body_s dbg TO NO fc m) _ (fun s : N * list N * N => fst s) (fun r : option ptr * N => fst r)).
    intros [[x key] c]. unfold find_body_s. cbn [fst]. destruct key as [|c0 key].
    { destruct (n_compare NO _ x []) as [[]| | | |]; reflexivity. }
    destruct (n_compare NO _ x (c0 :: key)) as [[[p|] mt]| | | |]; try reflexivity. cbn [bind]. cbv zeta.
    rewrite (find_steps_s_same _ _ x mt c). destruct (find_steps_s TO fc _ _ x mt c) as [[[[y mt']|] s]| | | |]; try reflexivity. cbn [bind fst].
    destruct (deref _) as [ch| | | |]; try reflexivity. cbn [bind].
    destruct (vget _ ch) as [code| | | |]; try reflexivity. cbn [bind].
    destruct (code =? 255); [reflexivity|]. destruct (make_symb dbg _ ch mt') as [symb| | | |]; try reflexivity. cbn [bind].
    rewrite Hfc. destruct (fc _ y symb) as [[z d]| | | |]; try reflexivity. cbn [bind fst]. destruct (z =? nil_id); reflexivity.
  Qed.
End same.

(** ** One search *)
Section probe.
  Context (M : N) (home : N -> N).
  Hypothesis HM : 0 < M.
  Hypothesis Hhome : forall k, home k < M.

  Lemma dist_count h d : h < M -> d <= M -> d <= countb (fun i => dist M h i <? d) M.
  Proof.
    intros Hh. induction d as [|d IH] using N.peano_ind; intros Hd; [lia|]. rewrite <- N.add_1_r in *.
    specialize (IH ltac:(lia)).
    rewrite (countb_upd (fun i => dist M h i <? d) _ M (slot M h d)); [lia| | | |].
    - apply slot_lt, HM.
    - rewrite dist_slot by (assumption || lia). apply N.ltb_irrefl.
    - rewrite dist_slot by (assumption || lia). apply N.ltb_lt. lia.
    - intros j Hj Hne. assert (Hs := slot_dist M HM h j Hh Hj).
      assert (dist M h j <> d) by (intros E; rewrite E in Hs; congruence).
      destruct (N.ltb_spec (dist M h j) (d + 1)), (N.ltb_spec (dist M h j) d); try reflexivity; lia.
  Qed.
  Lemma passed_count (c : N -> cell) h d : h < M -> d <= M -> (forall d', d' < d -> c (slot M h d') <> Vac) ->
    d <= countb (fun i => negb (is_vac (c i))) M.
  Proof.
    intros Hh Hd Hp. etransitivity; [apply (dist_count h d Hh Hd)|]. apply countb_mono. intros i Hi Hlt.
    apply N.ltb_lt in Hlt. specialize (Hp _ Hlt). rewrite (slot_dist M HM h i Hh Hi) in Hp.
    destruct (c i); [reflexivity|congruence|reflexivity].
  Qed.
  Lemma counted_probe {S R} (f : S -> outcome (S + R)) (st : N -> S) c k :
    M <= 2 ^ 64 -> pinv M home c -> (exists v, v < M /\ c v = Vac) ->
    (forall d, d < M -> c (slot M (home k) d) <> Vac -> c (slot M (home k) d) <> Full k -> f (st d) = Ret (inl (st (d + 1)))) ->
    (forall d, d < M -> c (slot M (home k) d) = Vac \/ c (slot M (home k) d) = Full k -> exists r, f (st d) = Ret (inr r)) ->
    exists r n, counted_loop f (st 0) = Ret (r, n) /\ 1 <= n <= countb (fun i => negb (is_vac (c i))) M + 1.
  Proof.
    intros HM64 Hp Hv Hstep Hend.
    destruct (probe_loop M home HM Hhome (counted f) (fun d => (st d, d)) c k HM64 Hp Hv) as (d & Hd & Hpr & Hc & Hl).
    { intros d Hd H1 H2. unfold counted. cbn [fst snd]. rewrite (Hstep d Hd H1 H2). reflexivity. }
    destruct (Hend d Hd) as [r E]; [destruct Hc as [Hc|[Hc _]]; [right|left]; exact Hc|].
    assert (Ef : counted f (st d, d) = Ret (inr (r, d + 1))) by (unfold counted; cbn [fst snd]; rewrite E; reflexivity).
    exists r, (d + 1). split.
    - unfold counted_loop. rewrite Hl; rewrite Ef; [reflexivity|intros x; discriminate].
    - split; [lia|]. apply N.add_le_mono_r. apply (passed_count c (home k) d (Hhome k)); [lia|]. intros d' Hd'. apply (Hpr d' Hd').
  Qed.
End probe.

(** ** The four tries *)
Lemma pb_slots {HF : plain_hasher} mf b sb t loc p v s : pb_rep mf b sb t loc -> loc !! p = Some v -> s < 2 ^ sb ->
  exists r n, pb_find_child_s t v s = Ret (r, n) /\ 1 <= n <= pb_size t + 2.
Proof.
  intros H Hp Hs. destruct (pb_loc_bounds mf b sb t loc H p v Hp) as [Hv1 Hv2]. unfold pb_find_child_s.
  rewrite (pb_capa_size mf b sb t loc H), (pb_symb_size mf b sb t loc H). rewrite !assert_true by (apply N.ltb_lt; lia || assumption).
  rewrite !bind_ret, (pb_size_nz mf b sb t loc H). cbv zeta. rewrite (pb_mkey mf b sb t loc H) by (lia || assumption).
  rewrite assert_true by (apply (pb_key_pos sb); lia || assumption). rewrite bind_ret, (pb_init mf b sb t loc H).
  match goal with |- context [counted_loop ?g _] => set (f := g) end.
  destruct (counted_probe (2 ^ b) (vhome b) (pb_Mpos b) (vhome_lt b) f
    (fun d => slot (2 ^ b) (vhome b (ekey sb v s)) d) (pb_cell (pb_table t)) (ekey sb v s) (pb_M64 mf b sb t loc H)
    (tr_pinv _ _ _ _ _ _ _ (pr_trep _ _ _ _ _ H)) (pb_vacancy mf b sb t loc H)) as (r & n & E & Hn).
  - intros d Hd H1 H2. unfold f. rewrite (pb_pass mf b sb t loc H N (fun _ => Ret (inr nil_id)) (fun i => Ret (inr i))); auto.
    + rewrite (pb_right mf b sb t loc H). reflexivity.
    + apply slot_lt, pb_Mpos.
  - intros d Hd Hc. assert (Hlt := slot_lt (2 ^ b) (pb_Mpos b) (vhome b (ekey sb v s)) d). destruct Hc as [Hc|Hc].
    + exists nil_id. exact (pb_vac mf b sb t loc H N (fun _ => Ret (inr nil_id)) (fun i => Ret (inr i)) (ekey sb v s) _ Hlt Hc).
    + eexists. exact (pb_hit mf b sb t loc H N (fun _ => Ret (inr nil_id)) (fun i => Ret (inr i)) _ _ Hlt Hc).
  - exists r, n. split; [exact E|]. rewrite (pr_cnt _ _ _ _ _ H) in Hn. lia.
Qed.
Lemma pf_slots {HF : plain_hasher} dbg mf b sb t loc p v s : pf_rep dbg mf b sb t loc -> loc !! p = Some v -> s < 2 ^ sb ->
  exists r n, pf_find_child_s t v s = Ret (r, n) /\ 1 <= n <= pf_size t.
Proof.
  intros H Hp Hs. pose proof (pf_id_lt dbg mf b sb t loc H p v Hp) as Hv. pose proof (PlainFkP.fr_shape _ _ _ _ _ _ H) as Hsh.
  pose proof (PlainFkP.fr_trep _ _ _ _ _ _ H) as Htr.
  unfold pf_find_child_s. rewrite (pf_capa_size mf b sb t Hsh), (pf_symb_size mf b sb t Hsh).
  rewrite !assert_true by (apply N.ltb_lt; assumption). rewrite !bind_ret.
  rewrite (proj2 (N.eqb_neq (pf_size t) 0)) by (pose proof (fr_cnt _ _ _ _ _ _ H); lia). cbv zeta.
  rewrite (pf_mkey mf b sb t Hsh) by assumption. rewrite (pf_init mf b sb t Hsh).
  match goal with |- context [counted_loop ?g _] => set (f := g) end.
  set (k := ekey sb v s) in *.
  assert (Hf : forall i, i < 2 ^ b -> f i = match pf_cell t i with
    | Vac => Ret (inr nil_id)
    | Full k' => if k' =? k then Ret (inr (pf_id t i)) else Ret (inl (right_of (pf_capa t) i))
    | Skip => UB end).
  { intros i Hi. exact (pf_case mf b sb t Hsh N (fun _ _ => Ret (inr nil_id)) (fun x _ => Ret (inr x)) k i Hi). }
  destruct (counted_probe (2 ^ b) (vhome b) (pow2_pos b) (vhome_lt b) f
    (fun d => slot (2 ^ b) (vhome b k) d) (pf_cell t) k (pf_M64 mf b sb t Hsh)
    (tr_pinv _ _ _ _ _ _ _ Htr) (pf_vac dbg mf b sb t loc H)) as (r & n & E & Hn).
  - intros d Hd H1 H2. rewrite Hf by (apply slot_lt, pow2_pos).
    unfold pf_cell in *. destruct (N.eqb_spec (cv_val (pf_ids t) (slot (2 ^ b) (vhome b k) d)) 0); [congruence|].
    rewrite (proj2 (N.eqb_neq _ k)) by congruence. rewrite (pf_right mf b sb t Hsh). reflexivity.
  - intros d Hd Hc. assert (Hlt := slot_lt (2 ^ b) (pow2_pos b) (vhome b k) d). rewrite Hf by exact Hlt.
    destruct Hc as [Hc|Hc]; rewrite Hc; [eauto|]. rewrite N.eqb_refl. eauto.
  - exists r, n. split; [exact E|]. rewrite (countb_ext _ (fun i => is_full (pf_cell t i))) in Hn.
    + pose proof (fr_cnt _ _ _ _ _ _ H). lia.
    + intros i _. unfold pf_cell. destruct (_ =? _); reflexivity.
Qed.
Lemma cb_slots {HT : trie_hashers} {HO : th_ok HT} P (HP : dp_ok P) mf b sb t loc p v s : cb_rep P mf b sb t loc ->
  loc !! p = Some v -> s < 2 ^ sb -> exists r n, cb_find_child_s P t v s = Ret (r, n) /\ 1 <= n <= cb_size t + 1.
Proof.
  intros (mc & ms & H) Hp Hs. pose proof (cb_loc_bounds P mf b sb t mc ms loc H p v Hp) as Hv.
  pose proof (dr_shape _ _ _ _ _ _ (xs_rep _ _ _ _ _ _ _ (xr_shape _ _ _ _ _ _ _ _ H))) as Hds.
  unfold cb_find_child_s. cbv zeta.
  rewrite (cb_capa_size P mf b sb t mc ms loc H), (cb_symb_size P mf b sb t mc ms loc H). rewrite !assert_true by (apply N.ltb_lt; assumption).
  rewrite !bind_ret, (cb_size_nz P mf b sb t mc ms loc H), (cb_mkey P mf b sb t mc ms loc H) by assumption.
  set (k := ekey sb v s). assert (Hk : k < 2 ^ (b + sb)) by (apply ekey_lt; assumption).
  destruct (dt_decompose_ok P b sb (cb_dt t) k Hds Hk) as [Eh Ed]. rewrite Eh, bind_ret, Ed.
  match goal with |- context [counted_loop ?g _] => set (f := g) end.
  set (cl := cb_cell P b sb mc ms (dt_table (cb_dt t))).
  assert (Hstep : forall e, e < 2 ^ b -> f (slot (2 ^ b) (chome b sb k) e, e + 1) =
    match cl (slot (2 ^ b) (chome b sb k) e) with
    | Vac => Ret (inr nil_id)
    | Full k' => if k' =? k then Ret (inr (slot (2 ^ b) (chome b sb k) e)) else Ret (inl (slot (2 ^ b) (chome b sb k) (e + 1), e + 1 + 1))
    | Skip => Ret (inl (slot (2 ^ b) (chome b sb k) (e + 1), e + 1 + 1)) end).
  { intros e He. exact (cb_step P HP mf b sb t mc ms loc H N (fun _ _ => Ret (inr nil_id)) (fun i => Ret (inr i)) k e Hk He). }
  destruct (counted_probe (2 ^ b) (chome b sb) (cb_Mpos b) (chome_lt b sb) f
    (fun e => (slot (2 ^ b) (chome b sb k) e, e + 1)) cl k (cb_M64 P mf b sb t mc ms loc H)
    (tr_pinv _ _ _ _ _ _ _ (xr_trep _ _ _ _ _ _ _ _ H)) (cb_vacancy P mf b sb t mc ms loc H)) as (r & n & E & Hn).
  - intros e He H1 H2. rewrite Hstep by exact He. destruct (cl _) as [| |k']; [reflexivity|congruence|].
    destruct (N.eqb_spec k' k) as [->|]; [congruence|reflexivity].
  - intros e He Hc. rewrite Hstep by exact He. destruct Hc as [Hc|Hc]; rewrite Hc; [eauto|]. rewrite N.eqb_refl. eauto.
  - exists r, n. rewrite slot_0 in E by apply chome_lt. split; [exact E|].
    unfold cl in Hn. rewrite (xr_cnt _ _ _ _ _ _ _ _ H) in Hn. exact Hn.
Qed.
Lemma cf_slots {HT : trie_hashers} {HO : th_ok HT} P (HP : dp_ok P) mf b sb t loc p v s : cf_rep P mf b sb t loc ->
  loc !! p = Some v -> s < 2 ^ sb -> exists r n, cf_find_child_s P t v s = Ret (r, n) /\ 1 <= n <= cf_size t.
Proof.
  intros (mc & ms & H) Hp Hs. pose proof (cf_id_lt P mf b sb t mc ms loc H p v Hp) as Hv.
  pose proof (yr_shape _ _ _ _ _ _ _ _ H) as Hsh. pose proof (yr_trep _ _ _ _ _ _ _ _ H) as Htr.
  pose proof (dr_shape _ _ _ _ _ _ (ys_rep _ _ _ _ _ _ _ Hsh)) as Hds.
  unfold cf_find_child_s. cbv zeta.
  rewrite (proj2 (N.eqb_neq (cf_size t) 0)) by (pose proof (yr_cnt _ _ _ _ _ _ _ _ H); lia).
  rewrite (cf_mkey P mf b sb t mc ms Hsh) by assumption.
  set (k := ekey sb v s). assert (Hk : k < 2 ^ (b + sb)) by (apply ekey_lt; assumption).
  destruct (dt_decompose_ok P b sb (cf_dt t) k Hds Hk) as [Eh Ed]. rewrite Eh, bind_ret, Ed.
  match goal with |- context [counted_loop ?g _] => set (f := g) end.
  set (cl := cf_cell P b sb mc ms t).
  assert (Hstep : forall e, e < 2 ^ b -> f (slot (2 ^ b) (chome b sb k) e, e) =
    match cl (slot (2 ^ b) (chome b sb k) e) with
    | Vac => Ret (inr nil_id)
    | Full k' => if k' =? k then Ret (inr (cf_id t (slot (2 ^ b) (chome b sb k) e))) else Ret (inl (slot (2 ^ b) (chome b sb k) (e + 1), e + 1))
    | Skip => UB end).
  { intros e He. exact (cf_step P HP mf b sb t mc ms Hsh N (fun _ _ => Ret (inr nil_id)) (fun i => Ret (inr i)) k e Hk He). }
  destruct (counted_probe (2 ^ b) (chome b sb) (pow2_pos b) (chome_lt b sb) f
    (fun e => (slot (2 ^ b) (chome b sb k) e, e)) cl k (cf_M64 P mf b sb t mc ms Hsh)
    (tr_pinv _ _ _ _ _ _ _ Htr) (cf_vac P mf b sb t mc ms loc H)) as (r & n & E & Hn).
  - intros e He H1 H2. rewrite Hstep by exact He.
    assert (Hns : cl (slot (2 ^ b) (chome b sb k) e) <> Skip) by (unfold cl, cf_cell; destruct (_ =? _); discriminate).
    destruct (cl _) as [| |k']; [congruence|congruence|].
    destruct (N.eqb_spec k' k) as [->|]; [congruence|reflexivity].
  - intros e He Hc. rewrite Hstep by exact He. destruct Hc as [Hc|Hc]; rewrite Hc; [eauto|]. rewrite N.eqb_refl. eauto.
  - exists r, n. rewrite slot_0 in E by apply chome_lt. split; [exact E|].
    rewrite (countb_ext _ (fun i => is_full (cl i))) in Hn.
    + pose proof (yr_cnt _ _ _ _ _ _ _ _ H) as Hct. fold cl in Hct. lia.
    + intros i _. unfold cl, cf_cell. destruct (_ =? _); reflexivity.
Qed.

(** ** Any instantiation *)
Definition i_extra (i : inst) : N :=
  match i_t i with T_plain_bonsai _ _ => 2 | T_compact_bonsai _ _ _ => 1 | _ => 0 end.
Definition pack_slots {dbg vs i e B0 T} (K : ipack dbg vs i e B0 T) : Prop :=
  forall b t n loc lab p v s, ip_srep _ _ _ _ _ _ K b t n loc lab -> loc !! p = Some v -> s < 2 ^ (8 + e) ->
  exists r c, i_find_child_s dbg i t v s = Ret (r, c) /\ 1 <= c <= t_size _ t + i_extra i.

Lemma inst_pack_slots dbg vs i e B0 T : valid_inst i -> (1 <= vs)%nat -> 16 <= B0 -> T <= node_limit (i_mf i) (8 + e) ->
  exists K : ipack dbg vs i e B0 T, pack_slots K.
Proof.
  intros Hv Hvs HB HT. pose proof (proj1 Hv) as Hmf. pose proof (valid_dp i) as HP.
  destruct i as [[H mf|H P mf|H mf|H P mf] [c|]]; cbn [i_mf i_par i_t] in *; try pose proof (valid_th H (proj2 (proj2 Hv))) as HTO; try specialize (HP P Hv eq_refl).
  - refine (ex_intro _ (mkIPack dbg vs (mkInst (T_plain_bonsai H mf) (Some c)) e B0 T _ _ _ (bonsai_store_ok (pb_ops mf) (cbn_ops (cs_val c) vs) _ mf (8 + e) _ _ _ _ _ (pb_ok mf (8 + e) Hmf _ T B0 HT (sb_pos e))
      (cbn_ok (cs_val c) vs (chunk_width c)))) _).
    intros b t n loc lab p v s (R & _) Hp Hs. exact (pb_slots mf b (8 + e) t loc p v s R Hp Hs).
  - refine (ex_intro _ (mkIPack dbg vs (mkInst (T_plain_bonsai H mf) None) e B0 T _ _ _ (bonsai_store_ok (pb_ops mf) (pbn_ops vs) _ mf (8 + e) _ _ _ _ _ (pb_ok mf (8 + e) Hmf _ T B0 HT (sb_pos e)) (pbn_ok vs))) _).
    intros b t n loc lab p v s (R & _) Hp Hs. exact (pb_slots mf b (8 + e) t loc p v s R Hp Hs).
  - refine (ex_intro _ (mkIPack dbg vs (mkInst (T_compact_bonsai H P mf) (Some c)) e B0 T _ _ _ (bonsai_store_ok (cb_ops P mf) (cbn_ops (cs_val c) vs) _ mf (8 + e) _ _ _ _ _ (cb_ok P HP mf (8 + e) Hmf B0 T HB HT)
      (cbn_ok (cs_val c) vs (chunk_width c)))) _).
    intros b t n loc lab p v s ((_ & R) & _) Hp Hs. exact (cb_slots P HP mf b (8 + e) t loc p v s R Hp Hs).
  - refine (ex_intro _ (mkIPack dbg vs (mkInst (T_compact_bonsai H P mf) None) e B0 T _ _ _ (bonsai_store_ok (cb_ops P mf) (pbn_ops vs) _ mf (8 + e) _ _ _ _ _ (cb_ok P HP mf (8 + e) Hmf B0 T HB HT) (pbn_ok vs))) _).
    intros b t n loc lab p v s ((_ & R) & _) Hp Hs. exact (cb_slots P HP mf b (8 + e) t loc p v s R Hp Hs).
  - refine (ex_intro _ (mkIPack dbg vs (mkInst (T_plain_fkhash H mf) (Some c)) e B0 T _ _ _ (fkhash_store_ok (pf_ops dbg mf) (cfn_ops (cs_val c) vs) _ mf (8 + e) dbg _ _ _ _ _ Hmf (pf_ok mf (8 + e) Hmf _ T B0 dbg HT)
      (cfn_ok (cs_val c) vs (chunk_width c) Hvs))) _).
    intros b t n loc lab p v s [[R _] _] Hp Hs. destruct (pf_slots dbg mf b (8 + e) t loc p v s R Hp Hs) as (r & k & E & Hk).
    exists r, k. split; [exact E|]. change (1 <= k <= pf_size t + 0). lia.
  - refine (ex_intro _ (mkIPack dbg vs (mkInst (T_plain_fkhash H mf) None) e B0 T _ _ _ (fkhash_store_ok (pf_ops dbg mf) (pfn_ops vs) _ mf (8 + e) dbg _ _ _ _ _ Hmf (pf_ok mf (8 + e) Hmf _ T B0 dbg HT) (pfn_ok vs))) _).
    intros b t n loc lab p v s [[R _] _] Hp Hs. destruct (pf_slots dbg mf b (8 + e) t loc p v s R Hp Hs) as (r & k & E & Hk).
    exists r, k. split; [exact E|]. change (1 <= k <= pf_size t + 0). lia.
  - refine (ex_intro _ (mkIPack dbg vs (mkInst (T_compact_fkhash H P mf) (Some c)) e B0 T _ _ _ (fkhash_store_ok (cf_ops P mf) (cfn_ops (cs_val c) vs) _ mf (8 + e) false _ _ _ _ _ Hmf (cf_ok P HP mf (8 + e) Hmf B0 T HB HT)
      (cfn_ok (cs_val c) vs (chunk_width c) Hvs))) _).
    intros b t n loc lab p v s [[(_ & R) _] _] Hp Hs. destruct (cf_slots P HP mf b (8 + e) t loc p v s R Hp Hs) as (r & k & E & Hk).
    exists r, k. split; [exact E|]. change (1 <= k <= cf_size t + 0). lia.
  - refine (ex_intro _ (mkIPack dbg vs (mkInst (T_compact_fkhash H P mf) None) e B0 T _ _ _ (fkhash_store_ok (cf_ops P mf) (pfn_ops vs) _ mf (8 + e) false _ _ _ _ _ Hmf (cf_ok P HP mf (8 + e) Hmf B0 T HB HT) (pfn_ok vs))) _).
    intros b t n loc lab p v s [[(_ & R) _] _] Hp Hs. destruct (cf_slots P HP mf b (8 + e) t loc p v s R Hp Hs) as (r & k & E & Hk).
    exists r, k. split; [exact E|]. change (1 <= k <= cf_size t + 0). lia.
Qed.

(** ** The walk of find, with the counters of Visits.v too *)
Section walk.
  Context (dbg : bool) (TO : trie_ops) (NO : nlm_ops) (fc : tT TO -> N -> N -> outcome (N * N)).
  Hypothesis Hfc : forall t v s, t_find_child TO t v s = let* r := fc t v s in Ret (fst r).

  Definition find_steps_p (lambda : N) (t : tT TO) (node_id mtch s : N) : outcome (option (N * N) * N * N) :=
    loop (fun st : N * N * N * N =>
      let '(node_id, mtch, s, k) := st in
      if lambda <=? mtch then
        let* r := fc t node_id step_symb in
        let '(node_id, c) := r in
        if node_id =? nil_id then Ret (inr (None, s + c, k + 1))
        else Ret (inl (node_id, sub64 mtch lambda, s + c, k + 1))
      else Ret (inr (Some (node_id, mtch), s, k))) (node_id, mtch, s, 0).
  Definition find_body_p (m : map_st TO NO) (st : N * list N * N * visits)
    : outcome (N * list N * N * visits + option ptr * N * visits) :=
    let '(node_id, key, s, v) := st in
    let v := mkVisits (v_labels v + 1) (v_edges v) (v_steps v) in
    match key with
    | [] => let* r := n_compare NO (m_nlm _ _ m) node_id key in Ret (inr (fst r, s, v))
    | _ =>
        let* r := n_compare NO (m_nlm _ _ m) node_id key in
        let '(vptr, mtch) := r in
        match vptr with
        | Some p => Ret (inr (Some p, s, v))
        | None =>
            let key := advance key mtch in
            let* r := find_steps_p (m_lambda _ _ m) (m_trie _ _ m) node_id mtch s in
            let '(o, s, k) := r in
            let v := mkVisits (v_labels v) (v_edges v) (v_steps v + k) in
            match o with
            | None => Ret (inr (None, s, v))
            | Some (node_id, mtch) =>
                let* c := deref key in
                let* code := vget (m_codes _ _ m) c in
                if code =? 255 then Ret (inr (None, s, v))
                else
                  let* symb := make_symb dbg (m_codes _ _ m) c mtch in
                  let* r := fc (m_trie _ _ m) node_id symb in
                  let '(node_id, c) := r in
                  let v := mkVisits (v_labels v) (v_edges v + 1) (v_steps v) in
                  if node_id =? nil_id then Ret (inr (None, s + c, v))
                  else Ret (inl (node_id, advance key 1, s + c, v))
            end
        end
    end.
  Definition map_find_p (m : map_st TO NO) (key : list N) : outcome (option ptr * N * visits) :=
    let* _ := check_key key in
    if negb (m_ready _ _ m) || (t_size TO (m_trie _ _ m) =? 0) then Ret (None, 0, mkVisits 0 0 0)
    else
      let* root := t_get_root TO (m_trie _ _ m) in
      loop (find_body_p m) (root, key, 0, mkVisits 0 0 0).

  Lemma steps_p_s lam t x mt c : find_steps_s TO fc lam t x mt c = let* r := find_steps_p lam t x mt c in Ret (fst r).
  Proof.
    unfold find_steps_p, find_steps_s. change (x, mt, c) with ((fun s : N * N * N * N => fst s) (x, mt, c, 0)).
    apply (loop_sim _ _ (fun s : N * N * N * N => fst s) (fun r : option (N * N) * N * N => fst r)). intros [[[y m] s] k]. cbn [fst].
    destruct (lam <=? m); [|reflexivity]. destruct (fc t y step_symb) as [[z d]| | | |]; try reflexivity. cbn [bind fst].
    destruct (z =? nil_id); reflexivity.
  Qed.
  Lemma steps_p_v lam t x mt c : find_steps_v TO lam t x mt = let* r := find_steps_p lam t x mt c in Ret (fst (fst r), snd r).
  Proof.
    unfold find_steps_p, find_steps_v. change (x, mt, 0) with ((fun s : N * N * N * N => (fst (fst s), snd s)) (x, mt, c, 0)).
    apply (loop_sim _ _ (fun s : N * N * N * N => (fst (fst s), snd s)) (fun r : option (N * N) * N * N => (fst (fst r), snd r))).
    intros [[[y m] s] k]. cbn [fst snd].
    destruct (lam <=? m); [|reflexivity]. rewrite Hfc. destruct (fc t y step_symb) as [[z d]| | | |]; try reflexivity. cbn [bind fst].
    destruct (z =? nil_id); reflexivity.
  Qed.
  Lemma find_p_s (m : map_st TO NO) k : map_find_s dbg TO NO fc m k = let* r := map_find_p m k in Ret (fst r).
  Proof.
    unfold map_find_p, map_find_s. destruct (check_key k) as [[]| | | |]; try reflexivity. cbn [bind].
    destruct (_ || _); [reflexivity|]. destruct (t_get_root TO _) as [root| | | |]; try reflexivity. cbn [bind].
    change (root, k, 0) with ((fun s : N * list N * N * visits => fst s) (root, k, 0, mkVisits 0 0 0)).
    apply (loop_sim (find_body_p m) _ (fun s : N * list N * N * visits => fst s) (fun r : option ptr * N * visits => fst r)).
    intros [[[x key] c] v]. unfold find_body_s, find_body_p. cbn [fst]. destruct key as [|c0 key].
    { destruct (n_compare NO _ x []) as [[]| | | |]; reflexivity. }
    destruct (n_compare NO _ x (c0 :: key)) as [[[p|] mt]| | | |]; try reflexivity. cbn [bind]. cbv zeta.
    rewrite (steps_p_s _ _ x mt c). destruct (find_steps_p _ _ x mt c) as [[[[[y mt']|] s] k']| | | |]; try reflexivity. cbn [bind fst].
    destruct (deref _) as [ch| | | |]; try reflexivity. cbn [bind].
    destruct (vget _ ch) as [code| | | |]; try reflexivity. cbn [bind].
    destruct (code =? 255); [reflexivity|]. destruct (make_symb dbg _ ch mt') as [symb| | | |]; try reflexivity. cbn [bind].
    destruct (fc _ y symb) as [[z d]| | | |]; try reflexivity. cbn [bind fst]. destruct (z =? nil_id); reflexivity.
  Qed.
  Lemma find_p_v (m : map_st TO NO) k : map_find_v dbg TO NO m k = let* r := map_find_p m k in Ret (fst (fst r), snd r).
  Proof.
    unfold map_find_p, map_find_v. destruct (check_key k) as [[]| | | |]; try reflexivity. cbn [bind].
    destruct (_ || _); [reflexivity|]. destruct (t_get_root TO _) as [root| | | |]; try reflexivity. cbn [bind].
    change (root, k, mkVisits 0 0 0) with ((fun s : N * list N * N * visits => (fst (fst s), snd s)) (root, k, 0, mkVisits 0 0 0)).
    apply (loop_sim (find_body_p m) _ (fun s : N * list N * N * visits => (fst (fst s), snd s))
      (fun r : option ptr * N * visits => (fst (fst r), snd r))).
    intros [[[x key] c] v]. unfold find_body_v, find_body_p. cbn [fst snd]. destruct key as [|c0 key].
    { destruct (n_compare NO _ x []) as [[]| | | |]; reflexivity. }
    destruct (n_compare NO _ x (c0 :: key)) as [[[p|] mt]| | | |]; try reflexivity. cbn [bind]. cbv zeta.
    rewrite (steps_p_v _ _ x mt c). destruct (find_steps_p _ _ x mt c) as [[[[[y mt']|] s] k']| | | |]; try reflexivity. cbn [bind fst snd].
    destruct (deref _) as [ch| | | |]; try reflexivity. cbn [bind].
    destruct (vget _ ch) as [code| | | |]; try reflexivity. cbn [bind].
    destruct (code =? 255); [reflexivity|]. destruct (make_symb dbg _ ch mt') as [symb| | | |]; try reflexivity. cbn [bind].
    rewrite Hfc. destruct (fc _ y symb) as [[z d]| | | |]; try reflexivity. cbn [bind fst snd]. destruct (z =? nil_id); reflexivity.
  Qed.

  Context (t : tT TO) (loc : locmap) (e B : N).
  Hypothesis Hchild : forall p v s, loc !! p = Some v -> s < 2 ^ (8 + e) ->
    exists r c, fc t v s = Ret (r, c) /\ 1 <= c <= B /\ (r <> nil_id -> loc !! (s :: p) = Some r).
  Hypothesis He : e <= 39.

  Lemma step_lt : step_symb < 2 ^ (8 + e).
  Proof. apply N.lt_le_trans with (2 ^ 8); [reflexivity|apply pow2_le; clear; lia]. Qed.
  Lemma find_steps_slots x mt s0 r s k : (exists p, loc !! p = Some x) ->
    find_steps_p (2 ^ e) t x mt s0 = Ret (r, s, k) ->
    s0 + k <= s <= s0 + B * k /\ match r with Some (y, mt') => mt' < 2 ^ e /\ exists p, loc !! p = Some y | None => True end.
  Proof.
    intros Hx. unfold find_steps_p. intros H.
    apply (loop_ret _ (fun '(y, m, s, k) => s0 + k <= s <= s0 + B * k /\ exists p, loc !! p = Some y)
      (fun '(r, s, k) => s0 + k <= s <= s0 + B * k /\ match r with Some (y, mt') => mt' < 2 ^ e /\ exists p, loc !! p = Some y | None => True end)) in H;
      [exact H|split; [clear; lia|exact Hx]|].
    intros [[[y m] c] k1] (Hs & p & Hp). destruct (N.leb_spec (2 ^ e) m) as [Hle|Hlt].
    - destruct (Hchild p y step_symb Hp step_lt) as (z & d & E & Hd & Hz). rewrite E, bind_ret.
      assert (Hb : s0 + (k1 + 1) <= c + d <= s0 + B * (k1 + 1)) by (clear -Hs Hd; lia).
      destruct (N.eqb_spec z nil_id) as [_|Hn]; [split; [exact Hb|exact I]|]. split; [exact Hb|]. eauto.
    - split; [exact Hs|]. split; [exact Hlt|]. eauto.
  Qed.

  Lemma find_slots (m : map_st TO NO) S root k r n v : m_trie _ _ m = t -> m_lambda _ _ m = 2 ^ e ->
    codes_ok (m_codes _ _ m) (m_num_codes _ _ m) S -> t_get_root TO t = Ret root -> (exists p, loc !! p = Some root) ->
    map_find_p m k = Ret (r, n, v) -> v_edges v + v_steps v <= n <= B * (v_edges v + v_steps v).
  Proof.
    intros Et El HS Er Hroot. unfold map_find_p. intros H. apply bind_inv in H as (u0 & _ & H). destruct (_ || _).
    { injection H as _ <- <-. cbn [v_edges v_steps]. clear; lia. }
    rewrite Et, Er, bind_ret in H.
    apply (loop_ret _ (fun '(x, _, s, v) => (exists p, loc !! p = Some x) /\ v_edges v + v_steps v <= s <= B * (v_edges v + v_steps v))
      (fun '(_, s, v) => v_edges v + v_steps v <= s <= B * (v_edges v + v_steps v))) in H;
      [exact H|split; [exact Hroot|cbn [v_edges v_steps]; clear; lia]|].
    intros [[[x key] c] w] (Hx & Hs). unfold find_body_p. rewrite Et, El.
    destruct key as [|c0 key].
    { destruct (n_compare NO _ x []) as [[]| | | |]; cbn [bind]; try exact I. exact Hs. }
    set (key' := c0 :: key) in *. destruct (n_compare NO _ x key') as [[[p|] mt]| | | |] eqn:Ec; cbn [bind]; try exact I.
    { exact Hs. }
    cbv zeta. cbn [v_labels v_edges v_steps].
    destruct (find_steps_p (2 ^ e) t x mt c) as [[[s' s] k']| | | |] eqn:Es; cbn [bind]; try exact I.
    apply find_steps_slots in Es; [|exact Hx]. destruct Es as [Es Hy].
    assert (Hs1 : v_edges w + (v_steps w + k') <= s <= B * (v_edges w + (v_steps w + k'))) by (clear -Hs Es; lia).
    destruct s' as [[y mt']|]; [|exact Hs1]. destruct Hy as [Hmt' [p Hp]].
    destruct (deref (advance key' mt)) as [ch| | | |] eqn:Ed; cbn [bind]; try exact I.
    destruct (vget _ ch) as [code| | | |] eqn:Eg; cbn [bind]; try exact I.
    destruct (N.eqb_spec code 255) as [_|Hne]; [exact Hs1|].
    assert (Hch : ch < 256).
    { unfold vget in Eg. rewrite (co_len _ _ _ HS) in Eg. destruct (N.ltb_spec ch 256) as [Hch|]; [exact Hch|discriminate Eg]. }
    rewrite vget_ok in Eg by (rewrite (co_len _ _ _ HS); exact Hch). injection Eg as Eg.
    assert (Hin : ch ∈ S).
    { destruct (decide (ch ∈ S)) as [|Hn]; [assumption|]. pose proof (co_out _ _ _ HS ch Hch Hn) as Ho. congruence. }
    pose proof (make_symb_ok e _ _ S HS dbg (N.to_nat mt') ch Hin He) as Em.
    rewrite N2Nat.id, N.mod_small in Em by exact Hmt'. rewrite Em, bind_ret.
    destruct (Hchild p y _ Hp (esym_lt e _ _ S HS (N.to_nat mt') ch Hin He)) as (z & d & E & Hd & Hz). rewrite E, bind_ret.
    assert (Hs2 : v_edges w + 1 + (v_steps w + k') <= s + d <= B * (v_edges w + 1 + (v_steps w + k'))) by (clear -Hs1 Hd; lia).
    destruct (N.eqb_spec z nil_id) as [_|Hn]; [exact Hs2|]. split; [eauto|exact Hs2].
  Qed.
End walk.

Lemma i_slots_reach dbg vs i cb e T (K : ipack dbg vs i e (N.max 16 cb) T) ops m : valid_inst i ->
  i_supported vs i cb e (updated ops) -> nodes_for e (updated ops) + 2 <= T -> Forall (valid_op vs) ops ->
  i_no_trap dbg i (updated ops) -> i_reaches dbg vs i cb e ops m ->
  exists S D b loc, minv (i_trie dbg i) (i_nlm vs i) e (ip_srep _ _ _ _ _ _ K) (ip_sfresh _ _ _ _ _ _ K) m S D (final vs ops) b loc.
Proof.
  intros Hvi Hsup HT Hv Hnt (m0 & xs & Hnew & Hrun). pose proof (ip_ok _ _ _ _ _ _ K) as PK.
  destruct (i_supported_limit _ _ _ _ _ Hvi Hsup) as (He & Hcb & Hroom & _).
  pose proof (proj1 Hvi) as Hmf. destruct Hsup as (Hvs & Hcb' & Hn & HA).
  destruct (map_new_ok _ _ _ _ _ _ _ _ _ _ PK He cb Hcb) as (m1 & E & Hf); [reflexivity|].
  assert (m1 = m0) as -> by (unfold i_new in Hnew; congruence).
  apply (mfresh_minv _ _ e (ip_srep _ _ _ _ _ _ K) (ip_sfresh _ _ _ _ _ _ K)) in Hf.
  pose proof (run_ok dbg _ _ _ _ e _ _ _ _ _ PK He Hmf ops m0 {[ 0 ]} ∅ ∅ _ ∅ (alphabet (updated ops)) Hf) as Hok.
  rewrite i_vs in Hok. specialize (Hok Hv (i_no_trap_forall _ _ _ Hnt) ltac:(unfold alphabet; set_solver) ltac:(reflexivity) HA).
  cbn [i_lim l_max] in Hok. rewrite dom_empty_L, union_empty_l_L in Hok. unfold nodes_for in HT. specialize (Hok ltac:(clear -HT; lia)).
  unfold i_run in Hrun. rewrite Hrun in Hok. destruct Hok as (_ & S & D & b & loc & Hb & Hi & _).
  exists S, D, b, loc. exact Hi.
Qed.
Lemma i_find_slots dbg vs i cb e ops m k : valid_inst i ->
  i_supported vs i cb e (updated ops) -> Forall (valid_op vs) ops -> i_no_trap dbg i (updated ops) ->
  i_reaches dbg vs i cb e ops m -> valid_key k -> N.of_nat (length k) < 2 ^ 64 ->
  exists r n v, i_find dbg vs i m k = Ret r /\ i_find_s dbg vs i m k = Ret (r, n) /\ i_find_v dbg vs i m k = Ret (r, v) /\
    v_edges v + v_steps v <= n <= (i_nodes dbg vs i m + i_extra i) * (v_edges v + v_steps v) /\
    2 ^ e * v_steps v + v_edges v <= N.of_nat (length k).
Proof.
  intros Hvi Hsup Hv Hnt Hr Hk Hlen. pose proof (proj1 Hsup) as Hvs.
  destruct (i_supported_limit _ _ _ _ _ Hvi Hsup) as (He & _ & Hroom & _).
  destruct (inst_pack_slots dbg vs i e (N.max 16 cb) (nodes_for e (updated ops) + 2) Hvi Hvs ltac:(clear; lia) ltac:(clear -Hroom; lia)) as [K HK].
  destruct (i_slots_reach dbg vs i cb e _ K ops m Hvi Hsup ltac:(clear; lia) Hv Hnt Hr) as (S & D & b & loc & Hi).
  pose proof (ip_ok _ _ _ _ _ _ K) as PK. destruct (valid_okey k Hk) as [Hok Hb].
  pose proof (minv_find dbg _ _ _ _ e _ _ _ _ _ PK He m S D _ b loc k Hi Hok Hb Hlen) as H.
  pose proof (find_same dbg _ (i_nlm vs i) m k) as E.
  pose proof (find_p_s dbg _ (i_nlm vs i) (i_find_child_s dbg i) m k) as Es.
  pose proof (find_p_v dbg _ (i_nlm vs i) (i_find_child_s dbg i) (i_child_same dbg i) m k) as Ev.
  unfold i_find, i_find_s, i_find_v. rewrite E, Ev in H. rewrite E, Es, Ev.
  destruct (map_find_p dbg _ _ _ m k) as [[[r n] v]| | | |] eqn:Ep; try contradiction H. exists r, n, v.
  cbn [bind fst snd] in Ev |- *.
  split; [reflexivity|]. split; [reflexivity|]. split; [reflexivity|].
  assert (Hlam : m_lambda _ _ m = 2 ^ e).
  { destruct Hi as [(_ & _ & _ & _ & Hf)|[lab R]]; [apply (mf_lam _ _ _ _ _ _ Hf)|apply (mr_lam _ _ _ _ _ _ _ _ _ _ _ R)]. }
  split.
  - destruct Hi as [(_ & _ & _ & _ & Hf)|[lab R]].
    + unfold map_find_p in Ep. destruct (check_key k) as [[]| | | |]; try discriminate Ep. cbn [bind] in Ep.
      destruct (so_fresh _ _ _ _ _ _ _ _ _ _ PK _ _ _ (mf_store _ _ _ _ _ _ Hf)) as [Hz _]. rewrite Hz, orb_true_r in Ep.
      injection Ep as _ <- <-. cbn [v_edges v_steps]. clear; lia.
    + pose proof (mr_store _ _ _ _ _ _ _ _ _ _ _ R) as Hs.
      destruct (so_root _ _ _ _ _ _ _ _ _ _ PK _ _ _ _ _ Hs) as (root & Er & Hroot).
      apply (find_slots dbg _ _ (i_find_child_s dbg i) (m_trie _ _ m) loc e (i_nodes dbg vs i m + i_extra i)) with
        (m := m) (S := S) (root := root) (r := r) (k := k); eauto.
      * intros p x s Hp Hsy. destruct (HK _ _ _ _ _ p x s Hs Hp Hsy) as (z & c & Ez & Hc). exists z, c. split; [exact Ez|]. split; [exact Hc|].
        intros Hz. pose proof (i_child_same dbg i (m_trie _ _ m) x s) as Hsame. rewrite Ez in Hsame. cbn [bind fst] in Hsame.
        rewrite (so_find _ _ _ _ _ _ _ _ _ _ PK _ _ _ _ _ p x s Hs Hp Hsy) in Hsame. injection Hsame as Hsame.
        destruct (loc !! (s :: p)); [cbn in Hsame; congruence|]. cbn in Hsame. congruence.
      * apply (mr_codes _ _ _ _ _ _ _ _ _ _ _ R).
  - rewrite <- Hlam. apply (find_cost dbg _ _ (i_compare_le vs i) m k r v Hlen Ev).
Qed.
